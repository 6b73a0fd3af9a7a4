(** Validation of a whole configuration, gensit/config.py 620-945: the template of
    parameters (data/inputs/configs/schemas/cfg_parameters.json) is walked, every
    setting is looked up in the settings and in the schema and checked, sweeps are
    recorded or replaced by their default.

    The check of one entry against its schema (instantiate_data_type and check,
    config_data_structures.py 13-38) is an arbitrary function here; Schema.v models
    it.  Logging is dropped; sys.exit and exceptions are both an error. *)
From Coq Require Import List ZArith Lia Bool Arith String Ascii.
From Verif Require Import Base PyMonad ConfigTree.
Import ListNotations.
Local Open Scope string_scope.
Local Open Scope nat_scope.
Local Open Scope list_scope.

(** bool(x) *)
Definition truthy (n : node) : bool :=
  match n with
  | Leaf LNone => false
  | Leaf (LBool b) => b
  | Leaf (LNum z) => negb (Z.eqb z 0)
  | Leaf (LStr s) => negb (String.eqb s "")
  | Dict l => match l with [] => false | _ => true end
  | LList l => match l with [] => false | _ => true end
  end.
Definition truthy_opt (n : option node) : bool := match n with Some x => truthy x | None => false end.

Definition is_dict (n : option node) : bool := match n with Some (Dict _) => true | _ => false end.

(** Dictionaries keyed by key path elements. *)
Fixpoint kget {A} (k : key) (l : list (key * A)) : option A :=
  match l with [] => None | (k', v) :: t => if key_eqb k k' then Some v else kget k t end.
Fixpoint kset {A} (k : key) (v : A) (l : list (key * A)) : list (key * A) :=
  match l with
  | [] => [(k, v)]
  | (k', v') :: t => if key_eqb k k' then (k', v) :: t else (k', v') :: kset k v t
  end.

(** [l[-n-1]] *)
Definition from_end (n : nat) (p : list key) : res key :=
  match nth_error (rev p) n with Some k => Ok k | None => Raise EIndex end.
Definition last_is (s : string) (p : list key) : bool :=
  match nth_error (rev p) 0 with Some k => key_eqb k (KS s) | None => false end.

(** A value used as a key to look for in the settings. *)
Definition as_key (n : node) : option key :=
  match n with
  | Leaf (LStr s) => Some (KS s)
  | Leaf (LNum z) => if Z.leb 0 z then Some (KI (Z.to_nat z)) else None
  | Leaf (LBool b) => Some (KI (if b then 1 else 0))
  | _ => None
  end.

(** What validation changes (config.py 89-97): the settings, sweep_active,
    isolated_sweep_paths and coupled_sweep_paths. *)
Record vst := VST {
  v_set : node;
  v_act : bool;
  v_iso : list (key * list key);
  v_cou : list (key * list (key * list key))
}.
Definition with_set (s : node) (st : vst) : vst := VST s (v_act st) (v_iso st) (v_cou st).
Definition with_act (b : bool) (st : vst) : vst := VST (v_set st) b (v_iso st) (v_cou st).
Definition with_iso (l : list (key * list key)) (st : vst) : vst := VST (v_set st) (v_act st) l (v_cou st).
Definition with_cou (l : list (key * list (key * list key))) (st : vst) : vst :=
  VST (v_set st) (v_act st) (v_iso st) l.

Definition or_none (n : option node) : node := match n with Some x => x | None => Leaf LNone end.

Section Validate.
  (** base_schema *)
  Variable schema : node.
  (** instantiate_data_type(data, schema).check() does not raise. *)
  Variable entry_ok : node -> node -> bool.

  Definition check_entry (data sch : node) : res unit := if entry_ok data sch then Ok tt else Raise EExn.

  (** [isinstance(x,dict) and not x['optional']] raises, config.py 697-703, 857-864. *)
  Definition check_optional (sch : option node) : res unit :=
    match sch with
    | Some (Dict l) => match dget (KS "optional") l with
                       | None => Raise EKey
                       | Some b => if truthy b then Ok tt else Raise EExn
                       end
    | _ => Ok tt
    end.

  (** Check 4, config.py 731-757: without a range the sweep is replaced by its
      default. *)
  Definition check_range (p : list key) (d : list (key * node)) (st : vst) : res (vst * bool) :=
    match dget (KS "range") d with
    | Some _ => Ok (st, true)
    | None =>
      match path_set false (v_set st) (or_none (fst (path_get (p ++ [KS "default"]) (v_set st)))) (removelast p) with
      | Ok (s', true) => Ok (with_set s' st, false)
      | _ => Raise EExn
      end
    end.

  (** Check 5, config.py 759-806: coupled sweeps are recorded under their target,
      isolated ones that have a range under their own name (or, below the key
      'file', under the key above it). *)
  Definition record_sweep (p : list key) (d : list (key * node)) (is_sweep : bool) (st : vst) : res vst :=
    if match dget (KS "coupled") d with Some b => truthy b | None => false end then
      match dget (KS "target_name") d with
      | None => Raise EExn
      | Some tn =>
        match as_key tn with
        | None => Raise EExn
        | Some tk =>
          if path_exists tk (v_set st) false then
            do name <- from_end 1 p ;
            match kget tk (v_cou st) with
            | Some m => Ok (with_cou (kset tk (kset name (removelast p) m) (v_cou st)) st)
            | None =>
              match kget tk (v_iso st) with
              | Some q => Ok (with_cou (kset tk (kset name (removelast p) [(tk, q)]) (v_cou st)) st)
              | None =>
                match path_find tk (v_set st) with
                | q :: _ => Ok (with_cou (kset tk (kset name (removelast p) [(tk, q)]) (v_cou st)) st)
                | [] => Raise EExn
                end
              end
            end
          else Raise EExn
        end
      end
    else if is_sweep then
      do a <- from_end 1 p ;
      do name <- (if key_eqb a (KS "file") then from_end 2 p else Ok a) ;
      Ok (with_iso (kset name (removelast p) (v_iso st)) st)
    else Ok st.

  (** Checks 2-5, config.py 705-806. *)
  Definition sweep_checks (p : list key) (sv : option node) (st : vst) : res vst :=
    match fst (path_get (removelast p) schema) with
    | None => Raise EType
    | Some par =>
      do b <- get_item par (KS "sweepable") ;
      if truthy b then
        match sv with
        | Some (Dict d) =>
          match dget (KS "default") d with
          | None => Raise EExn
          | Some _ => do r <- check_range p d st ; record_sweep p d (snd r) (fst r)
          end
        | _ => Raise EExn
        end
      else Raise EExn
    end.

  (** Check 7, config.py 812-893. *)
  Definition use_default (p : list key) (sf : bool) (schv : option node) (st : vst) : res vst :=
    do r <- (if sf then
               let c1 := path_get (p ++ [KS "default"]) (v_set st) in
               let c := if snd c1 then c1 else path_get (removelast p) (v_set st) in
               if snd c then
                 match path_set false (v_set st) (or_none (fst c)) (removelast p) with
                 | Ok (s', true) => Ok (with_set s' st, c)
                 | _ => Raise EExn
                 end
               else Raise EExn
             else
               let c := path_get (removelast p) (v_set st) in
               do _ <- (if snd c then Ok tt else check_optional (fst (path_get (removelast p) schema))) ;
               Ok (st, c)) ;
    if snd (snd r) then
      match schv with
      | Some sch => do e <- get_item sch (KS "default") ; do _ <- check_entry (or_none (fst (snd r))) e ; Ok (fst r)
      | None => Raise EType
      end
    else Ok (fst r).

  (** A position of the template that is not a list, nor a dictionary under a key
      other than 'sweep', config.py 679-941: the new state, and whether the
      dictionary below is validated in turn. *)
  Definition visit (p : list key) (below_is_dict : bool) (st : vst) : res (vst * bool) :=
    let s := path_get p (v_set st) in
    let sch := path_get p schema in
    if negb (snd sch) then Raise EExn else
    do _ <- (if negb (existsb (key_eqb (KS "sweep")) p) && negb (snd s) then check_optional (fst sch) else Ok tt) ;
    do st1 <- (if last_is "sweep" p && snd s then sweep_checks p (fst s) st else Ok st) ;
    let st2 := if last_is "sweep_mode" p then with_act (truthy_opt (fst s)) st1 else st1 in
    do st3 <- (if last_is "sweep" p && (negb (v_act st2) || negb (snd s)) then use_default p (snd s) (fst sch) st2
               else Ok st2) ;
    if snd s then
      if has_sweep p (v_set st3) && is_dict (fst s) && below_is_dict then Ok (st3, true)
      else do _ <- check_entry (or_none (fst s)) (or_none (fst sch)) ; Ok (st3, false)
    else Ok (st3, false).

  (** validate, config.py 620-945.  [key_path] is one list shared by all calls:
      keys are appended and [remove] takes away the first equal one. *)
  Fixpoint validate (t : node) (pst : list key * vst) : res (list key * vst) :=
    let step (k : key) (v : node) (pst : list key * vst) : res (list key * vst) :=
      let p1 := fst pst ++ [k] in
      do r <- match v with
              | LList l =>
                (fix each (i : nat) (l : list node) (pst : list key * vst) : res (list key * vst) :=
                   match l with
                   | [] => Ok pst
                   | x :: l' =>
                     do r <- validate x (fst pst ++ [KI i], snd pst) ;
                     each (S i) l' (remove_first (KI i) (fst r), snd r)
                   end) 0 l (p1, snd pst)
              | Dict _ =>
                if key_eqb k (KS "sweep") then
                  do q <- visit p1 true (snd pst) ;
                  if snd q then validate v (p1, fst q) else Ok (p1, fst q)
                else validate v (p1, snd pst)
              | Leaf _ => do q <- visit p1 false (snd pst) ; Ok (p1, fst q)
              end ;
      Ok (remove_first k (fst r), snd r) in
    match t with
    | Dict l =>
      (fix go (l : list (key * node)) (pst : list key * vst) : res (list key * vst) :=
         match l with
         | [] => Ok pst
         | (k, v) :: l' => do r <- step k v pst ; go l' r
         end) l pst
    | LList l =>
      (fix go (i : nat) (l : list node) (pst : list key * vst) : res (list key * vst) :=
         match l with
         | [] => Ok pst
         | v :: l' => do r <- step (KI i) v pst ; go (S i) l' r
         end) 0 l pst
    | Leaf (LStr s) =>
      (fix go (i : nat) (n : nat) (pst : list key * vst) : res (list key * vst) :=
         match n with
         | 0 => Ok pst
         | S n' =>
           do q <- visit (fst pst ++ [KI i]) false (snd pst) ;
           go (S i) n' (remove_first (KI i) (fst pst ++ [KI i]), fst q)
         end) 0 (String.length s) pst
    | Leaf _ => Raise EType
    end.

  (** The first call: Config() resets the state (config.py 89-97). *)
  Definition validate_config (t settings : node) : res vst :=
    do r <- validate t ([], VST settings false [] []) ; Ok (snd r).
End Validate.
