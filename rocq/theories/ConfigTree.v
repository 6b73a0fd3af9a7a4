(** Model of the configuration tree and of the key path operations of
    /repo/gensit/config.py.  Configurations are what the TOML/JSON readers
    return: nested dictionaries and lists of scalars.  Python dictionaries are
    association lists in insertion order; a tree has no sharing between
    branches (the readers build none), so the in-place mutation done by the
    code is modelled by returning the new tree. *)
From Coq Require Import List ZArith Lia Bool Arith String Ascii.
From Coq Require Import DecimalString.
From Verif Require Import Base.
Import ListNotations.
Local Open Scope nat_scope.

(** One element of a key path: a dictionary key or a list index.  Negative
    indices are not modelled (no caller produces them). *)
Inductive key := KS (s : string) | KI (n : nat).

(** Scalar settings.  Floats are not distinguished from integers: the code
    modelled here only stores, compares and moves scalars. *)
Inductive leaf := LNone | LBool (b : bool) | LNum (z : Z) | LStr (s : string).

(** A configuration tree. *)
Inductive node :=
| Leaf (l : leaf)
| Dict (l : list (key * node))
| LList (l : list node).

Definition key_eqb (a b : key) : bool :=
  match a, b with
  | KS s, KS t => String.eqb s t
  | KI m, KI n => Nat.eqb m n
  | _, _ => false
  end.

(** Python [d.get(k)] / [d[k]] on a dictionary. *)
Fixpoint dget (k : key) (l : list (key * node)) : option node :=
  match l with
  | [] => None
  | (k', v) :: t => if key_eqb k k' then Some v else dget k t
  end.

(** Python [d[k] = v]: replaces in place, appends a new key at the end. *)
Fixpoint dset (k : key) (v : node) (l : list (key * node)) : list (key * node) :=
  match l with
  | [] => [(k, v)]
  | (k', v') :: t => if key_eqb k k' then (k', v) :: t else (k', v') :: dset k v t
  end.

(** Python [del d[k]] for a key that is present. *)
Fixpoint ddel (k : key) (l : list (key * node)) : list (key * node) :=
  match l with
  | [] => []
  | (k', v') :: t => if key_eqb k k' then t else (k', v') :: ddel k t
  end.

(** Python [del l[n]] for an index in range. *)
Fixpoint ldel (n : nat) (l : list node) : list node :=
  match n, l with
  | _, [] => []
  | 0, _ :: t => t
  | S n, x :: t => x :: ldel n t
  end.

(** Python [l[n] = v] for an index in range. *)
Fixpoint lset (n : nat) (v : node) (l : list node) : list node :=
  match n, l with
  | _, [] => []
  | 0, _ :: t => v :: t
  | S n, x :: t => x :: lset n v t
  end.

(** The items iterated by [value.items() if dict else enumerate(value) if list
    else []] (config.py 266-267, 280-281). *)
Definition items (s : node) : list (key * node) :=
  match s with
  | Leaf _ => []
  | Dict l => l
  | LList l => combine (map KI (seq 0 (List.length l))) l
  end.

(** Python [s[k]]; a string indexed by an integer gives a one-character
    string. *)
Definition get_item (s : node) (k : key) : res node :=
  match s, k with
  | Dict l, _ => match dget k l with Some v => Ok v | None => Raise EKey end
  | LList l, KI n => match nth_error l n with Some v => Ok v | None => Raise EIndex end
  | LList l, KS _ => Raise EType
  | Leaf (LStr t), KI n =>
      match String.get n t with
      | Some a => Ok (Leaf (LStr (String a EmptyString)))
      | None => Raise EIndex
      end
  | Leaf _, _ => Raise EType
  end.

(** Python [s[k] = v]. *)
Definition set_item (s : node) (k : key) (v : node) : res node :=
  match s, k with
  | Dict l, _ => Ok (Dict (dset k v l))
  | LList l, KI n => if n <? List.length l then Ok (LList (lset n v l)) else Raise EIndex
  | LList l, KS _ => Raise EType
  | Leaf _, _ => Raise EType
  end.

(** The scalar a key is equal to, when compared with a list element. *)
Definition key_eq_node (k : key) (x : node) : bool :=
  match k, x with
  | KS s, Leaf (LStr t) => String.eqb s t
  | KI n, Leaf (LNum z) => Z.eqb (Z.of_nat n) z
  | KI 0, Leaf (LBool false) => true
  | KI 1, Leaf (LBool true) => true
  | _, _ => false
  end.

(** Python [k in s]: key membership for a dictionary, value membership for a
    list, substring test for a string, TypeError for other scalars. *)
Definition py_in (k : key) (s : node) : res bool :=
  match s, k with
  | Dict l, _ => Ok (match dget k l with Some _ => true | None => false end)
  | LList l, _ => Ok (existsb (key_eq_node k) l)
  | Leaf (LStr t), KS sub => Ok (match String.index 0 sub t with Some _ => true | None => false end)
  | Leaf _, _ => Raise EType
  end.

Definition is_container (s : node) : bool :=
  match s with Leaf _ => false | _ => true end.

Definition not_found : node := Leaf (LStr "not-found").

Definition is_not_found (s : node) : bool :=
  match s with Leaf (LStr t) => String.eqb t "not-found" | _ => false end.

(** config.py 305-320: the loop of [path_get].  The key ['sweep'] is only
    looked up in dictionaries, with default ['not-found']. *)
Fixpoint path_get_loop (s : node) (p : list key) : option node * bool :=
  match p with
  | [] => (Some s, negb (is_not_found s))
  | k :: rest =>
      if key_eqb k (KS "sweep") then
        match s with
        | Dict l =>
            match dget k l with
            | None => (None, false)
            | Some v => if is_not_found v then (None, false) else path_get_loop v rest
            end
        | _ => (None, false)
        end
      else
        match get_item s k with
        | Ok v => path_get_loop v rest
        | Raise _ => (None, false)
        end
  end.

(** config.py 298-320. *)
Definition path_get (p : list key) (s : node) : option node * bool :=
  match p with
  | [] => (None, false)
  | _ => path_get_loop s p
  end.

(** config.py 344-368.  Without [overwrite] the child is
    [settings.get(key, {})]: for a missing key the recursion works on a fresh
    dictionary that is thrown away; a list or a scalar has no [get]. *)
Fixpoint path_set (overwrite : bool) (s v : node) (p : list key) : res (node * bool) :=
  match p with
  | [] => Ok (s, false)
  | [k] => rbind (set_item s k v) (fun s' => Ok (s', true))
  | k :: rest =>
      if overwrite then
        rbind (path_set overwrite (Dict []) v rest)
          (fun r => rbind (set_item s k (fst r)) (fun s' => Ok (s', snd r)))
      else
        match s with
        | Dict l =>
            match dget k l with
            | Some c => rbind (path_set overwrite c v rest)
                          (fun r => Ok (Dict (dset k (fst r) l), snd r))
            | None => rbind (path_set overwrite (Dict []) v rest)
                        (fun r => Ok (s, snd r))
            end
        | _ => Raise EAttr
        end
  end.

(** config.py 370-385.  The value returned by the nested call is ignored. *)
Fixpoint path_modify (s v : node) (p : list key) : res (node * bool) :=
  match p with
  | [] => Ok (s, false)
  | [k] =>
      rbind (py_in k s) (fun b =>
        if b then rbind (set_item s k v) (fun s' => Ok (s', true))
        else Ok (s, false))
  | k :: rest =>
      rbind (py_in k s) (fun b =>
        if b then
          rbind (get_item s k) (fun c =>
            rbind (path_modify c v rest) (fun r =>
              rbind (set_item s k (fst r)) (fun s' => Ok (s', true))))
        else Ok (s, false))
  end.

(** config.py 334-337: a numeric string key is turned into an index.
    [string_to_numeric] goes through float32 (misc_utils.py 1053-1056); the
    rounding of indices above 2^24 and non-ASCII digits are not modelled. *)
Definition numeric_key (k : key) : key :=
  match k with
  | KS s => match NilZero.uint_of_string s with
            | Some u => KI (Nat.of_uint u)
            | None => k
            end
  | KI _ => k
  end.

(** config.py 322-342.  Returns the flag and the tree after the in-place
    deletion.  (The code returns the innermost container instead of the root;
    all callers ignore it.)  An exception below the first level is caught, so
    the flag stays [false]; [key_path[0] < len(settings)] with a string key on
    a list raises at the first level. *)
Fixpoint path_delete (s : node) (p : list key) (deleted : bool) : res (bool * node) :=
  match p with
  | [] => Ok (deleted, s)
  | [k] =>
      match s, k with
      | Dict l, _ => match dget k l with
                     | Some _ => Ok (true, Dict (ddel k l))
                     | None => Ok (false, s)
                     end
      | LList l, KI n => if n <? List.length l then Ok (true, LList (ldel n l)) else Ok (false, s)
      | LList _, KS _ => Raise EType
      | Leaf _, _ => Ok (false, s)
      end
  | k :: rest =>
      let k' := numeric_key k in
      match get_item s k' with
      | Raise _ => Ok (false, s)
      | Ok c =>
          match path_delete c rest false with
          | Raise _ => Ok (false, s)
          | Ok (b, c') =>
              match set_item s k' c' with
              | Ok s' => Ok (b, s')
              | Raise _ => Ok (b, s)
              end
          end
      end
  end.

(** config.py 265-273. *)
Fixpoint path_exists (key : ConfigTree.key) (value : node) (found : bool) : bool :=
  let step (k : ConfigTree.key) (v : node) (found : bool) : bool :=
    if key_eqb k key then true
    else if is_container v then path_exists key v found
    else found in
  match value with
  | Leaf _ => found
  | Dict l =>
      (fix go (l : list (ConfigTree.key * node)) (found : bool) : bool :=
         match l with
         | [] => found
         | (k, v) :: t => go t (step k v found)
         end) l found
  | LList l =>
      (fix go (i : nat) (l : list node) (found : bool) : bool :=
         match l with
         | [] => found
         | v :: t => go (S i) t (step (KI i) v found)
         end) 0 l found
  end.

(** Python [list.remove(k)]: removes the first equal element. *)
Fixpoint remove_first (k : key) (l : list key) : list key :=
  match l with
  | [] => []
  | x :: t => if key_eqb x k then t else x :: remove_first k t
  end.

(** config.py 275-295.  [current_key_path] and [all_key_paths] are shared
    mutable lists, threaded through the loop and the recursion as the pair
    [st].  [current_key_path.remove(k)] removes the first equal key, not the
    last. *)
Fixpoint path_find_st (key : ConfigTree.key) (s : node)
    (st : list ConfigTree.key * list (list ConfigTree.key))
  : list ConfigTree.key * list (list ConfigTree.key) :=
  let step (k : ConfigTree.key) (v : node) (st : list ConfigTree.key * list (list ConfigTree.key)) :=
    let cur1 := fst st ++ [k] in
    let acc1 := if key_eqb k key then snd st ++ [cur1] else snd st in
    let st2 := if is_container v then path_find_st key v (cur1, acc1) else (cur1, acc1) in
    (remove_first k (fst st2), snd st2) in
  match s with
  | Leaf _ => st
  | Dict l =>
      (fix go (l : list (ConfigTree.key * node)) st :=
         match l with
         | [] => st
         | (k, v) :: t => go t (step k v st)
         end) l st
  | LList l =>
      (fix go (i : nat) (l : list node) st :=
         match l with
         | [] => st
         | v :: t => go (S i) t (step (KI i) v st)
         end) 0 l st
  end.

(** The call made by every user: [path_find(key, settings, [], [])]. *)
Definition path_find (key : ConfigTree.key) (s : node) : list (list ConfigTree.key) :=
  snd (path_find_st key s ([], [])).

(** config.py 251-263. *)
Definition has_sweep (p : list key) (s : node) : bool :=
  if existsb (key_eqb (KS "sweep")) p then true
  else match fst (path_get p s) with
       | Some (Dict l) => match dget (KS "sweep") l with
                          | Some (Leaf LNone) | None => false
                          | Some _ => true
                          end
       | _ => false
       end.

(** config.py 159-185, for a setting without sweep (the sweep branch parses
    the range with the schema, which is not modelled). *)
Definition config_get (key : ConfigTree.key) (default : node) (s : node) : option node :=
  match path_find key s with
  | [] => Some default
  | p :: _ =>
      if has_sweep p s then None
      else match path_get p s with
           | (Some v, true) => Some v
           | _ => Some default
           end
  end.

(** config.py 58-87: the first occurrence of every key is replaced. *)
Fixpoint config_update (new : list (key * node)) (s : node) : res node :=
  match new with
  | [] => Ok s
  | (k, v) :: t =>
      match path_find k s with
      | [] => Raise EExn
      | p :: _ => match path_set false s v p with
                  | Ok (s', true) => config_update t s'
                  | _ => Raise EExn
                  end
      end
  end.

(** config.py 448-470. *)
Definition sweep_mode (s : node) : bool :=
  match s with
  | Dict l =>
      match dget (KS "sweep_mode") l with
      | Some (Leaf (LBool true)) =>
          existsb (fun p => negb (List.length p =? 0)) (path_find (KS "sweep") s)
      | _ => false
      end
  | _ => false
  end.
