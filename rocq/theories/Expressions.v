(** Expressions: the objects built before a keyword expression of [gensit
    summarise] / [gensit plot] is evaluated: check_object_availability and
    instantiate_object_from_expression, outputs.py 1678-1790, as called by
    evaluate_expressions, outputs.py 2680-2694. *)
From Coq Require Import List String Ascii Bool Arith.
From Verif Require Import Base PyMonad Inputs OutputSearch Summarise.
Import ListNotations.
Open Scope string_scope.
Open Scope nat_scope.
Open Scope list_scope.

(** \w on ASCII. *)
Definition word (c : ascii) : bool :=
  let n := nat_of_ascii c in
  ((48 <=? n) && (n <=? 57)) || ((65 <=? n) && (n <=? 90)) || ((97 <=? n) && (n <=? 122)) || (n =? 95).
Definition dot : ascii := "."%char.

(** \b between the last character of [before] (reversed) and the first of
    [after]. *)
Definition boundary (before after : text) : bool :=
  xorb (match before with c :: _ => word c | [] => false end)
       (match after with c :: _ => word c | [] => false end).

(** [^.]* from a position: the longest run without a dot and what follows. *)
Fixpoint run_to_dot (l : text) : text * text :=
  match l with
  | [] => ([], [])
  | c :: r => if Ascii.eqb c dot then ([], l) else let p := run_to_dot r in (c :: fst p, snd p)
  end.
(** Backing off to the last position with a word boundary: [body] is the
    reversed run, [rest] what follows; the character before the run is the dot. *)
Fixpoint back_off (body rest : text) : option (text * text) :=
  if boundary (body ++ [dot]) rest then Some (rev body, rest)
  else match body with
       | [] => None
       | c :: b => back_off b (c :: rest)
       end.

Fixpoint drop_prefix (p l : text) : option text :=
  match p, l with
  | [], _ => Some l
  | x :: p', y :: l' => if Ascii.eqb x y then drop_prefix p' l' else None
  | _ :: _, [] => None
  end.

(** A match of \bNAME\.[^.]*\b at the start of [l]: what comes after the dot
    (obj.split("NAME.")[-1], outputs.py 1691), and the rest. *)
Definition match_here (name : text) (before l : text) : option (text * text) :=
  match drop_prefix (name ++ [dot]) l with
  | None => None
  | Some after =>
      if boundary before l
      then let p := run_to_dot after in back_off (rev (fst p)) (snd p)
      else None
  end.

(** re.findall, scanning from left to right; [fuel] bounds the number of
    characters still to read. *)
Fixpoint find_calls (fuel : nat) (name : text) (before l : text) : list text :=
  match fuel with
  | 0 => []
  | S n =>
      match match_here name before l with
      | Some (call, rest) => call :: find_calls n name (rev (name ++ dot :: call) ++ before) rest
      | None => match l with [] => [] | c :: r => find_calls n name (c :: before) r end
      end
  end.
Definition calls (name expr : text) : list text := find_calls (S (List.length expr)) name [] expr.

(** What building needs: whether the table itself can be built from the inputs
    and whether the sampler can be built from the table. *)
Record builders := mkbuilders { b_table : bool; b_sampler : bool }.

(** One branch of outputs.py 1693-1790; [have] are the attributes that are not
    None.  The caller passes instance = 0 (outputs.py 2688), which the
    intensity model adds to a text (spatial_interaction_models/__init__.py 52),
    as HarrisWilson does (HarrisWilsonModel.py 38); NeuralNet is called without
    its required config and trial; [0**kwargs] (line 1785) raises.  'sim' is
    never built.  safe_delete (misc_utils.py 633-637) deletes nothing. *)
Definition is (x : string) (call : text) : bool := teqb call (tx x).
Definition need_data (have : list string) : res unit :=
  if memb "config" have && memb "inputs" have then Ok tt else Raise EExn.
Definition build_table (b : builders) (have : list string) : res (list string) :=
  do _ <- need_data have ; if b_table b then Ok ("ct" :: have) else Raise EExn.
Definition instantiate_one (b : builders) (have : list string) (call : text) : res (list string) :=
  if is "config" call then (if memb "config" have then Ok have else Raise EExn)
  else if is "inputs" call then (if memb "inputs" have then Ok have else Raise EExn)
  else if is "ct" call then build_table b have
  else if is "ct_mcmc" call then
    do have' <- (if memb "ct" have then Ok have else build_table b have) ;
    if b_sampler b then Ok ("ct_mcmc" :: have') else Raise EExn
  else if is "intensity_model" call then do _ <- need_data have ; Raise EType
  else if is "physics_model" call then
    if memb "config" have then (if memb "intensity_model" have then Raise EType else Raise EAttr) else Raise EExn
  else if is "neural_network" call then do _ <- need_data have ; Raise EType
  else if is "learning_model" call then
    if memb "config" have
    then if memb "neural_network" have
         then if memb "physics_model" have then Raise EType
              else (if memb "intensity_model" have then Raise EType else Raise EAttr)
         else do _ <- need_data have ; Raise EType
    else Raise EExn
  else Ok have.

(** instantiate_object_from_expression, outputs.py 1689-1790. *)
Definition instantiate (b : builders) (have : list string) (expr : text) : res (list string) :=
  foldM (instantiate_one b) (calls (tx "outputs") expr) have.

(** The objects an expression may ask for. *)
Definition objects : list string :=
  ["ct"; "ct_mcmc"; "intensity_model"; "physics_model"; "neural_network"; "learning_model"].
