(** Specification vocabulary for configuration trees: what a key path reaches,
    independently of the functions of config.py. *)
From Coq Require Import List ZArith Bool Arith String.
From Verif Require Import Base ConfigTree.
Import ListNotations.
Local Open Scope nat_scope.

(** [reaches s p w]: following the keys [p] from [s] leads to [w]. *)
Inductive reaches : node -> list key -> node -> Prop :=
| r_here : forall s, reaches s [] s
| r_dict : forall l k c p w, In (k, c) l -> reaches c p w -> reaches (Dict l) (k :: p) w
| r_list : forall l n c p w, nth_error l n = Some c -> reaches c p w ->
                             reaches (LList l) (KI n :: p) w.

(** Every dictionary of the tree has distinct keys (true of every Python
    dictionary). *)
Inductive wf : node -> Prop :=
| wf_leaf : forall l, wf (Leaf l)
| wf_dict : forall l, NoDup (map fst l) -> (forall k c, In (k, c) l -> wf c) -> wf (Dict l)
| wf_list : forall l, (forall c, In c l -> wf c) -> wf (LList l).

Definition prefix (q p : list key) : Prop := exists r, p = q ++ r.

(** Neither path lies on or below the other. *)
Definition unrelated (p q : list key) : Prop := ~ prefix p q /\ ~ prefix q p.

(** The container that would hold the last key of [p] exists: every step
    before the last one goes through an existing dictionary, and the last key
    belongs to a dictionary or is an index of a list. *)
Definition holder_exists (s : node) (p : list key) : Prop :=
  exists q k, p = q ++ [k] /\
    (forall q1 q2, q = q1 ++ q2 -> q2 <> [] -> exists l, reaches s q1 (Dict l)) /\
    ((exists l, reaches s q (Dict l)) \/
     (exists l n, reaches s q (LList l) /\ k = KI n /\ n < List.length l)).

(** No key occurs twice along any path of the tree. *)
Definition no_repeated_keys (s : node) : Prop :=
  forall p w, reaches s p w -> NoDup p.
