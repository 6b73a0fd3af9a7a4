(** Sequencing notations for the Python-exception results of [Base].  Nothing
    in here models code of /repo. *)
From Verif Require Import Base.

Notation "'do' x <- a ; b" := (rbind a (fun x => b))
  (at level 200, x pattern, a at level 100, b at level 200, right associativity).
Notation "a ;; b" := (rbind a (fun _ => b)) (at level 100, b at level 200, right associativity).

Lemma rbind_Ok : forall A B (a : A) (f : A -> res B), rbind (Ok a) f = f a.
Proof. reflexivity. Qed.

Lemma rbind_Ok_inv : forall A B (r : res A) (f : A -> res B) b,
  rbind r f = Ok b -> exists a, r = Ok a /\ f a = Ok b.
Proof. intros A B [a|e] f b H; cbn in H; [eauto|discriminate]. Qed.
