(** Determinants of real matrices: mathcomp's [\det] over Coq's real numbers. *)
From Coq Require Import Reals Lra Lia ClassicalEpsilon FunctionalExtensionality.
From mathcomp Require Import ssreflect ssrfun ssrbool eqtype ssrnat seq choice fintype bigop ssralg matrix.
From Verif Require Import RealBase.
Set Implicit Arguments.
Unset Strict Implicit.
Unset Printing Implicit Defensive.

Definition reqb (x y : R) : bool := if Req_EM_T x y then true else false.
Lemma reqP : Equality.axiom reqb.
Proof. move=> x y; rewrite /reqb; case: Req_EM_T => H; by constructor. Qed.
Canonical R_eqType := EqType R (EqMixin reqP).

Definition rfind (P : pred R) (n : nat) : option R :=
  match excluded_middle_informative (exists x, P x) with
  | left H => Some (proj1_sig (constructive_indefinite_description (fun x => P x) H))
  | right _ => None
  end.
Lemma rfind_ok : forall P n x, rfind P n = Some x -> P x.
Proof.
  move=> P n x; rewrite /rfind. case: excluded_middle_informative => // H [<-].
  exact: (proj2_sig (constructive_indefinite_description (fun x => P x) H)).
Qed.
Lemma rfind_ex : forall P : pred R, (exists x, P x) -> exists n, rfind P n.
Proof. move=> P H. exists 0%nat. rewrite /rfind. by case: excluded_middle_informative. Qed.
Lemma rfind_ext : forall P Q : pred R, P =1 Q -> rfind P =1 rfind Q.
Proof. move=> P Q H n. have -> : P = Q by apply: functional_extensionality. by []. Qed.
Definition R_choiceMixin := @Choice.Mixin R rfind rfind_ok rfind_ex rfind_ext.
Canonical R_choiceType := ChoiceType R R_choiceMixin.

Definition R_zmodMixin := ZmodMixin
  (fun x y z => esym (Rplus_assoc x y z)) Rplus_comm Rplus_0_l Rplus_opp_l.
Canonical R_zmodType := ZmodType R R_zmodMixin.
Lemma R1_neq0 : R1 != R0.
Proof. apply/eqP. exact: R1_neq_R0. Qed.
Definition R_comRingMixin := ComRingMixin
  (fun x y z => esym (Rmult_assoc x y z)) Rmult_comm Rmult_1_l Rmult_plus_distr_r R1_neq0.
Canonical R_ringType := RingType R R_comRingMixin.
Canonical R_comRingType := ComRingType R Rmult_comm.

(** The determinant of the [n] by [n] corner of [A]. *)
Definition detR (n : nat) (A : nat -> nat -> R) : R := (\det (\matrix_(i < n, j < n) A i j))%R.

Open Scope ring_scope.
Lemma rsum_big : forall n f, rsum n f = \sum_(i < n) f (nat_of_ord i).
Proof.
  elim=> [|n IH] f; first by rewrite big_ord0.
  rewrite big_ord_recr /= -IH. by [].
Qed.
Lemma exp_big : forall n f, exp (rsum n f) = \prod_(i < n) exp (f (nat_of_ord i)).
Proof.
  elim=> [|n IH] f; first by rewrite big_ord0 /= exp_0.
  rewrite big_ord_recr /= -IH exp_plus. by [].
Qed.
Lemma det_lower : forall n (L : nat -> nat -> R), (forall i j, (i < j)%coq_nat -> L i j = 0) ->
  detR n L = \prod_(i < n) L i i.
Proof.
  move=> n L H. rewrite /detR det_trig.
  - by apply: eq_bigr => i _; rewrite mxE.
  - apply/is_trig_mxP => i j Hij. rewrite mxE. apply: H. exact/ltP.
Qed.
Lemma det_factor : forall n (A L : nat -> nat -> R), (forall i j, (i < j)%coq_nat -> L i j = 0) ->
  (forall i j, (i < n)%coq_nat -> (j < n)%coq_nat -> A i j = rsum n (fun k => L i k * L j k)) ->
  detR n A = detR n L * detR n L.
Proof.
  move=> n A L HL HA. rewrite /detR.
  have -> : (\matrix_(i < n, j < n) A i j) = (\matrix_(i < n, j < n) L i j) *m (\matrix_(i < n, j < n) L i j)^T.
  { apply/matrixP => i j. rewrite !mxE HA; [|exact/ltP|exact/ltP].
    rewrite rsum_big. apply: eq_bigr => k _. by rewrite !mxE. }
  by rewrite det_mulmx det_tr.
Qed.
Lemma det_mul : forall n (A B : nat -> nat -> R),
  detR n (fun i j => rsum n (fun k => A i k * B k j)) = detR n A * detR n B.
Proof.
  move=> n A B. rewrite /detR -det_mulmx. congr (\det _). apply/matrixP => i j. rewrite !mxE rsum_big.
  apply: eq_bigr => k _. by rewrite !mxE.
Qed.
Lemma det_transpose : forall n (A : nat -> nat -> R), detR n (fun i j => A j i) = detR n A.
Proof. move=> n A. rewrite /detR -det_tr. congr (\det _). apply/matrixP => i j. by rewrite !mxE. Qed.
Lemma det_ext : forall n (A B : nat -> nat -> R), (forall i j, (i < n)%coq_nat -> (j < n)%coq_nat -> A i j = B i j) ->
  detR n A = detR n B.
Proof. move=> n A B H. rewrite /detR. congr (\det _). apply/matrixP => i j. rewrite !mxE. apply: H; exact/ltP. Qed.
Close Scope ring_scope.

Open Scope R_scope.
(** If L is lower triangular with positive diagonal and L L^T = A then det A is
    positive and the exponential of the sum of the logarithms of the diagonal of
    L is its square root. *)
Lemma det_cholesky : forall n (A L : nat -> nat -> R),
  (forall i j, (i < j)%coq_nat -> L i j = 0) -> (forall i, 0 < L i i) ->
  (forall i j, (i < n)%coq_nat -> (j < n)%coq_nat -> A i j = rsum n (fun k => L i k * L j k)) ->
  0 < detR n A /\ exp (rsum n (fun i => ln (L i i))) = sqrt (detR n A).
Proof.
  move=> n A L HL HP HA. rewrite (det_factor HL HA). 
  have E : exp (rsum n (fun i => ln (L i i))) = detR n L.
  { rewrite exp_big det_lower //. apply: eq_bigr => i _. exact: exp_ln. }
  have P : 0 < detR n L by rewrite -E; exact: exp_pos.
  change (GRing.mul (detR n L) (detR n L)) with (detR n L * detR n L).
  split; first exact: Rmult_lt_0_compat.
  rewrite E sqrt_square //. exact: Rlt_le.
Qed.
Lemma det_lower_pos : forall n (L : nat -> nat -> R),
  (forall i j, (i < j)%coq_nat -> L i j = 0) -> (forall i, 0 < L i i) ->
  detR n L = exp (rsum n (fun i => ln (L i i))).
Proof. move=> n L HL HP. rewrite exp_big det_lower //. apply: eq_bigr => i _. symmetry. exact: exp_ln. Qed.
Print Assumptions det_cholesky.
