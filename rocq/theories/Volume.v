(** C191: leapfrog trajectories and volume.  Theorems about the model in HMC.v;
    models no further code.  A trajectory maps (position, momentum) to (position,
    momentum); Jacobians are derivatives in the sense of Frechet, determinants
    mathcomp's (DetR.v). *)
From Coq Require Import List ZArith Lia Bool Arith Reals Lra FunctionalExtensionality.
From Verif Require Import Base RealBase ProbUtils SIM SIMProps HMC HMCProps DetR.
Open Scope R_scope.

(** ---- specification ----------------------------------------------------------- *)

Definition norm1 (n : nat) (h : vec) : R := rsum n (fun i => Rabs (h i)).
Definition apply (n : nat) (A : mat) (h : vec) : vec := fun i => rsum n (fun j => A i j * h j).
(** [A] is the derivative at [x] of the map [F] of n-dimensional space *)
Definition has_jacobian (n : nat) (F : vec -> vec) (x : vec) (A : mat) : Prop :=
  forall eps, 0 < eps -> exists del, 0 < del /\ forall h, norm1 n h < del ->
    norm1 n (fun i => F (fun j => x j + h j) i - F x i - apply n A h i) <= eps * norm1 n h.
(** the map [F] changes volumes at [x] by the factor [d]: its derivative there
    exists and has determinant [d] *)
Definition volume_factor (n : nat) (F : vec -> vec) (x : vec) (d : R) : Prop :=
  (exists A, has_jacobian n F x A) /\ forall A, has_jacobian n F x A -> detR n A = d.
Definition differentiable (n : nat) (F : vec -> vec) : Prop := forall x, exists A, has_jacobian n F x A.

(** phase space: the first J coordinates are the position, the next J the momentum *)
Definition momentum (J : nat) (z : vec) : vec := fun i => z (J + i)%nat.
Definition join (J : nat) (x p : vec) : vec := fun i => if Nat.ltb i J then x i else p (i - J)%nat.

(** the trajectory of a sampler with gradient [G] as a map of phase space *)
Definition trajectory (J : nat) (e : R) (G : vec -> vec) (steps : nat) (z : vec) : vec :=
  let '(x1, p1, _) := leaps steps e G (z, momentum J z, G z) in join J x1 p1.
(** the trajectory of the attraction step as a map of phase space *)
Definition attraction_trajectory (J : nat) (m : physics) (e : R) (steps : nat) (ts : theta) (z : vec) : vec :=
  let '(x1, p1, _) := x_trajectory m e steps ts z (ph_dV m ts z) (momentum J z) in join J x1 p1.

(** ---- norms ---------------------------------------------------------------------- *)

Lemma norm1_nonneg : forall n h, 0 <= norm1 n h.
Proof. intros. unfold norm1. apply rsum_nonneg. intros; apply Rabs_pos. Qed.
Lemma norm1_ext : forall n h k, (forall i, (i < n)%nat -> h i = k i) -> norm1 n h = norm1 n k.
Proof. intros n h k H. unfold norm1. apply rsum_ext; intros i Hi. rewrite (H i Hi). reflexivity. Qed.
Lemma norm1_plus : forall n a b, norm1 n (fun i => a i + b i) <= norm1 n a + norm1 n b.
Proof. intros. unfold norm1. rewrite <- rsum_add. apply rsum_le; intros. apply Rabs_triang. Qed.
Lemma norm1_scal : forall n c h, norm1 n (fun i => c * h i) = Rabs c * norm1 n h.
Proof. intros. unfold norm1. rewrite <- rsum_scal. apply rsum_ext; intros. apply Rabs_mult. Qed.
Lemma norm1_coord : forall n h i, (i < n)%nat -> Rabs (h i) <= norm1 n h.
Proof. intros n h i Hi. apply (rsum_term_le n (fun i => Rabs (h i))); [intros; apply Rabs_pos|exact Hi]. Qed.
Lemma norm1_zero : forall n h, (forall i, (i < n)%nat -> h i = 0) -> norm1 n h = 0.
Proof. intros n h H. unfold norm1. apply rsum_0; intros i Hi. rewrite (H i Hi). apply Rabs_R0. Qed.
Lemma norm1_split : forall a b h, norm1 (a + b) h = norm1 a h + norm1 b (fun k => h (a + k)%nat).
Proof. intros. unfold norm1. apply rsum_split. Qed.

Definition mbound (n : nat) (A : mat) : R := rsum n (fun i => rsum n (fun j => Rabs (A i j))).
Lemma mbound_nonneg : forall n A, 0 <= mbound n A.
Proof. intros. apply rsum_nonneg; intros. apply rsum_nonneg; intros; apply Rabs_pos. Qed.
Lemma rsum_abs : forall n f, Rabs (rsum n f) <= rsum n (fun i => Rabs (f i)).
Proof.
  induction n; intros f; cbn [rsum]; [rewrite Rabs_R0; lra|].
  pose proof (Rabs_triang (rsum n f) (f n)). specialize (IHn f). lra.
Qed.
Lemma apply_bound : forall n A h, norm1 n (apply n A h) <= mbound n A * norm1 n h.
Proof.
  intros n A h. unfold mbound. rewrite <- rsum_scal_r. unfold norm1 at 1. apply rsum_le; intros i Hi.
  unfold apply. apply Rle_trans with (1 := rsum_abs n _). rewrite <- rsum_scal_r. apply rsum_le; intros j Hj.
  rewrite Rabs_mult. apply Rmult_le_compat_l; [apply Rabs_pos|apply norm1_coord; exact Hj].
Qed.

(** ---- derivatives ------------------------------------------------------------------ *)

Lemma jac_ext : forall n F F' x A A', (forall z i, (i < n)%nat -> F z i = F' z i) ->
  (forall i j, (i < n)%nat -> (j < n)%nat -> A i j = A' i j) -> has_jacobian n F x A -> has_jacobian n F' x A'.
Proof.
  intros n F F' x A A' HF HA D eps He. destruct (D eps He) as (del & Hd & B). exists del. split; [exact Hd|].
  intros h Hh. erewrite norm1_ext; [exact (B h Hh)|]. intros i Hi. cbv beta. rewrite !HF by exact Hi. f_equal.
  unfold apply. apply rsum_ext; intros j Hj. rewrite HA by assumption. reflexivity.
Qed.

Lemma jac_comp : forall n F K x A B, has_jacobian n F x A -> has_jacobian n K (F x) B ->
  has_jacobian n (fun z => K (F z)) x (fun i j => rsum n (fun k => B i k * A k j)).
Proof.
  intros n F K x A B DF DK eps He.
  pose proof (mbound_nonneg n A) as CA. pose proof (mbound_nonneg n B) as CB.
  set (e1 := Rmin 1 (eps / (2 * (mbound n B + 1)))). set (e2 := eps / (2 * (mbound n A + 1))).
  assert (E1 : 0 < e1) by (apply Rmin_glb_lt; [lra|apply Rdiv_lt_0_compat; lra]).
  assert (E2 : 0 < e2) by (apply Rdiv_lt_0_compat; lra).
  destruct (DF e1 E1) as (d1 & P1 & B1). destruct (DK e2 E2) as (d2 & P2 & B2).
  exists (Rmin d1 (d2 / (mbound n A + 1))). split; [apply Rmin_glb_lt; [exact P1|apply Rdiv_lt_0_compat; lra]|].
  intros h Hh. pose proof (norm1_nonneg n h) as N0.
  set (k := fun j => F (fun j => x j + h j) j - F x j).
  assert (R1 : norm1 n (fun i => k i - apply n A h i) <= e1 * norm1 n h).
  { apply B1. eapply Rlt_le_trans; [exact Hh|apply Rmin_l]. }
  assert (Nk : norm1 n k <= (mbound n A + 1) * norm1 n h).
  { replace (norm1 n k) with (norm1 n (fun i => (k i - apply n A h i) + apply n A h i)) by (apply norm1_ext; intros; ring).
    eapply Rle_trans; [apply norm1_plus|]. pose proof (apply_bound n A h).
    assert (e1 <= 1) by apply Rmin_l. nra. }
  assert (Sk : norm1 n k < d2).
  { eapply Rle_lt_trans; [exact Nk|].
    assert (norm1 n h < d2 / (mbound n A + 1)) by (eapply Rlt_le_trans; [exact Hh|apply Rmin_r]).
    apply Rmult_lt_compat_l with (r := mbound n A + 1) in H; [|lra].
    replace ((mbound n A + 1) * (d2 / (mbound n A + 1))) with d2 in H by (field; lra). exact H. }
  pose proof (B2 k Sk) as R2.
  assert (EK : (fun j => F x j + k j) = F (fun j => x j + h j)).
  { apply functional_extensionality. intros j. unfold k. ring. }
  rewrite EK in R2.
  set (r1 := fun i => k i - apply n A h i) in *.
  set (r2 := fun i => K (F (fun j => x j + h j)) i - K (F x) i - apply n B k i) in *.
  assert (Q : forall i, (i < n)%nat -> K (F (fun j => x j + h j)) i - K (F x) i
      - apply n (fun i j => rsum n (fun k => B i k * A k j)) h i = r2 i + apply n B r1 i).
  { intros i Hi. unfold r2, r1, apply.
    assert (X : rsum n (fun j => rsum n (fun k0 => B i k0 * A k0 j) * h j) =
                rsum n (fun j => B i j * rsum n (fun j0 => A j j0 * h j0))).
    { rewrite (rsum_ext n _ (fun j => rsum n (fun k0 => B i k0 * A k0 j * h j))) by (intros; rewrite rsum_scal_r; reflexivity).
      rewrite rsum_swap. apply rsum_ext; intros j Hj. rewrite <- rsum_scal. apply rsum_ext; intros; ring. }
    rewrite X.
    rewrite (rsum_ext n (fun j => B i j * (k j - _)) (fun j => B i j * k j - B i j * rsum n (fun j0 => A j j0 * h j0))) by (intros; ring).
    rewrite rsum_sub. ring. }
  rewrite (norm1_ext n _ _ Q).
  eapply Rle_trans; [apply norm1_plus|]. 
  assert (T2 : norm1 n r2 <= eps / 2 * norm1 n h).
  { eapply Rle_trans; [exact R2|]. eapply Rle_trans; [apply Rmult_le_compat_l; [lra|exact Nk]|].
    apply Req_le. unfold e2. field. lra. }
  assert (T1 : norm1 n (apply n B r1) <= eps / 2 * norm1 n h).
  { eapply Rle_trans; [apply apply_bound|]. eapply Rle_trans; [apply Rmult_le_compat_l; [exact CB|exact R1]|].
    assert (e1 <= eps / (2 * (mbound n B + 1))) by apply Rmin_r.
    assert (mbound n B * e1 <= eps / 2).
    { eapply Rle_trans; [apply Rmult_le_compat_l; [exact CB|exact H]|].
      replace (mbound n B * (eps / (2 * (mbound n B + 1)))) with (eps / 2 * (mbound n B / (mbound n B + 1))) by (field; lra).
      rewrite <- (Rmult_1_r (eps / 2)) at 2. apply Rmult_le_compat_l; [lra|].
      apply Rmult_le_reg_r with (mbound n B + 1); [lra|]. unfold Rdiv. rewrite Rmult_assoc, Rinv_l by lra. lra. }
    rewrite <- Rmult_assoc. apply Rmult_le_compat_r; [exact N0|exact H0]. }
  lra.
Qed.

Lemma jac_linear : forall n A x, has_jacobian n (apply n A) x A.
Proof.
  intros n A x eps He. exists 1. split; [lra|]. intros h _.
  rewrite norm1_zero; [apply Rmult_le_pos; [lra|apply norm1_nonneg]|]. intros i Hi. unfold apply.
  rewrite (rsum_ext n (fun j => A i j * (x j + h j)) (fun j => A i j * x j + A i j * h j)) by (intros; ring).
  rewrite rsum_add. ring.
Qed.

(** a differentiable map of n-dimensional space reads n coordinates *)
Lemma local_of : forall n F, differentiable n F -> forall x y, (forall i, (i < n)%nat -> x i = y i) ->
  forall i, (i < n)%nat -> F x i = F y i.
Proof.
  intros n F D x y E i Hi. destruct (D x) as (A & H). destruct (H 1 Rlt_0_1) as (del & Hd & B).
  set (h := fun j => y j - x j).
  assert (Z : norm1 n h = 0) by (apply norm1_zero; intros j Hj; unfold h; rewrite (E j Hj); ring).
  specialize (B h ltac:(rewrite Z; exact Hd)). rewrite Z, Rmult_0_r in B.
  pose proof (norm1_coord n _ i Hi : Rabs ((fun i => F (fun j => x j + h j) i - F x i - apply n A h i) i) <= _) as C.
  cbv beta in C. replace (fun j => x j + h j) with y in * by (apply functional_extensionality; intros j; unfold h; ring).
  assert (AZ : apply n A h i = 0).
  { unfold apply. apply rsum_0; intros j Hj. unfold h. rewrite (E j Hj). ring. }
  rewrite AZ in C. pose proof (Rabs_pos (F y i - F x i - 0)) as P.
  assert (W : Rabs (F y i - F x i - 0) = 0) by lra.
  destruct (Req_dec (F y i - F x i - 0) 0) as [Q|Q]; [lra|]. apply Rabs_no_R0 in Q. lra.
Qed.

(** the entries of the derivative are the partial derivatives *)
Lemma jacobian_partial : forall n F x A i j, has_jacobian n F x A -> (i < n)%nat -> (j < n)%nat ->
  partial_derivative (fun y => F y i) x j (A i j).
Proof.
  intros n F x A i j D Hi Hj. unfold partial_derivative. intros eps He.
  destruct (D (eps / 2) ltac:(lra)) as (del & Hd & B). exists (mkposreal del Hd). intros t Ht Hs. cbn in Hs.
  set (h := fun k => if Nat.eqb k j then t else 0).
  assert (Nh : norm1 n h = Rabs t).
  { unfold norm1, h. rewrite (rsum_ext n _ (fun k => if Nat.eqb k j then Rabs t else 0)).
    - apply (rsum_delta n j (fun _ => Rabs t)); exact Hj.
    - intros k _. destruct (Nat.eqb k j); [reflexivity|apply Rabs_R0]. }
  specialize (B h ltac:(rewrite Nh; exact Hs)). rewrite Nh in B.
  pose proof (norm1_coord n (fun i => F (fun j => x j + h j) i - F x i - apply n A h i) i Hi) as C. cbv beta in C.
  assert (E1 : (fun k => x k + h k) = at_coord x j (x j + t)).
  { apply functional_extensionality; intros k. unfold h, at_coord. destruct (Nat.eqb_spec k j) as [->|]; ring. }
  assert (E2 : at_coord x j (x j) = x).
  { apply functional_extensionality; intros k. apply at_coord_same. }
  assert (E3 : apply n A h i = A i j * t).
  { unfold apply, h. rewrite (rsum_ext n _ (fun k => if Nat.eqb k j then A i k * t else 0)).
    - apply (rsum_delta n j (fun k => A i k * t)); exact Hj.
    - intros k _. destruct (Nat.eqb k j); ring. }
  rewrite E1, E3 in C. rewrite E2.
  replace ((F (at_coord x j (x j + t)) i - F x i) / t - A i j)
    with ((F (at_coord x j (x j + t)) i - F x i - A i j * t) * / t) by (field; exact Ht).
  rewrite Rabs_mult, Rabs_Rinv by exact Ht. pose proof (Rabs_pos_lt t Ht) as T.
  apply Rmult_lt_reg_r with (Rabs t); [exact T|]. rewrite Rmult_assoc, Rinv_l by lra. rewrite Rmult_1_r. rewrite E1 in B.
  assert (eps / 2 * Rabs t < eps * Rabs t) by nra. lra.
Qed.

(** ---- kicks and drifts ---------------------------------------------------------------- *)

(** momentum scaled by [a] and changed by [c] times the gradient *)
Definition kick (J : nat) (a c : R) (G : vec -> vec) (z : vec) : vec :=
  fun i => if Nat.ltb i J then z i else a * z i + c * G z (i - J)%nat.
Definition kick_jac (J : nat) (a c : R) (H : mat) : mat :=
  fun i k => if Nat.ltb i J then (if Nat.eqb i k then 1 else 0)
             else if Nat.ltb k J then c * H (i - J)%nat k else (if Nat.eqb i k then a else 0).
Definition drift_jac (J : nat) (e : R) : mat :=
  fun i k => if Nat.eqb i k then 1 else if Nat.ltb i J && Nat.eqb k (J + i) then e else 0.
Definition drifts (J : nat) (e : R) (z : vec) : vec := fun i => if Nat.ltb i J then z i + e * z (J + i)%nat else z i.

Lemma apply_delta : forall n (A : mat) (h : vec) i c, (i < n)%nat -> (forall k, (k < n)%nat -> A i k = if Nat.eqb k i then c else 0) ->
  apply n A h i = c * h i.
Proof.
  intros n A h i c Hi E. unfold apply. rewrite (rsum_ext n _ (fun k => if Nat.eqb k i then c * h k else 0)).
  - apply (rsum_delta n i (fun k => c * h k)); exact Hi.
  - intros k Hk. rewrite (E k Hk). destruct (Nat.eqb k i); ring.
Qed.

Lemma jac_kick : forall J a c G z H, has_jacobian J G z H -> has_jacobian (J + J) (kick J a c G) z (kick_jac J a c H).
Proof.
  intros J a c G z H D eps He. set (c1 := Rabs c + 1). assert (C1 : 0 < c1) by (pose proof (Rabs_pos c); unfold c1; lra).
  destruct (D (eps / c1) ltac:(apply Rdiv_lt_0_compat; assumption)) as (del & Hd & B). exists del. split; [exact Hd|].
  intros h Hh. rewrite norm1_split in Hh. pose proof (norm1_nonneg J h). pose proof (norm1_nonneg J (fun k => h (J + k)%nat)).
  specialize (B h ltac:(lra)). rewrite norm1_split.
  set (r := fun i => G (fun j => z j + h j) i - G z i - apply J H h i) in *.
  assert (T1 : norm1 J (fun i => kick J a c G (fun j => z j + h j) i - kick J a c G z i - apply (J + J) (kick_jac J a c H) h i) = 0).
  { apply norm1_zero; intros i Hi. rewrite (apply_delta _ _ h i 1) by
      (try lia; intros k Hk; unfold kick_jac; rewrite (proj2 (Nat.ltb_lt i J) Hi), (Nat.eqb_sym k i); reflexivity).
    unfold kick. rewrite (proj2 (Nat.ltb_lt i J) Hi). ring. }
  assert (T2 : norm1 J (fun k => kick J a c G (fun j => z j + h j) (J + k)%nat - kick J a c G z (J + k)%nat
       - apply (J + J) (kick_jac J a c H) h (J + k)%nat) = Rabs c * norm1 J r).
  { rewrite <- norm1_scal. apply norm1_ext; intros k Hk. unfold kick.
    assert (L : Nat.ltb (J + k) J = false) by (apply Nat.ltb_ge; lia). rewrite L.
    replace (J + k - J)%nat with k by lia.
    assert (Q : apply (J + J) (kick_jac J a c H) h (J + k)%nat = c * apply J H h k + a * h (J + k)%nat).
    { unfold apply. rewrite rsum_split. f_equal.
      - rewrite <- rsum_scal. apply rsum_ext; intros j Hj. unfold kick_jac. rewrite L, (proj2 (Nat.ltb_lt j J) Hj).
        replace (J + k - J)%nat with k by lia. ring.
      - rewrite (rsum_ext J _ (fun j => if Nat.eqb j k then a * h (J + j)%nat else 0)).
        + apply (rsum_delta J k (fun j => a * h (J + j)%nat)); exact Hk.
        + intros j Hj. unfold kick_jac. rewrite L. assert (L' : Nat.ltb (J + j) J = false) by (apply Nat.ltb_ge; lia).
          rewrite L'. destruct (Nat.eqb_spec (J + k) (J + j)), (Nat.eqb_spec j k); try lia; ring. }
    rewrite Q. unfold r. ring. }
  rewrite T1, T2, Rplus_0_l, (norm1_split J J h).
  apply Rle_trans with (Rabs c * (eps / c1 * norm1 J h)); [apply Rmult_le_compat_l; [apply Rabs_pos|exact B]|].
  apply Rle_trans with (eps * norm1 J h); [|apply Rmult_le_compat_l; lra].
  rewrite <- Rmult_assoc. apply Rmult_le_compat_r; [assumption|].
  apply Rmult_le_reg_r with c1; [exact C1|]. replace (Rabs c * (eps / c1) * c1) with (eps * Rabs c) by (field; lra).
  apply Rmult_le_compat_l; [lra|unfold c1; lra].
Qed.

Lemma det_kick : forall J a c H, 0 < a -> detR (J + J) (kick_jac J a c H) = a ^ J.
Proof.
  intros J a c H Ha. rewrite det_lower_pos.
  - rewrite rsum_split. rewrite (rsum_0 J).
    + rewrite (rsum_ext J _ (fun _ => ln a)).
      * rewrite rsum_const, Rplus_0_l. induction J as [|J IH].
        -- cbn [INR pow]. rewrite Rmult_0_l. apply exp_0.
        -- rewrite S_INR, Rmult_plus_distr_r, Rmult_1_l, exp_plus, exp_ln by exact Ha. cbn [pow].
           rewrite Rmult_comm. f_equal. destruct J; [cbn [INR pow]; rewrite Rmult_0_l; apply exp_0|apply IH].
      * intros k Hk. f_equal. unfold kick_jac. assert (L : Nat.ltb (J + k) J = false) by (apply Nat.ltb_ge; lia).
        rewrite L, Nat.eqb_refl. reflexivity.
    + intros k Hk. unfold kick_jac. rewrite (proj2 (Nat.ltb_lt k J) Hk), Nat.eqb_refl. apply ln_1.
  - intros i j Hij. unfold kick_jac. destruct (Nat.ltb_spec i J).
    + destruct (Nat.eqb_spec i j); [lia|reflexivity].
    + destruct (Nat.ltb_spec j J); [lia|]. destruct (Nat.eqb_spec i j); [lia|reflexivity].
  - intros i. unfold kick_jac. rewrite Nat.eqb_refl. destruct (Nat.ltb i J); [lra|exact Ha].
Qed.

Lemma jac_drift : forall J e z, has_jacobian (J + J) (drifts J e) z (drift_jac J e).
Proof.
  intros J e z. eapply jac_ext; [|reflexivity|apply jac_linear]. intros y i Hi. unfold drifts.
  destruct (Nat.ltb_spec i J) as [L|L].
  - unfold apply. rewrite (rsum_ext (J + J) _ (fun k => (if Nat.eqb k i then y k else 0) + (if Nat.eqb k (J + i) then e * y k else 0))).
    + rewrite rsum_add, (rsum_delta (J + J) i (fun k => y k)), (rsum_delta (J + J) (J + i) (fun k => e * y k)) by lia. reflexivity.
    + intros k Hk. unfold drift_jac. rewrite (proj2 (Nat.ltb_lt i J) L). cbn [andb].
      destruct (Nat.eqb_spec i k), (Nat.eqb_spec k i), (Nat.eqb_spec k (J + i)); try lia; ring.
  - rewrite (apply_delta _ _ y i 1); [ring|exact Hi|]. intros k Hk. unfold drift_jac. rewrite (proj2 (Nat.ltb_ge i J) L). cbn [andb].
    rewrite (Nat.eqb_sym k i). reflexivity.
Qed.

Lemma det_drift : forall J e, detR (J + J) (drift_jac J e) = 1.
Proof.
  intros J e. rewrite <- det_transpose, det_lower_pos.
  - rewrite rsum_0; [apply exp_0|]. intros k _. unfold drift_jac. rewrite Nat.eqb_refl. apply ln_1.
  - intros i j Hij. unfold drift_jac. destruct (Nat.eqb_spec j i); [lia|].
    destruct (Nat.ltb_spec j J); cbn [andb]; [|reflexivity]. destruct (Nat.eqb_spec i (J + j)); [lia|reflexivity].
  - intros i. unfold drift_jac. rewrite Nat.eqb_refl. lra.
Qed.

(** ---- rules for the differentiability of the gradients ---------------------------------- *)

(** [a] is the gradient at [x] of the real function [f] *)
Definition has_grad (n : nat) (f : vec -> R) (x a : vec) : Prop :=
  forall eps, 0 < eps -> exists del, 0 < del /\ forall h, norm1 n h < del ->
    Rabs (f (fun j => x j + h j) - f x - rsum n (fun j => a j * h j)) <= eps * norm1 n h.
Definition smooth (n : nat) (f : vec -> R) : Prop := forall x, exists a, has_grad n f x a.

Lemma smooth_ext : forall n f g, (forall x, f x = g x) -> smooth n f -> smooth n g.
Proof.
  intros n f g E S x. destruct (S x) as (a & H). exists a. intros eps He. destruct (H eps He) as (d & Hd & B).
  exists d. split; [exact Hd|]. intros h Hh. rewrite <- !E. exact (B h Hh).
Qed.
Lemma smooth_const : forall n c, smooth n (fun _ => c).
Proof.
  intros n c x. exists (fun _ => 0). intros eps He. exists 1. split; [lra|]. intros h _.
  rewrite rsum_0 by (intros; ring). replace (c - c - 0) with 0 by ring. rewrite Rabs_R0.
  apply Rmult_le_pos; [lra|apply norm1_nonneg].
Qed.
Lemma smooth_coord : forall n k, (k < n)%nat -> smooth n (fun x => x k).
Proof.
  intros n k Hk x. exists (fun j => if Nat.eqb j k then 1 else 0). intros eps He. exists 1. split; [lra|]. intros h _.
  rewrite (rsum_ext n _ (fun j => if Nat.eqb j k then h j else 0)) by (intros j _; destruct (Nat.eqb j k); ring).
  rewrite (rsum_delta n k h Hk). replace (x k + h k - x k - h k) with 0 by ring. rewrite Rabs_R0.
  apply Rmult_le_pos; [lra|apply norm1_nonneg].
Qed.
Lemma smooth_plus : forall n f g, smooth n f -> smooth n g -> smooth n (fun x => f x + g x).
Proof.
  intros n f g F G x. destruct (F x) as (a & A). destruct (G x) as (b & B). exists (fun j => a j + b j). intros eps He.
  destruct (A (eps / 2) ltac:(lra)) as (d1 & P1 & B1). destruct (B (eps / 2) ltac:(lra)) as (d2 & P2 & B2).
  exists (Rmin d1 d2). split; [apply Rmin_glb_lt; assumption|]. intros h Hh.
  specialize (B1 h ltac:(eapply Rlt_le_trans; [exact Hh|apply Rmin_l])).
  specialize (B2 h ltac:(eapply Rlt_le_trans; [exact Hh|apply Rmin_r])).
  rewrite (rsum_ext n _ (fun j => a j * h j + b j * h j)) by (intros; ring). rewrite rsum_add.
  set (fa := f (fun j => x j + h j)) in *. set (ga := g (fun j => x j + h j)) in *.
  replace (fa + ga - (f x + g x) - _) with ((fa - f x - rsum n (fun j => a j * h j)) + (ga - g x - rsum n (fun j => b j * h j))) by ring.
  pose proof (Rabs_triang (fa - f x - rsum n (fun j => a j * h j)) (ga - g x - rsum n (fun j => b j * h j))). lra.
Qed.
(** a function of one variable, wherever it is differentiable *)
Lemma smooth_comp : forall n (phi : R -> R) f, (forall x, exists l, derivable_pt_lim phi (f x) l) -> smooth n f ->
  smooth n (fun x => phi (f x)).
Proof.
  intros n phi f P S x. destruct (P x) as (l & D). destruct (S x) as (a & A).
  exists (fun j => l * a j). intros eps He.
  set (m := rsum n (fun j => Rabs (a j))). assert (Hm : 0 <= m) by (apply rsum_nonneg; intros; apply Rabs_pos).
  pose proof (Rabs_pos l) as Hl.
  set (e1 := eps / (2 * (m + 1))). assert (E1 : 0 < e1) by (apply Rdiv_lt_0_compat; lra).
  set (e2 := Rmin 1 (eps / (2 * (Rabs l + 1)))). assert (E2 : 0 < e2) by (apply Rmin_glb_lt; [lra|apply Rdiv_lt_0_compat; lra]).
  destruct (D e1 E1) as (d1 & B1). destruct (A e2 E2) as (d2 & P2 & B2). pose proof (cond_pos d1) as P1.
  exists (Rmin d2 (d1 / (m + 1))). split; [apply Rmin_glb_lt; [exact P2|apply Rdiv_lt_0_compat; lra]|].
  intros h Hh. pose proof (norm1_nonneg n h) as N0.
  specialize (B2 h ltac:(eapply Rlt_le_trans; [exact Hh|apply Rmin_l])).
  set (fa := f (fun j => x j + h j)) in *. set (u := rsum n (fun j => a j * h j)) in *. set (k := fa - f x) in *.
  assert (U : Rabs u <= m * norm1 n h).
  { unfold u. eapply Rle_trans; [apply rsum_abs|]. unfold m. rewrite <- rsum_scal_r. apply rsum_le; intros j Hj.
    rewrite Rabs_mult. apply Rmult_le_compat_l; [apply Rabs_pos|apply norm1_coord; exact Hj]. }
  assert (K : Rabs k <= (m + 1) * norm1 n h).
  { replace k with ((k - u) + u) by ring. eapply Rle_trans; [apply Rabs_triang|].
    assert (e2 * norm1 n h <= 1 * norm1 n h) by (apply Rmult_le_compat_r; [exact N0|apply Rmin_l]). lra. }
  assert (Kd : Rabs k < d1).
  { eapply Rle_lt_trans; [exact K|].
    assert (W : norm1 n h < d1 / (m + 1)) by (eapply Rlt_le_trans; [exact Hh|apply Rmin_r]).
    apply Rmult_lt_compat_l with (r := m + 1) in W; [|lra].
    replace ((m + 1) * (d1 / (m + 1))) with (pos d1) in W by (field; lra). exact W. }
  assert (Q : Rabs (phi fa - phi (f x) - l * k) <= e1 * Rabs k).
  { destruct (Req_dec k 0) as [Z|Z].
    - replace fa with (f x) by (unfold k in Z; lra). rewrite Z, Rabs_R0, !Rmult_0_r.
      replace (phi (f x) - phi (f x) - 0) with 0 by ring. rewrite Rabs_R0. lra.
    - specialize (B1 k Z Kd). replace (f x + k) with fa in B1 by (unfold k; ring).
      replace (phi fa - phi (f x) - l * k) with (((phi fa - phi (f x)) / k - l) * k) by (field; exact Z).
      rewrite Rabs_mult. apply Rmult_le_compat_r; [apply Rabs_pos|lra]. }
  replace (rsum n (fun j => l * a j * h j)) with (l * u).
  2:{ unfold u. rewrite <- rsum_scal. apply rsum_ext; intros; ring. }
  replace (phi fa - phi (f x) - l * u) with ((phi fa - phi (f x) - l * k) + l * (k - u)) by ring.
  eapply Rle_trans; [apply Rabs_triang|]. rewrite Rabs_mult.
  assert (T1 : e1 * Rabs k <= eps / 2 * norm1 n h).
  { eapply Rle_trans; [apply Rmult_le_compat_l; [lra|exact K]|]. apply Req_le. unfold e1. field. lra. }
  assert (T2 : Rabs l * Rabs (k - u) <= eps / 2 * norm1 n h).
  { eapply Rle_trans; [apply Rmult_le_compat_l; [exact Hl|exact B2]|]. rewrite <- Rmult_assoc.
    apply Rmult_le_compat_r; [exact N0|].
    assert (M : e2 <= eps / (2 * (Rabs l + 1))) by apply Rmin_r.
    eapply Rle_trans; [apply Rmult_le_compat_l; [exact Hl|exact M]|].
    replace (Rabs l * (eps / (2 * (Rabs l + 1)))) with (eps / 2 * (Rabs l / (Rabs l + 1))) by (field; lra).
    rewrite <- (Rmult_1_r (eps / 2)) at 2. apply Rmult_le_compat_l; [lra|].
    apply Rmult_le_reg_r with (Rabs l + 1); [lra|]. unfold Rdiv. rewrite Rmult_assoc, Rinv_l by lra. lra. }
  lra.
Qed.
Lemma smooth_scal : forall n c f, smooth n f -> smooth n (fun x => c * f x).
Proof.
  intros n c f S. apply (smooth_comp n (fun t => c * t) f); [|exact S]. intros x. exists (c * 1). apply dl_scal, dl_id.
Qed.
Lemma smooth_exp : forall n f, smooth n f -> smooth n (fun x => exp (f x)).
Proof. intros n f S. apply (smooth_comp n exp f); [|exact S]. intros x. exists (exp (f x)). apply derivable_pt_lim_exp. Qed.
Lemma smooth_ln : forall n f, (forall x, 0 < f x) -> smooth n f -> smooth n (fun x => ln (f x)).
Proof. intros n f P S. apply (smooth_comp n ln f); [|exact S]. intros x. exists (/ f x). apply derivable_pt_lim_ln, P. Qed.
Lemma smooth_sum : forall n k (f : nat -> vec -> R), (forall i, (i < k)%nat -> smooth n (f i)) -> smooth n (fun x => rsum k (fun i => f i x)).
Proof.
  intros n k f. induction k as [|k IH]; intros H.
  - apply (smooth_ext n (fun _ => 0)); [reflexivity|apply smooth_const].
  - apply (smooth_ext n (fun x => rsum k (fun i => f i x) + f k x)); [reflexivity|].
    apply smooth_plus; [apply IH; intros; apply H; lia|apply H; lia].
Qed.

(** maps with differentiable coordinates are differentiable *)
Lemma rows : forall k n (F : vec -> vec) x, (forall i, (i < k)%nat -> exists a, has_grad n (fun z => F z i) x a) ->
  exists A : mat, forall i, (i < k)%nat -> has_grad n (fun z => F z i) x (A i).
Proof.
  induction k as [|k IH]; intros n F x H.
  - exists (fun _ _ => 0). intros i Hi. lia.
  - destruct (IH n F x ltac:(intros; apply H; lia)) as (A & HA). destruct (H k ltac:(lia)) as (a & Ha).
    exists (fun i => if Nat.eqb i k then a else A i). intros i Hi. destruct (Nat.eqb_spec i k) as [->|Hk]; [exact Ha|apply HA; lia].
Qed.
Lemma uniform : forall k n (F : vec -> vec) x (A : mat) eps, 0 < eps ->
  (forall i, (i < k)%nat -> has_grad n (fun z => F z i) x (A i)) ->
  exists d, 0 < d /\ forall h, norm1 n h < d -> forall i, (i < k)%nat ->
    Rabs (F (fun j => x j + h j) i - F x i - apply n A h i) <= eps * norm1 n h.
Proof.
  induction k as [|k IH]; intros n F x A eps He H.
  - exists 1. split; [lra|]. intros h _ i Hi. lia.
  - destruct (IH n F x A eps He ltac:(intros; apply H; lia)) as (d1 & P1 & B1).
    destruct (H k ltac:(lia) eps He) as (d2 & P2 & B2). exists (Rmin d1 d2). split; [apply Rmin_glb_lt; assumption|].
    intros h Hh i Hi. destruct (Nat.eq_dec i k) as [->|Hk].
    + apply B2. eapply Rlt_le_trans; [exact Hh|apply Rmin_r].
    + apply B1; [|lia]. eapply Rlt_le_trans; [exact Hh|apply Rmin_l].
Qed.
Lemma differentiable_rows : forall n F, (forall i, (i < n)%nat -> smooth n (fun z => F z i)) -> differentiable n F.
Proof.
  intros n F S x. destruct (rows n n F x (fun i Hi => S i Hi x)) as (A & HA). exists A. intros eps He.
  assert (Hn : 0 <= INR n) by apply pos_INR.
  destruct (uniform n n F x A (eps / (INR n + 1)) ltac:(apply Rdiv_lt_0_compat; lra) HA) as (d & Hd & B). exists d. split; [exact Hd|].
  intros h Hh. pose proof (norm1_nonneg n h) as N0. unfold norm1 at 1.
  apply Rle_trans with (rsum n (fun _ => eps / (INR n + 1) * norm1 n h)).
  - apply rsum_le; intros i Hi. exact (B h Hh i Hi).
  - rewrite rsum_const. rewrite <- Rmult_assoc. apply Rmult_le_compat_r; [exact N0|].
    apply Rmult_le_reg_r with (INR n + 1); [lra|].
    replace (INR n * (eps / (INR n + 1)) * (INR n + 1)) with (INR n * eps) by (field; lra). nra.
Qed.

Lemma smooth_utility : forall J c al be i j, (j < J)%nat -> smooth J (fun x => log_utility c x al be i j).
Proof.
  intros. apply (smooth_ext J (fun x => al * x j + - (be * c i j))); [intros; unfold log_utility; ring|].
  apply smooth_plus; [apply smooth_scal, smooth_coord; assumption|apply smooth_const].
Qed.
Lemma smooth_demand : forall I J c T al be k, (0 < I)%nat -> (k < J)%nat ->
  smooth J (fun x => demand I (tc_log_flow I J c T x al be) k).
Proof.
  intros I J c T al be k HI Hk. unfold demand, lse. apply smooth_exp, smooth_ln; [intros; apply exp_sum_pos; exact HI|].
  apply (smooth_sum J I (fun i x => exp (tc_log_flow I J c T x al be i k))). intros i Hi. apply smooth_exp.
  apply (smooth_ext J (fun x => log_utility c x al be i k + (-1 * lse2 I J (log_utility c x al be) + ln T)));
    [intros; unfold tc_log_flow; ring|].
  apply smooth_plus; [apply smooth_utility; exact Hk|]. apply smooth_plus; [|apply smooth_const]. apply smooth_scal.
  unfold lse2. apply smooth_ln; [intros; apply exp_sum2_pos; lia|]. unfold rsum2.
  apply (smooth_sum J I (fun i x => rsum J (fun j => exp (log_utility c x al be i j)))). intros i' Hi'.
  apply (smooth_sum J J (fun j x => exp (log_utility c x al be i' j))). intros j Hj. apply smooth_exp, smooth_utility; exact Hj.
Qed.
(** the gradients of the code are differentiable *)
Lemma smooth_hw_grad : forall lg I J c T h nv y bmax th k, (0 < I)%nat -> (k < J)%nat ->
  smooth J (fun x => ph_dV (hw_physics lg I J c T h nv y bmax) th x k).
Proof.
  intros. cbn [ph_dV hw_physics]. apply smooth_scal.
  apply (smooth_ext J (fun x => epsilon h * (demand I (tc_log_flow I J c 1 x (fst th) (snd th)) k + (- kappa h * exp (x k) + delta h))));
    [intros; cbv beta; ring|].
  apply smooth_scal, smooth_plus; [apply smooth_demand; assumption|]. apply smooth_plus; [|apply smooth_const].
  apply smooth_scal, smooth_exp, smooth_coord. assumption.
Qed.
Lemma smooth_ais_grad : forall J de ka si k, (k < J)%nat -> smooth J (fun x => ais_grad J de ka si x k).
Proof.
  intros. unfold ais_grad. apply smooth_plus; [apply smooth_const|]. apply smooth_scal, smooth_exp, smooth_coord. assumption.
Qed.
Lemma smooth_lik_grad : forall J nv y k, (k < J)%nat -> smooth J (fun x => neg_log_lik_grad nv y x k).
Proof.
  intros. unfold neg_log_lik_grad. apply smooth_scal. apply (smooth_ext J (fun x => x k + - y k)); [intros; cbv beta; ring|].
  apply smooth_plus; [apply smooth_coord; assumption|apply smooth_const].
Qed.

(** ---- the trajectory as a composition ------------------------------------------------------ *)

Lemma jacobian_unique : forall n F x A B, has_jacobian n F x A -> has_jacobian n F x B ->
  forall i j, (i < n)%nat -> (j < n)%nat -> A i j = B i j.
Proof.
  intros n F x A B HA HB i j Hi Hj.
  pose proof (jacobian_partial n F x A i j HA Hi Hj) as DA. pose proof (jacobian_partial n F x B i j HB Hi Hj) as DB.
  exact (uniqueness_limite _ _ _ _ DA DB).
Qed.
Lemma factor_intro : forall n F x A d, has_jacobian n F x A -> detR n A = d -> volume_factor n F x d.
Proof.
  intros n F x A d H E. split; [exists A; exact H|]. intros B HB. rewrite <- E. apply det_ext.
  intros i j Hi Hj. exact (jacobian_unique n F x B A HB H i j Hi Hj).
Qed.
Lemma factor_comp : forall n F K x d d', volume_factor n F x d -> volume_factor n K (F x) d' -> volume_factor n (fun z => K (F z)) x (d' * d).
Proof.
  intros n F K x d d' ((A & HA) & DA) ((B & HB) & DB). eapply factor_intro; [exact (jac_comp n F K x A B HA HB)|].
  rewrite det_mul, (DA A HA), (DB B HB). reflexivity.
Qed.
Lemma factor_ext : forall n F F' x d, (forall z i, (i < n)%nat -> F z i = F' z i) -> volume_factor n F x d -> volume_factor n F' x d.
Proof.
  intros n F F' x d E ((A & HA) & DA). apply factor_intro with A; [|exact (DA A HA)].
  exact (jac_ext n F F' x A A E (fun _ _ _ _ => eq_refl) HA).
Qed.
Lemma factor_kick : forall J a c G z, 0 < a -> differentiable J G -> volume_factor (J + J) (kick J a c G) z (a ^ J).
Proof.
  intros J a c G z Ha D. destruct (D z) as (H & HH). eapply factor_intro; [exact (jac_kick J a c G z H HH)|exact (det_kick J a c H Ha)].
Qed.
Lemma factor_drift : forall J e z, volume_factor (J + J) (drifts J e) z 1.
Proof. intros. eapply factor_intro; [apply jac_drift|apply det_drift]. Qed.
Lemma factor_id : forall n z, volume_factor n (fun z => z) z 1.
Proof.
  intros n z. apply factor_intro with (fun i j => if Nat.eqb i j then 1 else 0).
  - eapply jac_ext; [|reflexivity|apply jac_linear]. intros y i Hi. cbv beta. rewrite (apply_delta _ _ y i 1); [ring|exact Hi|].
    intros k _. rewrite (Nat.eqb_sym k i). reflexivity.
  - rewrite det_lower_pos.
    + rewrite rsum_0; [apply exp_0|]. intros. rewrite Nat.eqb_refl. apply ln_1.
    + intros i j Hij. destruct (Nat.eqb_spec i j); [lia|reflexivity].
    + intros i. rewrite Nat.eqb_refl. lra.
Qed.

(** one leapfrog step on phase space *)
Definition phase_step (J : nat) (a e : R) (G : vec -> vec) (z : vec) : vec :=
  kick J a (- (1 / 2 * e)) G (drifts J e (kick J 1 (- (1 / 2 * e)) G z)).
Fixpoint phases (J : nat) (e : R) (G : vec -> vec) (n : nat) (z : vec) : vec :=
  match n with O => z | S k => phases J e G k (phase_step J 1 e G z) end.

Lemma factor_step : forall J a e G z, 0 < a -> differentiable J G -> volume_factor (J + J) (phase_step J a e G) z (a ^ J).
Proof.
  intros J a e G z Ha D. unfold phase_step.
  replace (a ^ J) with (a ^ J * (1 * 1 ^ J)) by (rewrite pow1; ring).
  apply (factor_comp (J + J) (fun z => drifts J e (kick J 1 (- (1 / 2 * e)) G z)) (kick J a (- (1 / 2 * e)) G));
    [|apply factor_kick; assumption].
  apply (factor_comp (J + J) (kick J 1 (- (1 / 2 * e)) G) (drifts J e)); [apply factor_kick; [lra|exact D]|apply factor_drift].
Qed.
Lemma factor_phases : forall J e G n z, differentiable J G -> volume_factor (J + J) (phases J e G n) z 1.
Proof.
  intros J e G n. induction n as [|n IH]; intros z D; [apply factor_id|].
  replace 1 with (1 * 1 ^ J) by (rewrite pow1; ring).
  apply (factor_comp (J + J) (phase_step J 1 e G) (phases J e G n)); [apply factor_step; [lra|exact D]|apply IH; exact D].
Qed.

Lemma join_fst : forall J x p i, (i < J)%nat -> join J x p i = x i.
Proof. intros. unfold join. rewrite (proj2 (Nat.ltb_lt i J)) by assumption. reflexivity. Qed.
Lemma join_snd : forall J x p i, join J x p (J + i)%nat = p i.
Proof. intros. unfold join. rewrite (proj2 (Nat.ltb_ge (J + i) J)) by lia. f_equal. lia. Qed.

Lemma step_position : forall J a e G z i, (i < J)%nat -> phase_step J a e G z i = z i + e * (z (J + i)%nat - 1 / 2 * e * G z i).
Proof.
  intros J a e G z i Hi. unfold phase_step, kick, drifts. rewrite (proj2 (Nat.ltb_lt i J) Hi).
  rewrite (proj2 (Nat.ltb_ge (J + i) J)) by lia. replace (J + i - J)%nat with i by lia. ring.
Qed.
Lemma step_momentum : forall J a e G z i, differentiable J G -> (i < J)%nat ->
  phase_step J a e G z (J + i)%nat =
  a * (z (J + i)%nat - 1 / 2 * e * G z i) - 1 / 2 * e * G (phase_step J a e G z) i.
Proof.
  intros J a e G z i D Hi. rewrite (local_of J G D (phase_step J a e G z) (drifts J e (kick J 1 (- (1 / 2 * e)) G z))) by
    (try exact Hi; intros k Hk; unfold phase_step at 1, kick at 1; rewrite (proj2 (Nat.ltb_lt k J) Hk); reflexivity).
  unfold phase_step, kick at 1. rewrite (proj2 (Nat.ltb_ge (J + i) J)) by lia. replace (J + i - J)%nat with i by lia.
  unfold drifts at 1. rewrite (proj2 (Nat.ltb_ge (J + i) J)) by lia. unfold kick at 1.
  rewrite (proj2 (Nat.ltb_ge (J + i) J)) by lia. replace (J + i - J)%nat with i by lia. ring.
Qed.

Lemma leaps_agree : forall J e G, differentiable J G -> forall n (x p g z : vec),
  (forall i, (i < J)%nat -> x i = z i) -> (forall i, (i < J)%nat -> p i = z (J + i)%nat) -> (forall i, (i < J)%nat -> g i = G z i) ->
  let '(x1, p1, _) := leaps n e G (x, p, g) in
  forall i, (i < J)%nat -> x1 i = phases J e G n z i /\ p1 i = phases J e G n z (J + i)%nat.
Proof.
  intros J e G D. induction n as [|n IH]; intros x p g z Hx Hp Hg.
  - cbn [leaps phases]. intros i Hi. split; [apply Hx|apply Hp]; exact Hi.
  - cbn [leaps phases]. unfold leap at 1. cbv zeta. set (x1 := fun j => x j + e * (p j - 1 / 2 * e * g j)).
    assert (X : forall i, (i < J)%nat -> x1 i = phase_step J 1 e G z i).
    { intros i Hi. rewrite step_position by exact Hi. unfold x1. rewrite Hx, Hp, Hg by exact Hi. ring. }
    assert (GX : forall i, (i < J)%nat -> G x1 i = G (phase_step J 1 e G z) i) by (apply local_of; assumption).
    apply IH; [exact X| |exact GX].
    intros i Hi. rewrite step_momentum by assumption. rewrite (GX i Hi), (Hp i Hi), (Hg i Hi). ring.
Qed.

(** ** C191: the trajectories and volume *)

(** The trajectory of annealed importance sampling preserves volume, for every
    number of steps, step size and differentiable gradient. *)
Theorem C191_trajectory_volume : forall J e G steps z, differentiable J G -> volume_factor (J + J) (trajectory J e G steps) z 1.
Proof.
  intros J e G steps z D. eapply factor_ext; [|exact (factor_phases J e G steps z D)].
  intros y i Hi. unfold trajectory.
  pose proof (leaps_agree J e G D steps y (momentum J y) (G y) y (fun _ _ => eq_refl) (fun _ _ => eq_refl) (fun _ _ => eq_refl)) as L.
  revert L. destruct (leaps steps e G (y, momentum J y, G y)) as [[x1 p1] g1]. intros L.
  destruct (Nat.ltb_spec i J) as [Hj|Hj].
  - rewrite join_fst by exact Hj. symmetry. exact (proj1 (L i Hj)).
  - replace i with (J + (i - J))%nat by lia. rewrite join_snd. symmetry. exact (proj2 (L (i - J)%nat ltac:(lia))).
Qed.
Print Assumptions C191_trajectory_volume.

(** The gradients the code tempers are differentiable. *)
Theorem C191_annealing_volume_partial : forall lg I J c T h nv y bmax th t e steps z, (0 < I)%nat ->
  let g0 := ais_grad J (delta h) (kappa h) (sigma h) in
  let g1 := ph_dV (hw_physics lg I J c T h nv y bmax) th in
  volume_factor (J + J) (trajectory J e (tempered_grad t g0 g1) steps) z 1.
Proof.
  intros lg I J c T h nv y bmax th t e steps z HI g0 g1. apply C191_trajectory_volume. apply differentiable_rows.
  intros i Hi. unfold tempered_grad. apply smooth_plus; apply smooth_scal.
  - apply smooth_ais_grad; exact Hi.
  - apply smooth_hw_grad; assumption.
Qed.
Print Assumptions C191_annealing_volume_partial.

(** The annealed trajectories follow the gradient of the potential in the
    energy that accepts or rejects them. *)
Theorem C191_annealing_gradient : forall lg I J c T h nv y bmax th t x k,
  (0 < I)%nat -> (k < J)%nat -> fst th <> 0 -> sigma h <> 0 ->
  let m := hw_physics lg I J c T h nv y bmax in
  let V0 := ais_pot J (delta h) (kappa h) (sigma h) in let g0 := ais_grad J (delta h) (kappa h) (sigma h) in
  partial_derivative (tempered t V0 (ph_V m th)) x k (tempered_grad t g0 (ph_dV m th) x k).
Proof.
  intros lg I J c T h nv y bmax th t x k HI Hk Ha Hs m V0 g0. unfold partial_derivative, tempered, tempered_grad.
  apply (dl_plus (fun s => (1 - t) * V0 (at_coord x k s)) (fun s => t * ph_V m th (at_coord x k s))); apply dl_scal.
  - exact (C33_annealing_gradient J (delta h) (kappa h) (sigma h) x k Hk).
  - exact (C33_totally_constrained_gradient I J c (fst th) (snd th) h x k HI Hk Ha Hs).
Qed.
Print Assumptions C191_annealing_gradient.

(** The energy of a position and a momentum at a temperature. *)
Definition annealed_energy (J : nat) (V0 V1 : vec -> R) (t : R) (x p : vec) : R :=
  1 / 2 * rsum J (fun j => p j * p j) + ((1 - t) * V0 x + t * V1 x).
(** The probability of accepting a change of energy. *)
Definition acceptance (before after : R) : R := Rmin 1 (exp (before - after)).

(** Detailed balance: the trajectory from the end, momentum reversed, comes back to
    the start, momentum reversed, and the weight of the start times the probability
    of accepting the end equals the weight of the end times the probability of
    accepting the start. *)
Theorem C191_annealing_detailed_balance : forall J V0 V1 g0 g1 e steps t (x p x1 p1 g : vec),
  let G := tempered_grad t g0 g1 in let E := annealed_energy J V0 V1 t in
  leaps steps e G (x, p, G x) = (x1, p1, g) ->
  leaps steps e G (x1, opp_vec p1, G x1) = (x, opp_vec p, G x) /\
  exp (- E x p) * acceptance (E x p) (E x1 p1) =
  exp (- E x1 (opp_vec p1)) * acceptance (E x1 (opp_vec p1)) (E x (opp_vec p)).
Proof.
  intros J V0 V1 g0 g1 e steps t x p x1 p1 g G E H. split.
  - pose proof (leaps_gradient steps e G x p) as Hg. pose proof (leaps_flip steps e G x p) as Hf. rewrite H in Hg, Hf.
    unfold flip in Hf. rewrite Hg in Hf. exact Hf.
  - assert (EV : forall y q, E y (opp_vec q) = E y q).
    { intros y q. unfold E, annealed_energy, opp_vec. f_equal. f_equal. apply rsum_ext. intros j _. ring. }
    rewrite !EV. unfold acceptance. set (a := E x p). set (b := E x1 p1).
    assert (P : exp (- a) * exp (a - b) = exp (- b) /\ exp (- b) * exp (b - a) = exp (- a)).
    { split; rewrite <- exp_plus; f_equal; ring. }
    destruct P as [P1 P2]. pose proof exp_0 as E0.
    destruct (Rle_lt_dec a b) as [L|L].
    + rewrite (Rmin_right 1 (exp (a - b))), (Rmin_left 1 (exp (b - a))); [lra| |].
      * destruct (Req_dec (b - a) 0) as [Q|Q]; [rewrite Q; lra|]. left. rewrite <- E0. apply exp_increasing. lra.
      * destruct (Req_dec (a - b) 0) as [Q|Q]; [rewrite Q; lra|]. left. rewrite <- E0. apply exp_increasing. lra.
    + rewrite (Rmin_left 1 (exp (a - b))), (Rmin_right 1 (exp (b - a))); [lra| |].
      * left. rewrite <- E0. apply exp_increasing. lra.
      * left. rewrite <- E0. apply exp_increasing. lra.
Qed.
Print Assumptions C191_annealing_detailed_balance.

(** and the sampler accepts with that probability: a uniform draw [u] moves it
    exactly when it lies below the acceptance probability. *)
Theorem C191_annealing_acceptance : forall J n V0 V1 g0 g1 e steps k it draws (x x1 p1 g : vec) w u, (0 < steps)%nat ->
  0 < u < 1 -> snd (draws it) = ln u ->
  let t := temperature n it in let p := fst (draws it) in let G := tempered_grad t g0 g1 in let E := annealed_energy J V0 V1 t in
  leaps steps e G (x, p, G x) = (x1, p1, g) ->
  anneal J n V0 V1 g0 g1 e steps (S k) it draws x w =
  anneal J n V0 V1 g0 g1 e steps k (S it) draws (if Rlt_dec u (acceptance (E x p) (E x1 p1)) then x1 else x)
    (w + (temperature n it - temperature n (it - 1)) * (V0 x - V1 x)).
Proof.
  intros J n V0 V1 g0 g1 e steps k it draws x x1 p1 g w u Hs Hu D t p G E H.
  cbn [anneal]. unfold p in *. destruct (draws it) as [q lu]. cbn [fst snd] in *. subst lu. fold t. fold G. rewrite H.
  change (kinetic J q + tempered t V0 V1 x) with (E x q). change (kinetic J p1 + tempered t V0 V1 x1) with (E x1 p1).
  assert (B : Rltb (ln u) (E x q - E x1 p1) = true <-> u < acceptance (E x q) (E x1 p1)).
  { rewrite Rltb_spec. unfold acceptance. set (d := E x q - E x1 p1). split; intro L.
    - apply Rmin_glb_lt; [lra|]. apply exp_increasing in L. rewrite exp_ln in L by lra. exact L.
    - apply exp_lt_inv. rewrite exp_ln by lra. eapply Rlt_le_trans; [exact L|apply Rmin_r]. }
  destruct (Rltb (ln u) (E x q - E x1 p1)) eqn:R; destruct (Rlt_dec u (acceptance (E x q) (E x1 p1))) as [L|L].
  - destruct steps; [lia|reflexivity].
  - destruct L. apply B. reflexivity.
  - apply B in L. congruence.
  - reflexivity.
Qed.
Print Assumptions C191_annealing_acceptance.

(** One leapfrog step of the attraction sampler, whose gradient of the data
    likelihood stays at the previous attractions, stretches phase space. *)
Theorem C191_attraction_volume_refuted : forall lg I J c T h nv y bmax th e z, (0 < I)%nat -> (0 < J)%nat -> 0 < nv -> e <> 0 ->
  let m := hw_physics lg I J c T h nv y bmax in
  volume_factor (J + J) (attraction_trajectory J m e 1 th) z ((1 + e * e / (2 * nv)) ^ J) /\ 1 < (1 + e * e / (2 * nv)) ^ J.
Proof.
  intros lg I J c T h nv y bmax th e z HI HJ Hnv He m. set (a := 1 + e * e / (2 * nv)).
  assert (Ha : 1 < a).
  { assert (0 < e * e / (2 * nv)) by (apply Rdiv_lt_0_compat; [nra|lra]). unfold a. lra. }
  split; [|destruct J as [|J]; [lia|]; apply Rlt_pow_R1; [exact Ha|lia]].
  set (G := fun x j => ph_dV m th x j + ph_dlik m x j).
  assert (D : differentiable J G).
  { apply differentiable_rows. intros i Hi. unfold G. apply smooth_plus; [apply smooth_hw_grad; assumption|apply smooth_lik_grad; exact Hi]. }
  eapply factor_ext; [|exact (factor_step J a e G z ltac:(lra) D)].
  intros w i Hi. unfold attraction_trajectory, x_trajectory. cbn [leaps leap].
  assert (X : forall k, (k < J)%nat -> phase_step J a e G w k =
     w k + e * (momentum J w k - 1 / 2 * e * (ph_dV m th w k + ph_dlik m w k))).
  { intros k Hk. rewrite step_position by exact Hk. unfold momentum, G. ring. }
  destruct (Nat.ltb_spec i J) as [Hj|Hj].
  - rewrite join_fst by exact Hj. apply X; exact Hj.
  - assert (Hk : (i - J < J)%nat) by lia. replace i with (J + (i - J))%nat by lia. set (k := (i - J)%nat) in *. rewrite join_snd.
    rewrite step_momentum by assumption.
    set (x1 := fun j => w j + e * (momentum J w j - 1 / 2 * e * (ph_dV m th w j + ph_dlik m w j))).
    rewrite (local_of J G D (phase_step J a e G w) x1 X k Hk). unfold G.
    change (ph_dlik m x1 k) with (1 / nv * (x1 k - y k)). change (ph_dlik m w k) with (1 / nv * (w k - y k)).
    unfold x1 at 2. change (ph_dlik m w k) with (1 / nv * (w k - y k)). unfold momentum. fold x1. unfold a. field. lra.
Qed.
Print Assumptions C191_attraction_volume_refuted.

(** The factor is the number by which volumes must be divided: the determinant
    of a diagonal map is the product of its stretches. *)
Lemma C191_volume_factor_scaling : forall n s z, 0 < s -> volume_factor n (fun x i => s * x i) z (s ^ n).
Proof.
  intros n s z Hs. apply factor_intro with (fun i j => if Nat.eqb i j then s else 0).
  - eapply jac_ext; [|reflexivity|apply jac_linear]. intros y i Hi. cbv beta. rewrite (apply_delta _ _ y i s); [reflexivity|exact Hi|].
    intros k _. rewrite (Nat.eqb_sym k i). reflexivity.
  - rewrite det_lower_pos.
    + rewrite (rsum_ext n _ (fun _ => ln s)) by (intros; rewrite Nat.eqb_refl; reflexivity). rewrite rsum_const.
      induction n as [|n IH]; [cbn [INR pow]; rewrite Rmult_0_l; apply exp_0|].
      rewrite S_INR, Rmult_plus_distr_r, Rmult_1_l, exp_plus, exp_ln by exact Hs. cbn [pow]. rewrite IH. ring.
    + intros i j Hij. destruct (Nat.eqb_spec i j); [lia|reflexivity].
    + intros i. rewrite Nat.eqb_refl. exact Hs.
Qed.

Example C191_nonvacuous :
  let h := HW 2 (1 / 10) 1 1 1 in
  (forall z, volume_factor (2 + 2) (trajectory 2 (1 / 10)
     (tempered_grad (1 / 2) (ais_grad 2 (delta h) (kappa h) (sigma h)) (ph_dV (hw_physics ln 3 2 (fun _ _ => 1) 100 h (1 / 2) (fun _ => 0) 1) (1, 1))) 5) z 1) /\
  (forall z, volume_factor (2 + 2) (attraction_trajectory 2 (hw_physics ln 3 2 (fun _ _ => 1) 100 h (1 / 2) (fun _ => 0) 1) 1 1 (1, 1)) z 4) /\
  ~ volume_factor 1 (fun x i => 2 * x i) (fun _ => 0) 1.
Proof.
  intros h. split; [|split].
  - intros z. apply C191_annealing_volume_partial. lia.
  - intros z. pose proof (C191_attraction_volume_refuted ln 3 2 (fun _ _ => 1) 100 h (1 / 2) (fun _ => 0) 1 (1, 1) 1 z
      ltac:(lia) ltac:(lia) ltac:(lra) ltac:(lra)) as [V _].
    replace ((1 + 1 * 1 / (2 * (1 / 2))) ^ 2) with 4 in V by field. exact V.
  - intros ((A & HA) & D). pose proof (C191_volume_factor_scaling 1 2 (fun _ => 0) ltac:(lra)) as (_ & D').
    pose proof (D A HA) as E1. rewrite (D' A HA) in E1. cbn [pow] in E1. lra.
Qed.
Print Assumptions C191_nonvacuous.
