(** multinomial_mode: utils/probability_utils.py 209-239, in exact real arithmetic
    (float32 rounding is not modelled); the uniform draws are an argument.
    Theorem C207. *)
From Coq Require Import List ZArith Reals Lra Lia Bool Arith.
Import ListNotations.
Local Open Scope R_scope.

(** What torch.divide of a float by an integer gives. *)
Inductive quotient := Fin (r : R) | PInf | MInf | NaN.
Definition divide (f : R) (k : Z) : quotient :=
  if Z.eqb k 0 then (if Rlt_dec 0 f then PInf else if Rlt_dec f 0 then MInf else NaN)
  else Fin (f / IZR k).

(** torch.argmin: a NaN counts as the least; among equals the first (torch does
    not say which). *)
Definition less (a b : quotient) : bool :=
  match a, b with
  | NaN, NaN => false | NaN, _ => true | _, NaN => false
  | MInf, MInf => false | MInf, _ => true | _, MInf => false
  | Fin x, Fin y => if Rlt_dec x y then true else false
  | Fin _, PInf => true
  | PInf, _ => false
  end.
Fixpoint argmin (l : list quotient) : nat :=
  match l with
  | [] => 0
  | [_] => 0
  | x :: r => let m := argmin r in if less (nth m r NaN) x then S m else 0
  end%nat.

Fixpoint put {A} (i : nat) (v : A) (l : list A) : list A :=
  match l, i with
  | [], _ => []
  | _ :: r, O => v :: r
  | x :: r, S j => x :: put j v r
  end.

(** 221-227: n0 grows by one each round, so the loop runs once per missing trip. *)
Fixpoint add_missing (rounds : nat) (kis : list Z) (fis : list R) (qis : list quotient) : list Z :=
  match rounds with
  | O => kis
  | S d =>
      let i := argmin qis in
      let k := (nth i kis 0 + 1)%Z in let f := nth i fis 0 - 1 in
      add_missing d (put i k kis) (put i f fis) (put i (divide (1 - f) (k + 1)) qis)
  end.
(** 229-237: likewise, once per trip in excess. *)
Fixpoint remove_excess (rounds : nat) (kis : list Z) (fis : list R) (qis : list quotient) : list Z :=
  match rounds with
  | O => kis
  | S d =>
      let i := argmin qis in
      let k := (nth i kis 0 - 1)%Z in let f := nth i fis 0 + 1 in
      remove_excess d (put i k kis) (put i f fis) (put i (divide f k) qis)
  end.

Fixpoint total (l : list Z) : Z := match l with [] => 0%Z | x :: r => (x + total r)%Z end.
Definition map2 {A B C} (g : A -> B -> C) (a : list A) (b : list B) : list C :=
  map (fun ab => g (fst ab) (snd ab)) (combine a b).

(** 214: floor((n + r/2) p). *)
Definition first_guess (n : Z) (p : list R) : list Z :=
  map (fun x => Int_part ((IZR n + INR (length p) / 2) * x)) p.
(** 209-239. *)
Definition multinomial_mode (n : Z) (p fis : list R) : list Z :=
  let kis := first_guess n p in
  let n0 := total kis in
  if Z.ltb n0 n then add_missing (Z.to_nat (n - n0)) kis fis (map2 (fun f k => divide (1 - f) (k + 1)) fis kis)
  else if Z.ltb n n0 then remove_excess (Z.to_nat (n0 - n)) kis fis (map2 divide fis kis)
  else kis.

(** ** Specification: the multinomial probability of a table, up to the factor n!
    common to all tables of n trips. *)
Fixpoint weight (p : list R) (k : list nat) : R :=
  match p, k with
  | x :: p', m :: k' => x ^ m / INR (fact m) * weight p' k'
  | _, _ => 1
  end.
Definition trips (k : list nat) : nat := fold_right plus 0%nat k.
Definition is_mode (p : list R) (k : list nat) : Prop :=
  forall k', length k' = length p -> trips k' = trips k -> weight p k' <= weight p k.

Lemma put_length : forall A i (v : A) l, length (put i v l) = length l.
Proof. intros A i v l. revert i. induction l; intros [|i]; cbn; auto. Qed.
Lemma put_total : forall i v l, (i < length l)%nat -> total (put i v l) = (total l - nth i l 0 + v)%Z.
Proof.
  intros i v l. revert i. induction l as [|x l IH]; intros i H; cbn in H; [lia|].
  destruct i; cbn [put total nth]; [lia|]. rewrite IH by lia. lia.
Qed.
Lemma put_nth : forall A i j (v d : A) l, (i < length l)%nat -> nth j (put i v l) d = if Nat.eqb i j then v else nth j l d.
Proof.
  intros A i j v d l. revert i j. induction l as [|x l IH]; intros i j H; cbn in H; [lia|].
  destruct i, j; cbn [put nth Nat.eqb]; auto. apply IH. lia.
Qed.
Lemma argmin_lt : forall l, l <> [] -> (argmin l < length l)%nat.
Proof.
  induction l as [|x [|y l] IH]; intros H; [congruence|cbn; lia|].
  assert (HI : (argmin (y :: l) < length (y :: l))%nat) by (apply IH; discriminate).
  change (argmin (x :: y :: l)) with (let m := argmin (y :: l) in if less (nth m (y :: l) NaN) x then S m else 0%nat).
  cbn zeta. destruct (less _ _); cbn [length] in *; lia.
Qed.
Lemma map2_length : forall A B C (g : A -> B -> C) a b, length (map2 g a b) = Nat.min (length a) (length b).
Proof. intros. unfold map2. rewrite map_length. apply combine_length. Qed.

Lemma add_total : forall d k f q, length q = length k -> k <> [] ->
  total (add_missing d k f q) = (total k + Z.of_nat d)%Z.
Proof.
  induction d as [|d IH]; intros k f q Hl Hn; cbn [add_missing]; [lia|].
  assert (Hi : (argmin q < length k)%nat) by (rewrite <- Hl; apply argmin_lt; intros ->; destruct k; [congruence|discriminate]).
  rewrite IH, put_total; [lia|exact Hi| |].
  - now rewrite !put_length.
  - intros E. apply (f_equal (@length Z)) in E. rewrite put_length in E. cbn in E. lia.
Qed.
Lemma remove_total : forall d k f q, length q = length k -> k <> [] ->
  total (remove_excess d k f q) = (total k - Z.of_nat d)%Z.
Proof.
  induction d as [|d IH]; intros k f q Hl Hn; cbn [remove_excess]; [lia|].
  assert (Hi : (argmin q < length k)%nat) by (rewrite <- Hl; apply argmin_lt; intros ->; destruct k; [congruence|discriminate]).
  rewrite IH, put_total; [lia|exact Hi| |].
  - now rewrite !put_length.
  - intros E. apply (f_equal (@length Z)) in E. rewrite put_length in E. cbn in E. lia.
Qed.
Lemma lengths : forall d k f q, length (add_missing d k f q) = length k /\ length (remove_excess d k f q) = length k.
Proof.
  induction d as [|d IH]; intros k f q; cbn [add_missing remove_excess]; auto.
  split; [rewrite (proj1 (IH _ _ _))|rewrite (proj2 (IH _ _ _))]; apply put_length.
Qed.

(** The table always has one cell per probability and n trips in all. *)
Theorem C207_has_all_trips : forall n p fis, p <> [] -> length fis = length p ->
  length (multinomial_mode n p fis) = length p /\ total (multinomial_mode n p fis) = n.
Proof.
  intros n p fis Hp Hf. unfold multinomial_mode.
  assert (HL : length (first_guess n p) = length p) by apply map_length.
  assert (HN : first_guess n p <> []) by (intros E; rewrite E in HL; destruct p; [congruence|discriminate]).
  destruct (Z.ltb_spec (total (first_guess n p)) n); [|destruct (Z.ltb_spec n (total (first_guess n p)))].
  - split; [now rewrite (proj1 (lengths _ _ _ _))|]. rewrite add_total; auto; [lia|]. rewrite map2_length. lia.
  - split; [now rewrite (proj2 (lengths _ _ _ _))|]. rewrite remove_total; auto; [lia|]. rewrite map2_length. lia.
  - split; [exact HL|lia].
Qed.
Print Assumptions C207_has_all_trips.

Lemma floor_nonneg : forall a, 0 <= a -> (0 <= Int_part a)%Z.
Proof. intros a H. destruct (base_Int_part a) as [H1 H2]. assert (-1 < Int_part a)%Z; [|lia]. apply lt_IZR. lra. Qed.
Lemma total_pos : forall k, (forall i, (0 <= nth i k 0)%Z) -> (0 < total k)%Z -> exists i, (i < length k)%nat /\ (0 < nth i k 0)%Z.
Proof.
  induction k as [|x k IH]; intros H Ht; cbn in Ht; [lia|]. pose proof (H 0%nat) as Hx. cbn in Hx.
  destruct (Z.eq_dec x 0) as [->|E].
  - destruct IH as [i [Hi Hp]]; [intros i; exact (H (S i))|lia|]. exists (S i). cbn. split; [lia|exact Hp].
  - exists 0%nat. cbn. split; lia.
Qed.
Lemma argmin_fin : forall l, (forall i, (i < length l)%nat -> nth i l NaN = PInf \/ exists r, nth i l NaN = Fin r) ->
  (exists i r, (i < length l)%nat /\ nth i l NaN = Fin r) -> exists r, nth (argmin l) l NaN = Fin r.
Proof.
  induction l as [|x [|y l] IH]; intros HA (i & r & Hi & Hr).
  - cbn in Hi; lia.
  - cbn in Hi. replace i with 0%nat in Hr by lia. exists r. exact Hr.
  - change (argmin (x :: y :: l)) with (let m := argmin (y :: l) in if less (nth m (y :: l) NaN) x then S m else 0%nat). cbn zeta.
    assert (HA' : forall j, (j < length (y :: l))%nat -> nth j (y :: l) NaN = PInf \/ exists r, nth j (y :: l) NaN = Fin r)
      by (intros j Hj; apply (HA (S j)); cbn [length] in *; lia).
    pose proof (HA 0%nat ltac:(cbn; lia)) as Hx. cbn [nth] in Hx.
    destruct i as [|i].
    + cbn [nth] in Hr. subst x. destruct (less (nth (argmin (y :: l)) (y :: l) NaN) (Fin r)) eqn:EL; cbn [nth]; [|eauto].
      assert (HM : (argmin (y :: l) < length (y :: l))%nat) by (apply argmin_lt; congruence).
      destruct (HA' _ HM) as [E|[r2 E]]; [|eauto].
      rewrite E in EL. discriminate EL.
    + destruct IH as [r2 E2]; [exact HA'|exists i, r; split; [cbn [length] in *; lia|exact Hr]|].
      rewrite E2. destruct Hx as [->|[r3 ->]].
      * cbn [less]. exists r2. exact E2.
      * destruct (less (Fin r2) (Fin r3)); [exists r2; exact E2|exists r3; reflexivity].
Qed.

Lemma add_nonneg : forall d k f q, length q = length k -> k <> [] -> (forall i, (0 <= nth i k 0)%Z) ->
  forall i, (0 <= nth i (add_missing d k f q) 0)%Z.
Proof.
  induction d as [|d IH]; intros k f q Hl Hn H i; cbn [add_missing]; auto.
  assert (Hi : (argmin q < length k)%nat) by (rewrite <- Hl; apply argmin_lt; intros ->; destruct k; [congruence|discriminate]).
  apply IH.
  - now rewrite !put_length.
  - intros E. apply (f_equal (@length Z)) in E. rewrite put_length in E. cbn in E. lia.
  - intros j. rewrite put_nth by exact Hi. destruct (Nat.eqb _ _); auto. pose proof (H (argmin q)). lia.
Qed.
Lemma remove_nonneg : forall d k f q, length q = length k -> length f = length k ->
  (forall i, (i < length k)%nat -> (0 <= nth i k 0)%Z /\ 0 < nth i f 0 /\ nth i q NaN = divide (nth i f 0) (nth i k 0%Z)) ->
  (Z.of_nat d <= total k)%Z ->
  forall i, (i < length k)%nat -> (0 <= nth i (remove_excess d k f q) 0)%Z.
Proof.
  induction d as [|d IH]; intros k f q Hl Hlf H Hd i Hik; cbn [remove_excess]; [apply H; auto|].
  assert (HA : forall j, (0 <= nth j k 0)%Z).
  { intros j. destruct (Nat.lt_ge_cases j (length k)) as [L|L]; [now apply H|]. now rewrite nth_overflow. }
  destruct (total_pos k HA) as [j [Hj Hjp]]; [lia|].
  destruct (argmin_fin q) as [r Hr].
  { intros m Hm. rewrite Hl in Hm. destruct (H m Hm) as (_ & Hf & ->). unfold divide.
    destruct (Z.eqb _ _); [|eauto]. destruct (Rlt_dec _ _); [now left|lra]. }
  { exists j. destruct (H j Hj) as (_ & _ & E). unfold divide in E. destruct (Z.eqb_spec (nth j k 0%Z) 0) as [E0|E0]; [lia|].
    eexists. split; [lia|exact E]. }
  assert (Hi : (argmin q < length k)%nat) by (rewrite <- Hl; apply argmin_lt; intros ->; destruct k; [cbn in Hj; lia|discriminate]).
  assert (Hkp : (0 < nth (argmin q) k 0)%Z).
  { destruct (H _ Hi) as (H0 & Hf & E). rewrite Hr in E. unfold divide in E. destruct (Z.eqb_spec (nth (argmin q) k 0%Z) 0) as [E0|E0]; [|lia].
    destruct (Rlt_dec _ _); discriminate || lra. }
  apply IH.
  - now rewrite !put_length.
  - now rewrite !put_length.
  - rewrite put_length. intros m Hm. destruct (H m Hm) as (H1 & H2 & H3). destruct (H _ Hi) as (H4 & H5 & H6).
    rewrite !put_nth by lia. destruct (Nat.eqb_spec (argmin q) m) as [<-|E]; [|auto].
    split; [lia|]. split; [lra|reflexivity].
  - rewrite put_total by exact Hi. lia.
  - now rewrite put_length.
Qed.

(** No cell is negative, for nonnegative probabilities, provided no draw is
    exactly zero. *)
Theorem C207_nonnegative_partial : forall n p fis, (0 <= n)%Z -> p <> [] -> length fis = length p ->
  (forall x, In x p -> 0 <= x) -> (forall f, In f fis -> 0 < f < 1) ->
  forall k, In k (multinomial_mode n p fis) -> (0 <= k)%Z.
Proof.
  intros n p fis Hn Hp Hf Hpp Hff k Hk.
  assert (HL : length (first_guess n p) = length p) by apply map_length.
  assert (HN : first_guess n p <> []) by (intros E; rewrite E in HL; destruct p; [congruence|discriminate]).
  assert (H0 : forall i, (0 <= nth i (first_guess n p) 0)%Z).
  { intros i. destruct (Nat.lt_ge_cases i (length (first_guess n p))) as [L|L]; [|now rewrite nth_overflow].
    pose proof (nth_In _ 0%Z L) as Hin. unfold first_guess in Hin at 2. apply in_map_iff in Hin. destruct Hin as (x & <- & Hx).
    apply floor_nonneg. apply Rmult_le_pos; [|now apply Hpp]. apply IZR_le in Hn. pose proof (pos_INR (length p)). lra. }
  destruct (In_nth _ _ 0%Z Hk) as (i & Hi & <-). destruct (C207_has_all_trips n p fis Hp Hf) as [HLm _]. rewrite HLm in Hi.
  unfold multinomial_mode.
  destruct (Z.ltb_spec (total (first_guess n p)) n); [|destruct (Z.ltb_spec n (total (first_guess n p)))]; auto.
  - apply add_nonneg; auto. rewrite map2_length. lia.
  - apply remove_nonneg; auto; [rewrite map2_length; lia|lia| |lia|lia].
    intros j Hj. split; [auto|]. split; [apply Hff, nth_In; lia|].
    unfold map2. rewrite (nth_indep _ NaN ((fun ab => divide (fst ab) (snd ab)) (0, 0%Z))) by (rewrite map_length, combine_length; lia).
    rewrite (map_nth (fun ab => divide (fst ab) (snd ab))), combine_nth by lia. reflexivity.
Qed.
Print Assumptions C207_nonnegative_partial.

(** The most likely count of a Poisson variable is the floor of its mean. *)
Lemma poisson_mode : forall a m, 0 <= a -> INR m <= a -> a < INR m + 1 -> forall k,
  a ^ k / INR (fact k) <= a ^ m / INR (fact m).
Proof.
  intros a m Ha H1 H2.
  assert (ST : forall k, a ^ S k / INR (fact (S k)) = a / INR (S k) * (a ^ k / INR (fact k))).
  { intros k. rewrite fact_simpl, mult_INR, <- tech_pow_Rmult. field. split; [apply INR_fact_neq_0|apply not_0_INR; lia]. }
  assert (NN : forall k, 0 <= a ^ k / INR (fact k)).
  { intros k. apply Rmult_le_pos; [now apply pow_le|]. left. apply Rinv_0_lt_compat. apply INR_fact_lt_0. }
  assert (UP : forall d, a ^ (m + d) / INR (fact (m + d)) <= a ^ m / INR (fact m)).
  { induction d as [|d IH]; [rewrite Nat.add_0_r; lra|]. rewrite Nat.add_succ_r, ST.
    apply Rle_trans with (2 := IH). rewrite <- (Rmult_1_l (a ^ (m + d) / _)) at 2. apply Rmult_le_compat_r; [apply NN|].
    apply Rmult_le_reg_r with (INR (S (m + d))); [apply lt_0_INR; lia|]. unfold Rdiv. rewrite Rmult_assoc, Rinv_l by (apply not_0_INR; lia).
    rewrite S_INR, plus_INR. pose proof (pos_INR d). lra. }
  assert (DN : forall d k, (k + d = m)%nat -> a ^ k / INR (fact k) <= a ^ m / INR (fact m)).
  { induction d as [|d IH]; intros k E; [rewrite Nat.add_0_r in E; subst; lra|].
    apply Rle_trans with (2 := IH (S k) ltac:(lia)). rewrite ST.
    rewrite <- (Rmult_1_l (a ^ k / _)) at 1. apply Rmult_le_compat_r; [apply NN|].
    apply Rmult_le_reg_r with (INR (S k)); [apply lt_0_INR; lia|]. unfold Rdiv. rewrite Rmult_assoc, Rinv_l by (apply not_0_INR; lia).
    assert (INR (S k) <= INR m) by (apply le_INR; lia). lra. }
  intros k. destruct (Nat.le_ge_cases m k) as [L|L].
  - replace k with (m + (k - m))%nat by lia. apply UP.
  - apply (DN (m - k)%nat). lia.
Qed.

Lemma weight_scale : forall c p k, length k = length p -> weight (map (Rmult c) p) k = c ^ trips k * weight p k.
Proof.
  intros c. induction p as [|x p IH]; intros [|m k] H; cbn [map weight trips fold_right pow] in *; try discriminate; [lra|].
  rewrite IH by (cbn in H; lia). fold (trips k). rewrite pow_add, Rpow_mult_distr. unfold Rdiv. ring.
Qed.
Lemma weight_nonneg : forall p k, (forall x, In x p -> 0 <= x) -> 0 <= weight p k.
Proof.
  induction p as [|x p IH]; intros [|m k] H; cbn [weight]; try lra. apply Rmult_le_pos; [|apply IH; intros; apply H; now right].
  apply Rmult_le_pos; [apply pow_le, H; now left|]. left. apply Rinv_0_lt_compat, INR_fact_lt_0.
Qed.
Lemma floor_mode : forall p k', (forall x, In x p -> 0 <= x) -> length k' = length p ->
  weight p k' <= weight p (map (fun x => Z.to_nat (Int_part x)) p).
Proof.
  induction p as [|x p IH]; intros [|m k'] H HL; cbn [map weight]; try lra; try discriminate.
  assert (Hx : 0 <= x) by (apply H; now left).
  destruct (base_Int_part x) as [H1 H2].
  assert (EI : INR (Z.to_nat (Int_part x)) = IZR (Int_part x)) by (rewrite INR_IZR_INZ, Z2Nat.id; [reflexivity|now apply floor_nonneg]).
  apply Rmult_le_compat.
  - apply Rmult_le_pos; [now apply pow_le|]. left. apply Rinv_0_lt_compat, INR_fact_lt_0.
  - apply weight_nonneg. intros; apply H; now right.
  - apply poisson_mode; rewrite ?EI; lra.
  - apply IH; [intros; apply H; now right|cbn in HL; lia].
Qed.

(** When the first guess already has n trips, the table returned is a mode: no
    table with as many trips is more likely. *)
Theorem C207_first_guess_is_mode_partial : forall n p fis, (0 < n)%Z -> p <> [] -> (forall x, In x p -> 0 <= x) ->
  total (first_guess n p) = n ->
  is_mode p (map Z.to_nat (multinomial_mode n p fis)).
Proof.
  intros n p fis Hn Hp Hpp Ht. unfold multinomial_mode. rewrite Ht, Z.ltb_irrefl.
  intros k' HL HT. set (c := IZR n + INR (length p) / 2) in *.
  assert (Hc : 0 < c) by (apply IZR_lt in Hn; pose proof (pos_INR (length p)); unfold c; lra).
  unfold first_guess in *. fold c in HT, Ht |- *. rewrite map_map in *.
  pose proof (floor_mode (map (Rmult c) p) k') as HF. rewrite map_map in HF. cbn beta in HF.
  rewrite !weight_scale in HF by (rewrite ?map_length; auto). rewrite HT in HF.
  apply Rmult_le_reg_l with (2 := HF ltac:(intros y Hy; apply in_map_iff in Hy; destruct Hy as (x & <- & Hx); apply Rmult_le_pos; [lra|auto]) ltac:(now rewrite map_length)).
  now apply pow_lt.
Qed.
Print Assumptions C207_first_guess_is_mode_partial.

Lemma floor_is : forall a z, a - 1 < IZR z <= a -> Int_part a = z.
Proof.
  intros a z H. destruct (base_Int_part a) as [H1 H2].
  assert (Int_part a < z + 1)%Z by (apply lt_IZR; rewrite plus_IZR; lra).
  assert (z < Int_part a + 1)%Z by (apply lt_IZR; rewrite plus_IZR; lra). lia.
Qed.

(** Otherwise the uniform draws decide which cell is corrected, and the table need
    not be a mode: one trip with probabilities 0.5, 0.45, 0.05 may be put in the
    second cell. *)
Theorem C207_corrected_not_mode_refuted :
  multinomial_mode 1 [/2; 9/20; /20] [/5; 4/5; /2] = [0; 1; 0]%Z /\
  ~ is_mode [/2; 9/20; /20] [0; 1; 0]%nat.
Proof.
  split.
  - unfold multinomial_mode, first_guess. cbn [map length].
    replace (INR 3) with 3 by (cbn; lra).
    rewrite (floor_is _ 1), (floor_is _ 1), (floor_is _ 0) by lra.
    change (remove_excess 1 [1; 1; 0]%Z [/5; 4/5; /2] (map2 divide [/5; 4/5; /2] [1; 1; 0]%Z) = [0; 1; 0]%Z).
    unfold map2, divide. cbn [combine map fst snd Z.eqb]. repeat (destruct (Rlt_dec _ _); try lra).
    cbn [remove_excess argmin nth less]. repeat (destruct (Rlt_dec _ _); try lra). reflexivity.
  - intros H. specialize (H [1; 0; 0]%nat eq_refl eq_refl). cbn in H. lra.
Qed.
Print Assumptions C207_corrected_not_mode_refuted.

(** A draw of exactly zero in a cell with no trips makes a table with a negative
    cell: torch's argmin picks 0/0. *)
Theorem C207_zero_draw_negative_refuted :
  multinomial_mode 1 [/2; /2; 0; 0] [/2; /2; /2; 0] = [1; 1; 0; -1]%Z.
Proof.
  unfold multinomial_mode, first_guess. cbn [map length].
  replace (INR 4) with 4 by (cbn; lra).
  rewrite (floor_is _ 1), (floor_is _ 0) by lra.
  change (remove_excess 1 [1; 1; 0; 0]%Z [/2; /2; /2; 0] (map2 divide [/2; /2; /2; 0] [1; 1; 0; 0]%Z) = [1; 1; 0; -1]%Z).
  unfold map2, divide. cbn [combine map fst snd Z.eqb]. repeat (destruct (Rlt_dec _ _); try lra).
  reflexivity.
Qed.
Print Assumptions C207_zero_draw_negative_refuted.

(** ** Distance from proportional shares. *)
Fixpoint distance (k : list Z) (shares : list R) : R :=
  match k, shares with
  | m :: k', x :: a => Rabs (IZR m - x) + distance k' a
  | _, _ => 0
  end.
Fixpoint rtotal (p : list R) : R := match p with [] => 0 | x :: r => x + rtotal r end.

Lemma put_distance : forall i v k a, (i < length k)%nat ->
  distance (put i v k) a <= distance k a + Rabs (IZR v - IZR (nth i k 0%Z)).
Proof.
  intros i v k. revert i. induction k as [|m k IH]; intros i a H; cbn in H; [lia|].
  destruct a as [|x a].
  { pose proof (Rabs_pos (IZR v - IZR (nth i (m :: k) 0%Z))). destruct i; cbn [put distance]; lra. }
  destruct i; cbn [put distance nth].
  - replace (IZR v - x) with ((IZR v - IZR m) + (IZR m - x)) by lra. pose proof (Rabs_triang (IZR v - IZR m) (IZR m - x)). lra.
  - specialize (IH i a ltac:(lia)). lra.
Qed.
Lemma correction_distance : forall d k f q a, length q = length k -> k <> [] ->
  distance (add_missing d k f q) a <= distance k a + INR d /\
  distance (remove_excess d k f q) a <= distance k a + INR d.
Proof.
  induction d as [|d IH]; intros k f q a Hl Hn; [cbn; lra|].
  assert (Hi : (argmin q < length k)%nat) by (rewrite <- Hl; apply argmin_lt; intros ->; destruct k; [congruence|discriminate]).
  assert (HN : forall v, put (argmin q) v k <> []).
  { intros v E. apply (f_equal (@length Z)) in E. rewrite put_length in E. cbn in E. lia. }
  rewrite S_INR. cbn [add_missing remove_excess]. split.
  - eapply Rle_trans; [apply IH; [now rewrite !put_length|apply HN]|].
    pose proof (put_distance (argmin q) (nth (argmin q) k 0%Z + 1)%Z k a Hi) as H.
    rewrite plus_IZR in H. replace (IZR (nth (argmin q) k 0%Z) + 1 - IZR (nth (argmin q) k 0%Z)) with 1 in H by lra.
    rewrite Rabs_R1 in H. lra.
  - eapply Rle_trans; [apply IH; [now rewrite !put_length|apply HN]|].
    pose proof (put_distance (argmin q) (nth (argmin q) k 0%Z - 1)%Z k a Hi) as H.
    rewrite minus_IZR in H. replace (IZR (nth (argmin q) k 0%Z) - 1 - IZR (nth (argmin q) k 0%Z)) with (- (1)) in H by lra.
    rewrite Rabs_Ropp, Rabs_R1 in H. lra.
Qed.
Lemma guess_distance : forall c p, 
  distance (map (fun x => Int_part (c * x)) p) (map (Rmult c) p) = c * rtotal p - IZR (total (map (fun x => Int_part (c * x)) p)) /\
  distance (map (fun x => Int_part (c * x)) p) (map (Rmult c) p) <= INR (length p).
Proof.
  intros c. induction p as [|x p [IH1 IH2]]; cbn [map distance rtotal total length]; [cbn; lra|].
  destruct (base_Int_part (c * x)) as [H1 H2]. rewrite Rabs_left1 by lra. rewrite plus_IZR, S_INR. lra.
Qed.

(** Whatever the draws, the table is within 3/2 of a trip per cell, in total, of
    the shares (n + r/2) p of the probabilities. *)
Theorem C207_near_the_shares : forall n p fis, p <> [] -> length fis = length p -> rtotal p = 1 ->
  distance (multinomial_mode n p fis) (map (Rmult (IZR n + INR (length p) / 2)) p) <= 3 / 2 * INR (length p).
Proof.
  intros n p fis Hp Hf Hs. unfold multinomial_mode.
  assert (HL : length (first_guess n p) = length p) by apply map_length.
  assert (HN : first_guess n p <> []) by (intros E; rewrite E in HL; destruct p; [congruence|discriminate]).
  destruct (guess_distance (IZR n + INR (length p) / 2) p) as [G1 G2]. fold (first_guess n p) in G1, G2.
  rewrite Hs, Rmult_1_r in G1. pose proof (pos_INR (length p)) as HP.
  set (a := map (Rmult (IZR n + INR (length p) / 2)) p) in *.
  destruct (Z.ltb_spec (total (first_guess n p)) n) as [H|H]; [|destruct (Z.ltb_spec n (total (first_guess n p))) as [H'|H']].
  - eapply Rle_trans; [apply correction_distance; [rewrite map2_length; lia|exact HN]|].
    rewrite INR_IZR_INZ, Z2Nat.id, minus_IZR by lia. lra.
  - eapply Rle_trans; [apply correction_distance; [rewrite map2_length; lia|exact HN]|].
    rewrite INR_IZR_INZ, Z2Nat.id, minus_IZR by lia. lra.
  - lra.
Qed.
Print Assumptions C207_near_the_shares.

(** Two trips over probabilities 1/2, 1/2: the first guess [1; 1] already has two
    trips. *)
Example C207_nonvacuous :
  total (first_guess 2 [/2; /2]) = 2%Z /\ multinomial_mode 2 [/2; /2] [/3; /3] = [1; 1]%Z /\
  is_mode [/2; /2] [1; 1]%nat /\ rtotal [/2; /2] = 1.
Proof.
  assert (E : first_guess 2 [/2; /2] = [1; 1]%Z).
  { unfold first_guess. cbn [map length]. replace (INR 2) with 2 by (cbn; lra). now rewrite !(floor_is _ 1) by lra. }
  assert (M : multinomial_mode 2 [/2; /2] [/3; /3] = [1; 1]%Z) by (unfold multinomial_mode; rewrite E; reflexivity).
  split; [now rewrite E|]. split; [exact M|]. split; [|cbn; lra].
  assert (T : total (first_guess 2 [/2; /2]) = 2%Z) by now rewrite E.
  pose proof (C207_first_guess_is_mode_partial 2 [/2; /2] [/3; /3]) as H. rewrite M in H.
  apply H; [lia|discriminate|intros x [<-|[<-|[]]]; lra|exact T].
Qed.
