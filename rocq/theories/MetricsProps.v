(** Properties C119-C123 of Metrics.v. *)
From Coq Require Import List Reals Lra Lia Bool Arith Permutation Sorted.
From Verif Require Import Base RealBase Metrics.
Import ListNotations.
Local Open Scope R_scope.

(** * C119: subsets of axes *)

(** [l] is obtained from [s] by leaving out elements. *)
Inductive sublist {A} : list A -> list A -> Prop :=
| sub_nil : sublist [] []
| sub_skip : forall x l s, sublist l s -> sublist l (x :: s)
| sub_take : forall x l s, sublist l s -> sublist (x :: l) (x :: s).

Lemma sublist_none : forall A (s : list A), sublist [] s.
Proof. induction s; constructor; assumption. Qed.
Lemma sublist_length : forall A (l s : list A), sublist l s -> (List.length l <= List.length s)%nat.
Proof. intros A l s H. induction H; cbn; lia. Qed.
Lemma sublist_incl : forall A (l s : list A), sublist l s -> incl l s.
Proof.
  intros A l s H. induction H; intros y Hy; [exact Hy|right; apply IHsublist, Hy|].
  destruct Hy as [<-|Hy]; [left; reflexivity|right; apply IHsublist, Hy].
Qed.
Lemma sublist_NoDup : forall A (l s : list A), sublist l s -> NoDup s -> NoDup l.
Proof.
  intros A l s H. induction H; intros HN; [constructor| |]; inversion HN; subst; [auto|].
  constructor; [|auto]. intros Hx. apply sublist_incl in H. apply H in Hx. contradiction.
Qed.

Lemma combinations_iff : forall A (s : list A) r l, In l (combinations s r) <-> sublist l s /\ List.length l = r.
Proof.
  induction s as [|x s IH]; intros r l.
  - destruct r; cbn; split.
    + intros [<-|[]]. split; [constructor|reflexivity].
    + intros [H E]. destruct l; [left; reflexivity|discriminate].
    + intros [].
    + intros [H E]. inversion H; subst. discriminate.
  - destruct r; cbn [combinations].
    + cbn. split.
      * intros [<-|[]]. split; [apply sublist_none|reflexivity].
      * intros [H E]. destruct l; [left; reflexivity|discriminate].
    + rewrite in_app_iff, in_map_iff, IH. split.
      * intros [[l' [<- H]]|[H E]].
        -- apply IH in H as [H E]. split; [constructor; exact H|cbn; congruence].
        -- split; [constructor; exact H|exact E].
      * intros [H E]. inversion H; subst.
        -- right. auto.
        -- left. exists l0. split; [reflexivity|]. apply IH. split; [assumption|]. cbn in E. congruence.
Qed.

Lemma NoDup_app_intro : forall A (a b : list A), NoDup a -> NoDup b -> (forall x, In x a -> ~ In x b) -> NoDup (a ++ b).
Proof.
  induction a as [|x a IH]; intros b Ha Hb H; [exact Hb|]. cbn. inversion Ha; subst. constructor.
  - intros Hin. apply in_app_or in Hin as [Hin|Hin]; [contradiction|]. apply (H x); [left; reflexivity|exact Hin].
  - apply IH; auto. intros y Hy. apply H. right; exact Hy.
Qed.

Lemma combinations_NoDup : forall A (s : list A) r, NoDup s -> NoDup (combinations s r).
Proof.
  induction s as [|x s IH]; intros r HN; (destruct r; cbn [combinations]; [constructor; [intros []|constructor]|]); [constructor|].
  inversion HN as [|? ? Hx HN']; subst. apply NoDup_app_intro; [|apply IH; exact HN'|].
  - apply FinFun.Injective_map_NoDup; [intros a b E; congruence|apply IH; exact HN'].
  - intros l Hl Hr. apply in_map_iff in Hl as [l' [<- _]]. apply combinations_iff in Hr as [Hr _].
    apply sublist_incl in Hr. apply Hx, Hr. left; reflexivity.
Qed.

Lemma combinations_too_long : forall A (s : list A) r, (List.length s < r)%nat -> combinations s r = [].
Proof.
  intros A s r H. destruct (combinations s r) as [|l c] eqn:E; [reflexivity|]. exfalso.
  assert (Hl : In l (combinations s r)) by (rewrite E; left; reflexivity). apply combinations_iff in Hl as [Hl El]. apply sublist_length in Hl. lia.
Qed.

Fixpoint nsum (k : nat) (f : nat -> nat) : nat := match k with O => O | S k' => (nsum k' f + f k')%nat end.
Lemma nsum_ext : forall k f g, (forall r, f r = g r) -> nsum k f = nsum k g.
Proof. induction k as [|k IH]; intros f g H; cbn; [reflexivity|]. rewrite H, (IH f g H). reflexivity. Qed.
Lemma nsum_first : forall k f, nsum (S k) f = (f 0%nat + nsum k (fun r => f (S r)))%nat.
Proof. induction k as [|k IH]; intros f; [cbn; lia|]. cbn [nsum] in *. rewrite IH. lia. Qed.
Lemma nsum_add : forall k f g, nsum k (fun r => (f r + g r)%nat) = (nsum k f + nsum k g)%nat.
Proof. induction k as [|k IH]; intros f g; cbn; [reflexivity|]. rewrite IH. lia. Qed.
Lemma flat_map_seq_length : forall A (f : nat -> list A) k a, List.length (flat_map f (seq a k)) = nsum k (fun r => List.length (f (a + r)%nat)).
Proof.
  intros A f k. induction k as [|k IH]; intros a; [reflexivity|]. rewrite nsum_first. cbn [seq flat_map]. rewrite app_length, IH, Nat.add_0_r. f_equal.
  apply nsum_ext. intros r. rewrite Nat.add_succ_r. reflexivity.
Qed.

Lemma all_combinations_length : forall A (s : list A) k, (List.length s <= k)%nat ->
  nsum (S k) (fun r => List.length (combinations s r)) = (2 ^ List.length s)%nat.
Proof.
  intros A s. induction s as [|x s IH]; intros k Hk.
  - rewrite nsum_first. cbn [combinations List.length].
    replace (nsum k (fun _ => 0%nat)) with 0%nat by (clear; induction k; cbn; lia). reflexivity.
  - cbn [List.length] in *. destruct k as [|k]; [lia|]. rewrite nsum_first.
    rewrite (nsum_ext (S k) (fun r => List.length (combinations (x :: s) (S r))) (fun r => (List.length (combinations s r) + List.length (combinations s (S r)))%nat))
      by (intros r; cbn [combinations]; rewrite app_length, map_length; reflexivity).
    rewrite nsum_add. rewrite (IH k) by lia.
    pose proof (IH (S k) ltac:(lia)) as H. rewrite nsum_first in H.
    change (combinations (x :: s) 0) with (@nil A :: nil). change (List.length [[]]) with 1%nat in *.
    replace (List.length (combinations s 0)) with 1%nat in H by (destruct s; reflexivity). cbn [Nat.pow]. lia.
Qed.

Lemma filter_unique : forall A (p : A -> bool) l s, sublist l s -> NoDup s ->
  (forall x, In x l <-> In x s /\ p x = true) -> l = filter p s.
Proof.
  intros A p l s H. induction H as [|x l s H IH|x l s H IH]; intros HN Hp; [reflexivity| |]; inversion HN as [|? ? Hx HN']; subst; cbn [filter].
  - destruct (p x) eqn:E.
    + exfalso. assert (In x l) by (apply Hp; split; [left; reflexivity|exact E]). apply sublist_incl in H. apply Hx, H. assumption.
    + apply IH; [exact HN'|]. intros y. rewrite Hp. cbn. split; [intros [[<-|Hy] Hpy]; [congruence|auto]|intros [Hy Hpy]; auto].
  - assert (E : p x = true) by (apply Hp; left; reflexivity). rewrite E. f_equal. apply IH; [exact HN'|]. intros y. split.
    + intros Hy. split; [apply sublist_incl in H; apply H; exact Hy|apply Hp; right; exact Hy].
    + intros [Hy Hpy]. assert (Hin : In y (x :: l)) by (apply Hp; split; [right; exact Hy|exact Hpy]). destruct Hin as [<-|Hin]; [contradiction|exact Hin].
Qed.
Lemma filter_sublist : forall A (p : A -> bool) s, sublist (filter p s) s.
Proof. induction s as [|x s IH]; cbn; [constructor|]. destruct (p x); constructor; exact IH. Qed.

Lemma powerset_iff : forall A (s l : list A), In l (powerset s) <-> sublist l s /\ l <> [].
Proof.
  intros A s l. unfold powerset. rewrite in_flat_map. split.
  - intros [r [Hr Hl]]. apply combinations_iff in Hl as [Hl E]. apply in_seq in Hr. split; [exact Hl|]. intros ->. cbn in E. lia.
  - intros [Hl Hne]. exists (List.length l). split; [|apply combinations_iff; auto]. apply in_seq. apply sublist_length in Hl. destruct l; [congruence|]. cbn in *. lia.
Qed.

(** C119: every non-empty set of the given elements is listed exactly once, smaller
    ones first. *)
Theorem C119_powerset : forall A (s : list A), NoDup s ->
  (forall p : A -> bool, (exists x, In x s /\ p x = true) ->
     exists l, In l (powerset s) /\ (forall x, In x l <-> In x s /\ p x = true) /\
       forall l', In l' (powerset s) -> (forall x, In x l' <-> In x s /\ p x = true) -> l' = l) /\
  (forall l, In l (powerset s) -> l <> [] /\ NoDup l /\ incl l s) /\
  NoDup (powerset s) /\
  List.length (powerset s) = (2 ^ List.length s - 1)%nat /\
  StronglySorted (fun a b => (List.length a <= List.length b)%nat) (powerset s).
Proof.
  intros A s HN. split; [|split; [|split; [|split]]].
  - intros p [x [Hx Hpx]]. exists (filter p s). split; [|split].
    + apply powerset_iff. split; [apply filter_sublist|]. intros E. assert (Hin : In x (filter p s)) by (apply filter_In; auto). rewrite E in Hin. destruct Hin.
    + intros y. apply filter_In.
    + intros l' Hl' Hp. apply powerset_iff in Hl' as [Hl' _]. apply filter_unique; assumption.
  - intros l Hl. apply powerset_iff in Hl as [Hl Hne]. split; [exact Hne|]. split; [eapply sublist_NoDup; eassumption|apply sublist_incl; exact Hl].
  - unfold powerset. assert (H : forall k a, NoDup (flat_map (combinations s) (seq a k))); [|apply H].
    induction k as [|k IH]; intros a; [constructor|]. cbn [seq flat_map]. apply NoDup_app_intro; [apply combinations_NoDup; exact HN|apply IH|].
    intros l Hl Hl'. apply combinations_iff in Hl as [_ E]. apply in_flat_map in Hl' as [r [Hr Hl']]. apply combinations_iff in Hl' as [_ E']. apply in_seq in Hr. lia.
  - unfold powerset. rewrite flat_map_seq_length. pose proof (all_combinations_length A s (List.length s) (le_n _)) as H. rewrite nsum_first in H.
    replace (List.length (combinations s 0)) with 1%nat in H by (destruct s; reflexivity). change (fun r => List.length (combinations s (1 + r))) with (fun r => List.length (combinations s (S r))). lia.
  - unfold powerset. assert (H : forall k a, StronglySorted (fun x y => (List.length x <= List.length y)%nat) (flat_map (combinations s) (seq a k))); [|apply H].
    induction k as [|k IH]; intros a; [constructor|]. cbn [seq flat_map].
    assert (G : forall u v, (forall x, In x u -> List.length x = a) -> (forall y, In y v -> (a <= List.length y)%nat) ->
      StronglySorted (fun x y : list A => (List.length x <= List.length y)%nat) v -> StronglySorted (fun x y : list A => (List.length x <= List.length y)%nat) (u ++ v)).
    { induction u as [|x u IHu]; intros v Hu Hv Hs; [exact Hs|]. cbn. constructor.
      - apply IHu; auto. intros y Hy. apply Hu. right; exact Hy.
      - apply Forall_forall. intros y Hy. rewrite (Hu x (or_introl eq_refl)). apply in_app_or in Hy as [Hy|Hy]; [rewrite (Hu y (or_intror Hy)); lia|apply Hv; exact Hy]. }
    apply G; [| |apply IH].
    + intros x Hx. apply combinations_iff in Hx. apply Hx.
    + intros y Hy. apply in_flat_map in Hy as [r [Hr Hy]]. apply combinations_iff in Hy as [_ E]. apply in_seq in Hr. lia.
Qed.
Print Assumptions C119_powerset.

Example C119_nonvacuous : NoDup [0; 1; 2]%nat /\ powerset [0; 1]%nat = [[0]; [1]; [0; 1]]%nat /\ List.length (powerset [0; 1; 2]%nat) = 7%nat.
Proof. split; [repeat constructor; cbn; intuition discriminate|]. split; reflexivity. Qed.

(** * C120: distances between tables *)

Lemma or_one_pos : forall x, 0 < or_one x.
Proof. intros x. unfold or_one. destruct (Rleb x 0) eqn:E; [lra|]. apply Rleb_false in E. exact E. Qed.

Lemma sq_div_zero : forall x d, 0 < d -> x ^ 2 / d = 0 -> x = 0.
Proof.
  intros x d Hd H. apply Rmult_eq_compat_r with (r := d) in H. unfold Rdiv in H. rewrite Rmult_assoc, Rinv_l in H by lra.
  rewrite Rmult_1_r, Rmult_0_l in H. cbn in H. rewrite Rmult_1_r in H. destruct (Rmult_integral _ _ H); assumption.
Qed.
Lemma sq_div_nonneg : forall x d, 0 < d -> 0 <= x ^ 2 / d.
Proof. intros x d Hd. unfold Rdiv. apply Rmult_le_pos; [apply pow2_ge_0|]. left. apply Rinv_0_lt_compat, Hd. Qed.

(** The share of cell (i,j) in its row; 0 everywhere in an empty row. *)
Definition row_share (m : nat) (t : rmat) (i j : nat) : R :=
  if Req_EM_T (row_sum m t i) 0 then 0 else t i j / row_sum m t i.

Lemma row_share_eq : forall m t i j, (forall j, (j < m)%nat -> 0 <= t i j) -> (j < m)%nat ->
  t i j / or_one (row_sum m t i) = row_share m t i j.
Proof.
  intros m t i j Hnn Hj. unfold row_share, or_one.
  assert (Hs : 0 <= row_sum m t i) by (apply rsum_nonneg; exact Hnn).
  destruct (Req_EM_T (row_sum m t i) 0) as [E|E].
  - assert (H0 : t i j = 0) by (apply (proj1 (rsum_zero_iff m (fun j => t i j) Hnn) E j Hj)). rewrite H0. unfold Rdiv. lra.
  - destruct (Rleb (row_sum m t i) 0) eqn:El; [apply Rleb_spec in El; lra|reflexivity].
Qed.

(** C120, chi-squared distances. *)
Theorem C120_chi_squared_partial : forall n m t1 t2,
  (forall i j, (i < n)%nat -> (j < m)%nat -> 0 <= t1 i j /\ 0 <= t2 i j) ->
  0 <= chi_squared_row n m t1 t2 /\
  (chi_squared_row n m t1 t2 = 0 <->
     forall i j, (i < n)%nat -> (j < m)%nat -> row_share m t1 i j = row_share m t2 i j) /\
  (forall c, (forall i, (i < n)%nat -> 0 < c i) ->
     chi_squared_row n m t1 (fun i j => c i * t2 i j) = chi_squared_row n m t1 t2) /\
  chi_squared_column n m t1 t2 = chi_squared_row m n (fun i j => t1 j i) (fun i j => t2 j i).
Proof.
  intros n m t1 t2 Hnn. split; [|split; [|split]].
  - apply rsum2_nonneg. intros i j Hi Hj. apply sq_div_nonneg, or_one_pos.
  - unfold chi_squared_row. rewrite rsum2_zero_iff by (intros i j Hi Hj; apply sq_div_nonneg, or_one_pos). split.
    + intros H i j Hi Hj. specialize (H i j Hi Hj). apply sq_div_zero in H; [|apply or_one_pos].
      rewrite !row_share_eq in H by (try exact Hj; intros; apply Hnn; assumption). lra.
    + intros H i j Hi Hj. rewrite !row_share_eq by (try exact Hj; intros; apply Hnn; assumption). rewrite (H i j Hi Hj).
      unfold Rminus. rewrite Rplus_opp_r. unfold Rdiv. cbn. ring.
  - intros c Hc. unfold chi_squared_row. apply rsum2_ext. intros i j Hi Hj.
    assert (E : row_sum m (fun i j => c i * t2 i j) i = c i * row_sum m t2 i) by (unfold row_sum; apply rsum_scal).
    rewrite E. f_equal. f_equal. f_equal. specialize (Hc i Hi). unfold or_one.
    assert (Hs : 0 <= row_sum m t2 i) by (apply rsum_nonneg; intros; apply Hnn; assumption).
    destruct (Rleb (c i * row_sum m t2 i) 0) eqn:E1; destruct (Rleb (row_sum m t2 i) 0) eqn:E2.
    + apply Rleb_spec in E2. assert (E0 : row_sum m t2 i = 0) by lra.
      assert (H0 : t2 i j = 0) by (apply (proj1 (rsum_zero_iff m (fun j => t2 i j) (fun j Hj => proj2 (Hnn i j Hi Hj))) E0 j Hj)).
      rewrite H0. unfold Rdiv. ring.
    + apply Rleb_spec in E1. apply Rleb_false in E2. exfalso. pose proof (Rmult_lt_0_compat _ _ Hc E2). lra.
    + apply Rleb_false in E1. apply Rleb_spec in E2. exfalso. assert (row_sum m t2 i = 0) by lra. rewrite H in E1. lra.
    + apply Rleb_false in E1. apply Rleb_false in E2. field. split; lra.
  - unfold chi_squared_column, chi_squared_row. rewrite rsum2_swap. reflexivity.
Qed.
Print Assumptions C120_chi_squared_partial.

(** Cauchy-Schwarz and Minkowski. *)
Lemma cauchy : forall n m (a b : rmat),
  rsum2 n m (fun i j => a i j * b i j) ^ 2 <= rsum2 n m (fun i j => a i j ^ 2) * rsum2 n m (fun i j => b i j ^ 2).
Proof.
  intros n m a b. set (A := rsum2 n m (fun i j => a i j ^ 2)). set (B := rsum2 n m (fun i j => b i j ^ 2)). set (C := rsum2 n m (fun i j => a i j * b i j)).
  assert (HB : 0 <= B) by (apply rsum2_nonneg; intros; apply pow2_ge_0).
  destruct (Req_EM_T B 0) as [E|E].
  - assert (Hb : forall i j, (i < n)%nat -> (j < m)%nat -> b i j = 0).
    { intros i j Hi Hj. assert (H : b i j ^ 2 = 0) by (apply (proj1 (rsum2_zero_iff n m (fun i j => b i j ^ 2) (fun i j _ _ => pow2_ge_0 _)) E i j Hi Hj)).
      cbn in H. rewrite Rmult_1_r in H. destruct (Rmult_integral _ _ H); assumption. }
    assert (HC : C = 0).
    { unfold C. rewrite (rsum2_ext n m _ (fun _ _ => 0)) by (intros i j Hi Hj; rewrite (Hb i j Hi Hj); ring). unfold rsum2. apply rsum_0. intros. apply rsum_0. reflexivity. }
    rewrite HC, E. cbn. lra.
  - assert (H : 0 <= rsum2 n m (fun i j => (B * a i j - C * b i j) ^ 2)) by (apply rsum2_nonneg; intros; apply pow2_ge_0).
    assert (EQ : rsum2 n m (fun i j => (B * a i j - C * b i j) ^ 2) = B * (A * B - C ^ 2)).
    { rewrite (rsum2_ext n m _ (fun i j => (B ^ 2 * a i j ^ 2 + C ^ 2 * b i j ^ 2) - (2 * B * C) * (a i j * b i j))) by (intros; ring).
      rewrite rsum2_sub, rsum2_add, !rsum2_scal. fold A B C. ring. }
    rewrite EQ in H. assert (0 < B) by lra. assert (0 <= A * B - C ^ 2); [|lra].
    apply Rmult_le_reg_l with B; [assumption|]. rewrite Rmult_0_r. exact H.
Qed.

Lemma minkowski : forall n m (a b : rmat),
  sqrt (rsum2 n m (fun i j => (a i j + b i j) ^ 2)) <= sqrt (rsum2 n m (fun i j => a i j ^ 2)) + sqrt (rsum2 n m (fun i j => b i j ^ 2)).
Proof.
  intros n m a b. set (A := rsum2 n m (fun i j => a i j ^ 2)). set (B := rsum2 n m (fun i j => b i j ^ 2)). set (C := rsum2 n m (fun i j => a i j * b i j)).
  assert (HA : 0 <= A) by (apply rsum2_nonneg; intros; apply pow2_ge_0). assert (HB : 0 <= B) by (apply rsum2_nonneg; intros; apply pow2_ge_0).
  assert (EQ : rsum2 n m (fun i j => (a i j + b i j) ^ 2) = A + B + 2 * C).
  { rewrite (rsum2_ext n m _ (fun i j => (a i j ^ 2 + b i j ^ 2) + 2 * (a i j * b i j))) by (intros; ring). rewrite !rsum2_add, rsum2_scal. reflexivity. }
  rewrite EQ. pose proof (sqrt_pos A) as SA. pose proof (sqrt_pos B) as SB.
  assert (HC : C <= sqrt A * sqrt B).
  { rewrite <- sqrt_mult by assumption. destruct (Rle_dec C 0) as [Hc|Hc]; [apply Rle_trans with 0; [exact Hc|apply sqrt_pos]|].
    rewrite <- (sqrt_pow2 C) by lra. apply sqrt_le_1_alt. apply cauchy. }
  apply Rle_trans with (sqrt ((sqrt A + sqrt B) ^ 2)).
  - apply sqrt_le_1_alt. replace ((sqrt A + sqrt B) ^ 2) with (sqrt A ^ 2 + sqrt B ^ 2 + 2 * (sqrt A * sqrt B)) by ring.
    rewrite !pow2_sqrt by assumption. lra.
  - rewrite sqrt_pow2 by lra. lra.
Qed.

(** C120, Euclidean distance: a metric on the tables of a given total. *)
Theorem C120_euclidean_metric_partial : forall n m s t1 t2 t3, s <> 0 ->
  rsum2 n m t1 = s -> rsum2 n m t2 = s -> rsum2 n m t3 = s ->
  exists d12 d21 d13 d23, euclidean n m t1 t2 = Some d12 /\ euclidean n m t2 t1 = Some d21 /\
    euclidean n m t1 t3 = Some d13 /\ euclidean n m t2 t3 = Some d23 /\
    0 <= d12 /\ d12 = d21 /\ (d12 = 0 <-> forall i j, (i < n)%nat -> (j < m)%nat -> t1 i j = t2 i j) /\ d13 <= d12 + d23.
Proof.
  intros n m s t1 t2 t3 Hs E1 E2 E3. unfold euclidean. rewrite E1, E2. destruct (Req_EM_T s 0) as [E|_]; [contradiction|].
  eexists _, _, _, _. split; [reflexivity|]. split; [reflexivity|]. split; [reflexivity|]. split; [reflexivity|].
  split; [apply sqrt_pos|]. split; [f_equal; apply rsum2_ext; intros; field; exact Hs|]. split; [split|].
  - intros H i j Hi Hj. apply sqrt_eq_0 in H; [|apply rsum2_nonneg; intros; apply pow2_ge_0].
    assert (Hz : ((t1 i j - t2 i j) / s) ^ 2 = 0).
    { apply (proj1 (rsum2_zero_iff n m (fun i j => ((t1 i j - t2 i j) / s) ^ 2) (fun i j _ _ => pow2_ge_0 _)) H i j Hi Hj). }
    assert (Hz' : (t1 i j - t2 i j) / s = 0) by (cbn in Hz; rewrite Rmult_1_r in Hz; destruct (Rmult_integral _ _ Hz); assumption).
    assert (Hd : t1 i j - t2 i j = 0).
    { apply Rmult_eq_reg_r with (/ s); [|apply Rinv_neq_0_compat; exact Hs]. rewrite Rmult_0_l. exact Hz'. }
    lra.
  - intros H. rewrite (rsum2_ext n m _ (fun _ _ => 0)); [|intros i j Hi Hj; rewrite (H i j Hi Hj); unfold Rdiv; ring].
    replace (rsum2 n m (fun _ _ => 0)) with 0; [apply sqrt_0|]. symmetry. unfold rsum2. apply rsum_0. intros. apply rsum_0. reflexivity.
  - rewrite (rsum2_ext n m (fun i j => ((t1 i j - t3 i j) / s) ^ 2) (fun i j => ((t1 i j - t2 i j) / s + (t2 i j - t3 i j) / s) ^ 2)) by (intros; field; exact Hs).
    exact (minkowski n m (fun i j => (t1 i j - t2 i j) / s) (fun i j => (t2 i j - t3 i j) / s)).
Qed.
Print Assumptions C120_euclidean_metric_partial.

Definition tab2 (a b c d : R) : rmat := fun i j => match i, j with O, O => a | O, _ => b | _, O => c | _, _ => d end.

Example C120_nonvacuous :
  (forall i j, (i < 2)%nat -> (j < 2)%nat -> 0 <= tab2 1 2 3 4 i j /\ 0 <= tab2 2 4 1 1 i j) /\
  rsum2 2 2 (tab2 1 2 3 4) = 10 /\ rsum2 2 2 (tab2 4 3 2 1) = 10 /\
  row_share 2 (tab2 1 2 3 4) 0 0 = 1 / 3 /\ row_share 2 (tab2 2 4 1 1) 0 0 = 1 / 3.
Proof.
  split.
  - intros i j Hi Hj. destruct i as [|[|i]]; destruct j as [|[|j]]; cbn; try lia; lra.
  - unfold rsum2, row_share, row_sum, rsum, tab2. cbn. split; [lra|]. split; [lra|].
    split; (destruct (Req_EM_T _ 0); lra).
Qed.

(** The distances are not symmetric, and the combined chi-squared distance, which
    is offered by name, always raises. *)
Theorem C120_symmetry_refuted :
  (exists t1 t2 d d', euclidean 1 2 t1 t2 = Some d /\ euclidean 1 2 t2 t1 = Some d' /\ d <> d') /\
  (exists t1 t2, chi_squared_row 2 2 t1 t2 <> chi_squared_row 2 2 t2 t1) /\
  (forall n m t1 t2, chi_squared_distance n m t1 t2 = Raise EType).
Proof.
  split; [|split; [|reflexivity]].
  - exists (tab2 1 0 0 0), (tab2 2 0 0 0), 1, (1 / 2). unfold euclidean, rsum2, rsum, tab2. cbn.
    destruct (Req_EM_T _ 0) as [E|_]; [lra|]. destruct (Req_EM_T _ 0) as [E|_]; [lra|]. split; [|split; [|lra]].
    + f_equal. match goal with |- sqrt ?x = _ => replace x with (1 ^ 2) by field end. apply sqrt_pow2; lra.
    + f_equal. match goal with |- sqrt ?x = _ => replace x with ((1/2) ^ 2) by field end. apply sqrt_pow2; lra.
  - exists (tab2 1 0 0 1), (tab2 1 1 0 1). intros H. unfold chi_squared_row, row_sum, col_sum, rsum2, rsum, tab2 in H. cbn in H.
    assert (O1 : or_one (0 + 1 + 0) = 1) by (unfold or_one; destruct (Rleb _ _) eqn:E; lra).
    assert (O1' : or_one (0 + 0 + 1) = 1) by (unfold or_one; destruct (Rleb _ _) eqn:E; lra).
    assert (O2 : or_one (0 + 1 + 1) = 2) by (unfold or_one; destruct (Rleb _ _) eqn:E; [apply Rleb_spec in E; lra|lra]).
    rewrite O1, O1', O2 in H. lra.
Qed.
Print Assumptions C120_symmetry_refuted.

(** * C121: errors cell by cell *)

Definition inside (mask : option (nat -> nat -> bool)) (i j : nat) : Prop := match mask with Some mk => mk i j = true | None => True end.

Lemma masked_in : forall mask x s i j, inside mask i j -> masked mask x s i j = x s i j.
Proof. intros [mk|] x s i j H; cbn in *; [rewrite H; reflexivity|reflexivity]. Qed.

(** C121: a present value outside the mask never contributes; inside it the errors
    are the difference, its size and its square, and the size vanishes exactly on
    agreement. *)
Theorem C121_errors : forall mask p g s i j,
  (~ inside mask i j -> subtract mask p g s i j = None /\ l_1 mask p g s i j = None /\ l2 mask p g s i j = None) /\
  (inside mask i j -> (p s i j = None \/ g i j = None) -> subtract mask p g s i j = None /\ l_1 mask p g s i j = None /\ l2 mask p g s i j = None) /\
  (inside mask i j -> forall a b, p s i j = Some a -> g i j = Some b ->
     subtract mask p g s i j = Some (a - b) /\
     (exists e, l_1 mask p g s i j = Some e /\ 0 <= e /\ e = Rmax (a - b) (b - a) /\ (e = 0 <-> a = b) /\ l2 mask p g s i j = Some (e * e))).
Proof.
  intros mask p g s i j. split; [|split].
  - intros H. destruct mask as [mk|]; [|exfalso; apply H; exact I]. cbn in H. unfold subtract, l_1, l2, masked. destruct (mk i j); [exfalso; apply H; reflexivity|]. auto.
  - intros H Hn. unfold subtract, l_1, l2. rewrite !masked_in by exact H. unfold broadcast. destruct Hn as [->| ->]; [auto|]. destruct (p s i j); auto.
  - intros H a b Ha Hb. unfold subtract, l_1, l2. rewrite !masked_in by exact H. unfold broadcast. rewrite Ha, Hb. cbn [lift2]. split; [reflexivity|].
    exists (Rabs (a - b)). split; [reflexivity|]. split; [apply Rabs_pos|]. split; [|split].
    + unfold Rabs, Rmax. destruct (Rcase_abs (a - b)); destruct (Rle_dec (a - b) (b - a)); lra.
    + split; [intros E|intros ->; rewrite Rminus_diag_eq by reflexivity; apply Rabs_R0]. destruct (Req_dec (a - b) 0) as [E'|E']; [lra|]. apply Rabs_no_R0 in E'. contradiction.
    + f_equal. unfold Rabs. destruct (Rcase_abs (a - b)); ring.
Qed.
Print Assumptions C121_errors.

(** The relative error agrees with its name when the truth does not vary over
    origins. *)
Lemma opt_min_const : forall l b, l <> [] -> (forall x, In x l -> x = Some b) -> opt_min l = Some b.
Proof.
  induction l as [|x l IH]; intros b Hne H; [congruence|]. cbn. rewrite (H x) by (left; reflexivity).
  destruct l as [|y l]; [reflexivity|]. rewrite (IH b) by (try discriminate; intros z Hz; apply H; right; exact Hz). f_equal. apply Rmin_left. lra.
Qed.

Theorem C121_relative_partial : forall n p g s i j a b, (i < n)%nat -> (forall k, (k < n)%nat -> g k j = Some b) -> b <> 0 ->
  p s i j = Some a -> relative_l_1 n None p g s i j = Some (Rabs (a - b) / b).
Proof.
  intros n p g s i j a b Hi Hg Hb Hp. unfold relative_l_1, l_1, masked, broadcast. rewrite Hp, (Hg i Hi). cbn [lift2].
  rewrite (opt_min_const _ b).
  - destruct (Req_EM_T b 0); [contradiction|reflexivity].
  - destruct n; [lia|]. discriminate.
  - intros x Hx. apply in_map_iff in Hx as [k [<- Hk]]. apply Hg. apply in_seq in Hk. lia.
Qed.
Print Assumptions C121_relative_partial.

(** In general it is relative to the smallest truth of the column: a cell of truth
    100 predicted as 101 has relative error 1 next to a cell of truth 1, and none at
    all next to an empty cell. *)
Theorem C121_relative_refuted :
  relative_l_1 2 None (fun _ i j => Some (match i with O => 101 | _ => 1 end)) (fun i j => Some (match i with O => 100 | _ => 1 end)) 0%nat 0%nat 0%nat = Some 1 /\
  relative_l_1 2 None (fun _ i j => Some (match i with O => 101 | _ => 0 end)) (fun i j => Some (match i with O => 100 | _ => 0 end)) 0%nat 0%nat 0%nat = None.
Proof.
  unfold relative_l_1, l_1, masked, broadcast. cbn [lift2 opt_min map seq]. split.
  - replace (Rmin 100 1) with 1 by (unfold Rmin; destruct (Rle_dec 100 1); lra). destruct (Req_EM_T 1 0); [lra|]. f_equal.
    rewrite Rabs_pos_eq by lra. lra.
  - replace (Rmin 100 0) with 0 by (unfold Rmin; destruct (Rle_dec 100 0); lra). destruct (Req_EM_T 0 0); [reflexivity|lra].
Qed.
Print Assumptions C121_relative_refuted.

(** The error of the column totals vanishes exactly when the totals agree. *)
Theorem C121_residuals : forall n p g j, 0 < col_sum n g j ->
  exists e, residual_error n p g j = Some e /\ 0 <= e /\ (e = 0 <-> col_sum n p j = col_sum n g j) /\
    (forall c, 0 < c -> residual_error n (fun i j => c * p i j) (fun i j => c * g i j) j = Some e).
Proof.
  intros n p g j Hs. unfold residual_error. destruct (Req_EM_T (col_sum n g j) 0); [lra|].
  exists (Rabs (col_sum n p j - col_sum n g j) / col_sum n g j). split; [reflexivity|]. split.
  - unfold Rdiv. apply Rmult_le_pos; [apply Rabs_pos|]. left. apply Rinv_0_lt_compat, Hs.
  - split.
    + split; [intros E|intros E; rewrite E, Rminus_diag_eq by reflexivity; rewrite Rabs_R0; unfold Rdiv; ring].
      assert (E' : Rabs (col_sum n p j - col_sum n g j) = 0).
      { apply Rmult_eq_reg_r with (/ col_sum n g j); [rewrite Rmult_0_l; exact E|]. apply Rinv_neq_0_compat; lra. }
      destruct (Req_dec (col_sum n p j - col_sum n g j) 0) as [H|H]; [lra|]. apply Rabs_no_R0 in H. contradiction.
    + intros c Hc. assert (EP : forall t, col_sum n (fun i j => c * t i j) j = c * col_sum n t j) by (intros t; unfold col_sum; apply rsum_scal).
      rewrite !EP. assert (0 < c * col_sum n g j) by (apply Rmult_lt_0_compat; assumption). destruct (Req_EM_T (c * col_sum n g j) 0); [lra|].
      f_equal. replace (c * col_sum n p j - c * col_sum n g j) with (c * (col_sum n p j - col_sum n g j)) by ring.
      rewrite Rabs_mult, (Rabs_pos_eq c) by lra. field. split; lra.
Qed.
Print Assumptions C121_residuals.

Example C121_nonvacuous :
  let mask := Some (fun i j => Nat.eqb i 0) in
  inside mask 0%nat 1%nat /\ ~ inside mask 1%nat 0%nat /\ 0 < col_sum 2 (tab2 1 2 3 4) 0 /\
  l_1 mask (fun s i j => Some (tab2 1 2 3 4 i j)) (fun i j => Some (tab2 1 5 3 4 i j)) 0%nat 0%nat 1%nat = Some 3.
Proof.
  cbn. split; [reflexivity|]. split; [discriminate|]. unfold col_sum, rsum, tab2. cbn. split; [lra|].
  unfold l_1, masked, broadcast. cbn. f_equal. rewrite Rabs_left by lra. lra.
Qed.

(** * C122: one-tailed tests *)

(** What is used of the distribution function of Student's t. *)
Record t_distribution (F : R -> R -> R) : Prop := {
  cdf_symmetric : forall t df, F (- t) df = 1 - F t df;
  cdf_increasing : forall t t' df, 0 < df -> t < t' -> F t df < F t' df;
  cdf_range : forall t df, 0 < F t df < 1
}.

Lemma lvar_nonneg : forall l, (2 <= List.length l)%nat -> 0 <= lvar l.
Proof.
  intros l H. unfold lvar. assert (Hs : forall k, 0 <= lsumR (map (fun x => (x - lmean l) ^ 2) k)).
  { induction k as [|x k IH]; cbn [map lsumR fold_right]; [lra|]. apply Rplus_le_le_0_compat; [apply pow2_ge_0|exact IH]. }
  assert (1 < INR (List.length l)) by (apply (lt_INR 1); lia). unfold Rdiv. apply Rmult_le_pos; [apply Hs|]. left. apply Rinv_0_lt_compat. lra.
Qed.

Lemma se_sq_nonneg : forall s n, (2 <= n)%nat -> 0 <= se_sq s n.
Proof.
  intros s n H. unfold se_sq. assert (0 < INR n) by (apply lt_0_INR; lia). unfold Rdiv. apply Rmult_le_pos; [apply pow2_ge_0|]. left. apply Rinv_0_lt_compat. assumption.
Qed.

(** Welch's degrees of freedom lie between the smaller and the joint ones. *)
Lemma welch_df_range : forall s1 n1 s2 n2, (2 <= n1)%nat -> (2 <= n2)%nat -> se_sq s1 n1 + se_sq s2 n2 <> 0 ->
  Rmin (INR n1 - 1) (INR n2 - 1) <= welch_df s1 n1 s2 n2 <= INR n1 + INR n2 - 2.
Proof.
  intros s1 n1 s2 n2 H1 H2 Hne. unfold welch_df. pose proof (se_sq_nonneg s1 n1 H1) as Hx. pose proof (se_sq_nonneg s2 n2 H2) as Hy.
  set (x := se_sq s1 n1) in *. set (y := se_sq s2 n2) in *. clearbody x y.
  assert (Ha : 1 <= INR n1 - 1) by (apply le_INR in H1; cbn in H1; lra). assert (Hb : 1 <= INR n2 - 1) by (apply le_INR in H2; cbn in H2; lra).
  replace (INR n1 + INR n2 - 2) with ((INR n1 - 1) + (INR n2 - 1)) by ring.
  set (a := INR n1 - 1) in *. set (b := INR n2 - 1) in *. clearbody a b.
  assert (Hxx : 0 <= x ^ 2) by apply pow2_ge_0. assert (Hyy : 0 <= y ^ 2) by apply pow2_ge_0.
  assert (Hd : 0 < x ^ 2 / a + y ^ 2 / b).
  { assert (P1 : forall z c, 1 <= c -> 0 <= z ^ 2 -> 0 <= z ^ 2 / c) by (intros z c Hc Hz; unfold Rdiv; apply Rmult_le_pos; [exact Hz|left; apply Rinv_0_lt_compat; lra]).
    assert (P2 : forall z c, 1 <= c -> 0 < z -> 0 < z ^ 2 / c) by (intros z c Hc Hz; unfold Rdiv; apply Rmult_lt_0_compat; [apply pow_lt; exact Hz|apply Rinv_0_lt_compat; lra]).
    destruct (Rlt_dec 0 x) as [Hx'|Hx'].
    - pose proof (P2 x a Ha Hx'). pose proof (P1 y b Hb Hyy). lra.
    - assert (0 < y) by lra. pose proof (P2 y b Hb H). pose proof (P1 x a Ha Hxx). lra. }
  split.
  - apply Rmult_le_reg_r with (x ^ 2 / a + y ^ 2 / b); [exact Hd|]. unfold Rdiv at 3. rewrite Rmult_assoc, Rinv_l, Rmult_1_r by lra.
    set (c := Rmin a b). assert (Hca : c <= a) by apply Rmin_l. assert (Hcb : c <= b) by apply Rmin_r.
    apply Rle_trans with (x ^ 2 + y ^ 2).
    + rewrite Rmult_plus_distr_l. apply Rplus_le_compat.
      * replace (x ^ 2) with (a * (x ^ 2 / a)) at 2 by (field; lra). apply Rmult_le_compat_r; [|exact Hca]. unfold Rdiv. apply Rmult_le_pos; [exact Hxx|left; apply Rinv_0_lt_compat; lra].
      * replace (y ^ 2) with (b * (y ^ 2 / b)) at 2 by (field; lra). apply Rmult_le_compat_r; [|exact Hcb]. unfold Rdiv. apply Rmult_le_pos; [exact Hyy|left; apply Rinv_0_lt_compat; lra].
    + assert (0 <= x * y) by (apply Rmult_le_pos; assumption). replace ((x + y) ^ 2) with (x ^ 2 + y ^ 2 + 2 * (x * y)) by ring. lra.
  - apply Rmult_le_reg_r with (x ^ 2 / a + y ^ 2 / b); [exact Hd|]. unfold Rdiv at 1. rewrite Rmult_assoc, Rinv_l, Rmult_1_r by lra.
    apply Rmult_le_reg_r with (a * b); [apply Rmult_lt_0_compat; lra|].
    replace ((a + b) * (x ^ 2 / a + y ^ 2 / b) * (a * b)) with ((x + y) ^ 2 * (a * b) + (a * y - b * x) ^ 2) by (field; split; lra).
    pose proof (pow2_ge_0 (a * y - b * x)). lra.
Qed.

Lemma ttest_p : forall F t df, t_distribution F -> (if Rltb t 0 then 2 * F (- Rabs t) df / 2 else 1 - 2 * F (- Rabs t) df / 2) = F t df.
Proof.
  intros F t df HF. destruct (Rltb t 0) eqn:E.
  - apply Rltb_spec in E. rewrite Rabs_left by exact E. rewrite Ropp_involutive. field.
  - apply Rltb_false in E. rewrite Rabs_pos_eq by exact E. rewrite (cdf_symmetric F HF). field.
Qed.

(** C122: the test on two samples is the test on their means, deviations and sizes;
    its p-value is below one half exactly when the first mean is smaller, and the
    p-values of the two directions add up to one. *)
Theorem C122_one_tailed : forall F a b alpha, t_distribution F ->
  (ttest F a b alpha = Raise EValue <-> (List.length a < 2)%nat \/ (List.length b < 2)%nat \/ ~ (0 < alpha < 1)) /\
  ((2 <= List.length a)%nat -> (2 <= List.length b)%nat -> 0 < alpha < 1 -> 0 < lvar a + lvar b ->
   exists p, ttest F a b alpha = Ok (Some p, Rltb p alpha) /\
     ttest_summaries F (lmean a) (sqrt (lvar a)) (List.length a) (lmean b) (sqrt (lvar b)) (List.length b) alpha = Ok (p, Rltb p alpha) /\
     0 < p < 1 /\ (p < 1 / 2 <-> lmean a < lmean b) /\
     ttest F b a alpha = Ok (Some (1 - p), Rltb (1 - p) alpha)).
Proof.
  intros F a b alpha HF.
  assert (Hal : negb (Rltb 0 alpha && Rltb alpha 1) = true <-> ~ (0 < alpha < 1)).
  { rewrite negb_true_iff, andb_false_iff, !Rltb_false. lra. }
  split.
  - unfold ttest. destruct (Nat.ltb_spec (List.length a) 2) as [Ha|Ha]; [cbn; intuition|]. destruct (Nat.ltb_spec (List.length b) 2) as [Hb|Hb]; [cbn; intuition|]. cbn [orb].
    destruct (negb (Rltb 0 alpha && Rltb alpha 1)) eqn:E; [split; [intros _; right; right; apply Hal; reflexivity|reflexivity]|].
    split; [destruct (Req_EM_T _ 0); discriminate|]. intros [H|[H|H]]; [lia|lia|]. apply Hal in H. discriminate.
  - intros Ha Hb Hap Hv.
    assert (Hlt : forall l : list R, (2 <= List.length l)%nat -> (List.length l <? 2)%nat = false) by (intros l H; apply Nat.ltb_ge; exact H).
    assert (Ena : negb (Rltb 0 alpha && Rltb alpha 1) = false).
    { destruct (negb (Rltb 0 alpha && Rltb alpha 1)); [exfalso; apply (proj1 Hal eq_refl); exact Hap|reflexivity]. }
    assert (Hse : forall l, (2 <= List.length l)%nat -> se_sq (sqrt (lvar l)) (List.length l) = lvar l / INR (List.length l)).
    { intros l H. unfold se_sq. rewrite pow2_sqrt by (apply lvar_nonneg; exact H). reflexivity. }
    assert (Hpos : forall x y, (2 <= List.length x)%nat -> (2 <= List.length y)%nat -> 0 < lvar x + lvar y -> 0 < se_sq (sqrt (lvar x)) (List.length x) + se_sq (sqrt (lvar y)) (List.length y)).
    { intros x y Hx Hy H. rewrite !Hse by assumption. pose proof (lvar_nonneg x Hx). pose proof (lvar_nonneg y Hy).
      assert (Ix : 0 < / INR (List.length x)) by (apply Rinv_0_lt_compat, lt_0_INR; lia). assert (Iy : 0 < / INR (List.length y)) by (apply Rinv_0_lt_compat, lt_0_INR; lia).
      unfold Rdiv. destruct (Rlt_dec 0 (lvar x)) as [Hlx|Hlx].
      - pose proof (Rmult_lt_0_compat _ _ Hlx Ix). assert (0 <= lvar y * / INR (List.length y)) by (apply Rmult_le_pos; lra). lra.
      - assert (0 < lvar y) by lra. pose proof (Rmult_lt_0_compat _ _ H2 Iy). assert (0 <= lvar x * / INR (List.length x)) by (apply Rmult_le_pos; lra). lra. }
    assert (Hrun : forall x y, (2 <= List.length x)%nat -> (2 <= List.length y)%nat -> 0 < lvar x + lvar y ->
      ttest F x y alpha = Ok (Some (F (welch_t (lmean x) (sqrt (lvar x)) (List.length x) (lmean y) (sqrt (lvar y)) (List.length y)) (welch_df (sqrt (lvar x)) (List.length x) (sqrt (lvar y)) (List.length y))),
        Rltb (F (welch_t (lmean x) (sqrt (lvar x)) (List.length x) (lmean y) (sqrt (lvar y)) (List.length y)) (welch_df (sqrt (lvar x)) (List.length x) (sqrt (lvar y)) (List.length y))) alpha)).
    { intros x y Hx Hy H. unfold ttest. rewrite (Hlt x Hx), (Hlt y Hy), Ena. cbn [orb]. pose proof (Hpos x y Hx Hy H).
      destruct (Req_EM_T _ 0) as [E|_]; [lra|]. rewrite ttest_p by exact HF. reflexivity. }
    pose proof (Hpos a b Ha Hb Hv) as Hp.
    set (sa := sqrt (lvar a)) in *. set (sb := sqrt (lvar b)) in *. set (na := List.length a) in *. set (nb := List.length b) in *.
    set (t := welch_t (lmean a) sa na (lmean b) sb nb). set (df := welch_df sa na sb nb).
    assert (Hdf : 0 < df).
    { destruct (welch_df_range sa na sb nb Ha Hb) as [H _]; [lra|]. fold df in H.
      assert (1 <= INR na - 1) by (apply le_INR in Ha; cbn in Ha; lra). assert (1 <= INR nb - 1) by (apply le_INR in Hb; cbn in Hb; lra).
      unfold Rmin in H. destruct (Rle_dec (INR na - 1) (INR nb - 1)); lra. }
    exists (F t df). split; [rewrite (Hrun a b Ha Hb Hv); reflexivity|]. split.
    { unfold ttest_summaries. assert ((na <? 2)%nat = false) as -> by (apply Nat.ltb_ge; exact Ha). assert ((nb <? 2)%nat = false) as -> by (apply Nat.ltb_ge; exact Hb). rewrite Ena. cbn [orb].
      assert (Rltb sa 0 = false) as -> by (apply Rltb_false, sqrt_pos). assert (Rltb sb 0 = false) as -> by (apply Rltb_false, sqrt_pos). cbn [orb].
      destruct (Req_EM_T (se_sq sa na + se_sq sb nb) 0); [lra|]. reflexivity. }
    split; [apply (cdf_range F HF)|]. split.
    + assert (H0 : F 0 df = 1 / 2) by (pose proof (cdf_symmetric F HF 0 df) as H; rewrite Ropp_0 in H; lra).
      assert (Ht : t < 0 <-> lmean a < lmean b).
      { unfold t, welch_t. assert (Hq : 0 < sqrt (se_sq sa na + se_sq sb nb)) by (apply sqrt_lt_R0; exact Hp). split; intros H.
        - apply Rmult_lt_compat_r with (r := sqrt (se_sq sa na + se_sq sb nb)) in H; [|exact Hq]. unfold Rdiv in H. rewrite Rmult_assoc, Rinv_l in H by lra. lra.
        - unfold Rdiv. pose proof (Rinv_0_lt_compat _ Hq) as Hi. pose proof (Rmult_lt_0_compat (lmean b - lmean a) _ ltac:(lra) Hi).
          replace ((lmean a - lmean b) * / sqrt (se_sq sa na + se_sq sb nb)) with (- ((lmean b - lmean a) * / sqrt (se_sq sa na + se_sq sb nb))) by ring. lra. }
      rewrite <- Ht, <- H0. split; intros H.
      * destruct (Rlt_dec t 0) as [|Hn]; [assumption|]. exfalso. destruct (Req_dec t 0) as [E|E]; [rewrite E in H; lra|].
        pose proof (cdf_increasing F HF 0 t df Hdf ltac:(lra)). lra.
      * apply (cdf_increasing F HF); assumption.
    + rewrite (Hrun b a Hb Ha ltac:(lra)). fold sa sb na nb.
      assert (Et : welch_t (lmean b) sb nb (lmean a) sa na = - t).
      { unfold t, welch_t. rewrite (Rplus_comm (se_sq sb nb)). unfold Rdiv. ring. }
      assert (Edf : welch_df sb nb sa na = df).
      { unfold df, welch_df. rewrite (Rplus_comm (se_sq sb nb)). rewrite (Rplus_comm (se_sq sb nb ^ 2 / _)). reflexivity. }
      rewrite Et, Edf, (cdf_symmetric F HF). reflexivity.
Qed.
Print Assumptions C122_one_tailed.

(** The degrees of freedom that the summary test uses are between those of the
    smaller sample and those of both. *)
Theorem C122_degrees_of_freedom : forall s1 n1 s2 n2, (2 <= n1)%nat -> (2 <= n2)%nat -> 0 < s1 \/ 0 < s2 ->
  Rmin (INR n1 - 1) (INR n2 - 1) <= welch_df s1 n1 s2 n2 <= INR n1 + INR n2 - 2.
Proof.
  intros s1 n1 s2 n2 H1 H2 Hs. apply welch_df_range; [exact H1|exact H2|].
  pose proof (se_sq_nonneg s1 n1 H1). pose proof (se_sq_nonneg s2 n2 H2).
  assert (G : forall s n, (2 <= n)%nat -> 0 < s -> 0 < se_sq s n).
  { intros s n Hn H3. unfold se_sq, Rdiv. apply Rmult_lt_0_compat; [apply pow_lt; exact H3|]. apply Rinv_0_lt_compat, lt_0_INR. lia. }
  destruct Hs as [Hs|Hs]; [pose proof (G s1 n1 H1 Hs)|pose proof (G s2 n2 H2 Hs)]; lra.
Qed.
Print Assumptions C122_degrees_of_freedom.

Lemma logistic_t : t_distribution (fun t _ => / (1 + exp (- t))).
Proof.
  assert (Hp : forall t, 0 < 1 + exp (- t)) by (intros t; pose proof (exp_pos (- t)); lra).
  split.
  - intros t _. rewrite Ropp_involutive. assert (E : exp (- t) = / exp t) by apply exp_Ropp. rewrite E. pose proof (exp_pos t). field. lra.
  - intros t t' df _ H. apply Rinv_lt_contravar; [apply Rmult_lt_0_compat; apply Hp|]. apply Rplus_lt_compat_l. apply exp_increasing. lra.
  - intros t _. split; [apply Rinv_0_lt_compat, Hp|]. apply Rlt_le_trans with (/ 1); [|rewrite Rinv_1; lra]. apply Rinv_lt_contravar; [rewrite Rmult_1_l; apply Hp|]. pose proof (exp_pos (- t)). lra.
Qed.

(** Two samples and a distribution function that meet the hypotheses; two constant
    samples do not: the test on samples then never rejects, the test on summaries
    raises. *)
Example C122_nonvacuous : t_distribution (fun t _ => / (1 + exp (- t))) /\ 0 < lvar [1; 2] + lvar [3; 5] /\ lmean [1; 2] < lmean [3; 5].
Proof.
  split; [apply logistic_t|]. unfold lvar, lmean, lsumR. cbn. split; lra.
Qed.

Theorem C122_constant_samples_refuted : forall F, t_distribution F ->
  lmean [1; 1] < lmean [2; 2] /\ ttest F [1; 1] [2; 2] (1 / 20) = Ok (None, false) /\
  ttest_summaries F 1 0 2 2 0 2 (1 / 20) = Raise EZeroDiv.
Proof.
  intros F HF.
  assert (Hal : negb (Rltb 0 (1 / 20) && Rltb (1 / 20) 1) = false).
  { apply negb_false_iff. apply andb_true_iff. split; apply Rltb_spec; lra. }
  assert (Hse : se_sq 0 2 + se_sq 0 2 = 0) by (unfold se_sq; cbn; lra).
  split; [unfold lmean, lsumR; cbn; lra|]. split.
  - unfold ttest. cbn [List.length Nat.ltb Nat.leb orb]. rewrite Hal.
    assert (E1 : lvar [1; 1] = 0) by (unfold lvar, lmean, lsumR; cbn; field). assert (E2 : lvar [2; 2] = 0) by (unfold lvar, lmean, lsumR; cbn; field).
    rewrite E1, E2, sqrt_0. destruct (Req_EM_T (se_sq 0 2 + se_sq 0 2) 0); [reflexivity|contradiction].
  - unfold ttest_summaries. cbn [Nat.ltb Nat.leb orb]. rewrite Hal.
    assert (Rltb 0 0 = false) as -> by (apply Rltb_false; lra). cbn [orb]. destruct (Req_EM_T (se_sq 0 2 + se_sq 0 2) 0); [reflexivity|contradiction].
Qed.
Print Assumptions C122_constant_samples_refuted.

(** * C123: sigmoids *)

Lemma inv_one_plus_exp : forall y, 0 < / (1 + exp y) < 1.
Proof.
  intros y. pose proof (exp_pos y). split; [apply Rinv_0_lt_compat; lra|]. apply Rlt_le_trans with (/ 1); [|rewrite Rinv_1; lra].
  apply Rinv_lt_contravar; lra.
Qed.
Lemma inv_one_plus_exp_decreasing : forall y z, y < z -> / (1 + exp z) < / (1 + exp y).
Proof.
  intros y z H. pose proof (exp_pos y). pose proof (exp_pos z). apply Rinv_lt_contravar; [apply Rmult_lt_0_compat; lra|]. apply Rplus_lt_compat_l, exp_increasing, H.
Qed.
Lemma inv_one_plus_exp_opp : forall y, / (1 + exp (- y)) = 1 - / (1 + exp y).
Proof. intros y. rewrite exp_Ropp. pose proof (exp_pos y). field. lra. Qed.

Theorem C123_sigmoids : forall s x y, 0 < s ->
  (-1 < positive_sigmoid x s < 1 /\ positive_sigmoid (- x) s = - positive_sigmoid x s /\
   positive_sigmoid 0 s = 0 /\ (x < y -> positive_sigmoid x s < positive_sigmoid y s)) /\
  (0 < skew_sigmoid x < 1 /\ skew_sigmoid (- x) = 1 - skew_sigmoid x /\
   skew_sigmoid 0 = 1 / 2 /\ (x < y -> skew_sigmoid x < skew_sigmoid y)).
Proof.
  intros s x y Hs. unfold positive_sigmoid, skew_sigmoid, Rdiv.
  assert (E : forall z, / (1 + exp (- - z * / s)) = 1 - / (1 + exp (- z * / s))).
  { intros z. rewrite <- inv_one_plus_exp_opp. do 3 f_equal. ring. }
  assert (E5 : forall z, / (1 + exp (- 50 * - z)) = 1 - / (1 + exp (- 50 * z))).
  { intros z. rewrite <- inv_one_plus_exp_opp. do 3 f_equal. ring. }
  pose proof (Rinv_0_lt_compat s Hs) as Hi. split; split.
  - pose proof (inv_one_plus_exp (- x * / s)). lra.
  - split; [rewrite E; ring|]. split; [rewrite Ropp_0, Rmult_0_l, exp_0; lra|].
    intros H. assert (Hl : - y * / s < - x * / s) by (apply Rmult_lt_compat_r; lra). apply inv_one_plus_exp_decreasing in Hl. lra.
  - pose proof (inv_one_plus_exp (- 50 * x)). lra.
  - split; [rewrite E5; ring|]. split; [rewrite Rmult_0_r, exp_0; lra|].
    intros H. assert (Hl : - 50 * y < - 50 * x) by lra. apply inv_one_plus_exp_decreasing in Hl. lra.
Qed.
Print Assumptions C123_sigmoids.

Example C123_nonvacuous : 0 < 1 /\ 0 < positive_sigmoid 2 1.
Proof.
  split; [lra|]. destruct (C123_sigmoids 1 0 2 ltac:(lra)) as [[_ [_ [H0 H]]] _]. specialize (H ltac:(lra)). lra.
Qed.

(** * C124: sparsity, missing rows and columns, symmetry *)

Theorem C124_sparsity : forall N n m p, (0 < N * n * m)%nat ->
  exists v, sparsity N n m p = Some v /\ 0 <= v <= 1 /\
    (v = 0 <-> forall s i j, (s < N)%nat -> (i < n)%nat -> (j < m)%nat -> p s i j <> 0) /\
    (v = 1 <-> forall s i j, (s < N)%nat -> (i < n)%nat -> (j < m)%nat -> p s i j = 0).
Proof.
  intros N n m p Hpos. unfold sparsity. destruct (Nat.eqb_spec (N * n * m) 0); [lia|].
  set (z := fun s i j => if Req_EM_T (p s i j) 0 then 1 else 0).
  assert (Hz : forall s i j, 0 <= z s i j <= 1) by (intros s i j; unfold z; destruct (Req_EM_T (p s i j) 0); lra).
  assert (HT : 0 < INR (N * n * m)) by (apply lt_0_INR; exact Hpos).
  assert (Htot : INR (N * n * m) = rsum N (fun _ => rsum2 n m (fun _ _ => 1))).
  { unfold rsum2. rewrite !rsum_const. rewrite !mult_INR. ring. }
  assert (Hc0 : 0 <= zero_cells N n m p) by (apply rsum_nonneg; intros; apply rsum2_nonneg; intros; apply Hz).
  assert (Hc : INR (N * n * m) - zero_cells N n m p = rsum N (fun s => rsum2 n m (fun i j => 1 - z s i j))).
  { rewrite Htot. unfold zero_cells. rewrite <- rsum_sub. apply rsum_ext. intros s Hs. rewrite <- rsum2_sub. reflexivity. }
  assert (Hc1 : 0 <= INR (N * n * m) - zero_cells N n m p).
  { rewrite Hc. apply rsum_nonneg. intros. apply rsum2_nonneg. intros. pose proof (Hz k i j). lra. }
  assert (Hz0 : zero_cells N n m p = 0 <-> forall s i j, (s < N)%nat -> (i < n)%nat -> (j < m)%nat -> p s i j <> 0).
  { unfold zero_cells. rewrite rsum_zero_iff by (intros; apply rsum2_nonneg; intros; apply Hz). split.
    - intros H s i j Hs Hi Hj E. specialize (H s Hs). rewrite rsum2_zero_iff in H by (intros; apply Hz). specialize (H i j Hi Hj). cbv beta in H.
      destruct (Req_EM_T (p s i j) 0); [lra|contradiction].
    - intros H s Hs. rewrite rsum2_zero_iff by (intros; apply Hz). intros i j Hi Hj. specialize (H s i j Hs Hi Hj). destruct (Req_EM_T (p s i j) 0); [contradiction|reflexivity]. }
  assert (Hz1 : INR (N * n * m) - zero_cells N n m p = 0 <-> forall s i j, (s < N)%nat -> (i < n)%nat -> (j < m)%nat -> p s i j = 0).
  { assert (Hnn : forall s i j, 0 <= 1 - z s i j) by (intros s i j; pose proof (Hz s i j); lra).
    rewrite Hc, rsum_zero_iff by (intros; apply rsum2_nonneg; intros; apply Hnn). split.
    - intros H s i j Hs Hi Hj. specialize (H s Hs). rewrite rsum2_zero_iff in H by (intros; apply Hnn). specialize (H i j Hi Hj). unfold z in H.
      destruct (Req_EM_T (p s i j) 0); [assumption|lra].
    - intros H s Hs. rewrite rsum2_zero_iff by (intros; apply Hnn). intros i j Hi Hj. specialize (H s i j Hs Hi Hj). unfold z. destruct (Req_EM_T (p s i j) 0); [lra|contradiction]. }
  exists (zero_cells N n m p / INR (N * n * m)). split; [reflexivity|].
  pose proof (Rinv_0_lt_compat _ HT) as Hi. unfold Rdiv.
  assert (E1 : INR (N * n * m) * / INR (N * n * m) = 1) by (apply Rinv_r; lra). split; [split|split].
  - apply Rmult_le_pos; lra.
  - rewrite <- E1. apply Rmult_le_compat_r; lra.
  - rewrite <- Hz0. split; intros H; [|rewrite H; ring]. apply Rmult_eq_reg_r with (/ INR (N * n * m)); [|lra]. rewrite H. ring.
  - rewrite <- Hz1. split; intros H.
    + assert (zero_cells N n m p = INR (N * n * m)); [|lra]. apply Rmult_eq_reg_r with (/ INR (N * n * m)); [|lra]. rewrite H, E1. reflexivity.
    + replace (zero_cells N n m p) with (INR (N * n * m)) by lra. exact E1.
Qed.
Print Assumptions C124_sparsity.

Lemma keep_by_map : forall A B (f : A -> B) mask l, keep_by mask (map f l) = map f (keep_by mask l).
Proof.
  intros A B f mask. unfold keep_by. induction mask as [|b mask IH]; intros l; [reflexivity|]. destruct l as [|x l]; [reflexivity|]. cbn.
  destruct b; cbn; rewrite IH; reflexivity.
Qed.
Lemma keep_by_In : forall A mask (l : list A) x, In x (keep_by mask l) -> In x l.
Proof.
  intros A mask l x H. unfold keep_by in H. apply in_map_iff in H as [[b y] [<- H]]. apply filter_In in H as [H _]. cbn. apply in_combine_r in H. exact H.
Qed.
Lemma keep_by_filter : forall A (p : A -> bool) l, keep_by (map p l) l = filter p l.
Proof.
  intros A p l. unfold keep_by. induction l as [|x l IH]; [reflexivity|]. cbn. destruct (p x); cbn; rewrite IH; reflexivity.
Qed.
Lemma as_indexed : forall A (l : list (option A)) m, List.length l = m -> l = map (fun k => nth k l None) (seq 0 m).
Proof.
  intros A l m <-. induction l as [|x l IH]; [reflexivity|]. cbn [List.length seq map]. f_equal. rewrite <- seq_shift, map_map. cbn. exact IH.
Qed.

(** The present values of an array, row by row. *)
Definition values {A} (x : list (list (option A))) : list A := flat_map (fun r => flat_map (fun o => match o with Some a => [a] | None => [] end) r) x.

(** C124: dropping missing rows and columns loses no present value and leaves no
    row or column without one. *)
Theorem C124_null_rows_and_columns : forall A m (x : list (list (option A))), (forall r, In r x -> List.length r = m) ->
  let y := reshape_null m x in
  values y = values x /\
  (forall r, In r y -> exists a, In (Some a) r) /\
  (exists w, (forall r, In r y -> List.length r = w) /\ (w <= m)%nat /\
     forall j, (j < w)%nat -> exists r a, In r y /\ nth j r None = Some a).
Proof.
  intros A m x Hm y.
  set (cols := map (fun j => existsb (fun r => present (nth j r None)) x) (seq 0 m)).
  set (C := filter (fun j => existsb (fun r => present (nth j r None)) x) (seq 0 m)).
  assert (Hrow : forall r, In r x -> keep_by cols r = map (fun k => nth k r None) C).
  { intros r Hr. rewrite (as_indexed A r m (Hm r Hr)) at 1. rewrite keep_by_map. unfold cols. rewrite keep_by_filter. reflexivity. }
  assert (Hy : y = map (keep_by cols) (filter (fun r => existsb present r) x)).
  { unfold y, reshape_null. fold cols. f_equal. apply keep_by_filter. }
  assert (HC : forall j, In j C <-> (j < m)%nat /\ exists r a, In r x /\ nth j r None = Some a).
  { intros j. unfold C. rewrite filter_In, in_seq, existsb_exists. split.
    - intros [Hj [r [Hr Hp]]]. split; [lia|]. destruct (nth j r None) as [a|] eqn:E; [|discriminate]. exists r, a. auto.
    - intros [Hj [r [a [Hr E]]]]. split; [lia|]. exists r. rewrite E. auto. }
  assert (Hval : forall r, In r x -> flat_map (fun o => match o with Some a => [a] | None => [] end) (keep_by cols r) = flat_map (fun o => match o with Some a => [a] | None => [] end) r).
  { intros r Hr. rewrite (Hrow r Hr). transitivity (flat_map (fun o : option A => match o with Some a => [a] | None => [] end) (map (fun k => nth k r None) (seq 0 m))); [|rewrite <- (as_indexed A r m (Hm r Hr)); reflexivity]. unfold C.
    assert (G : forall js, (forall j, In j js -> (j < m)%nat) ->
      flat_map (fun o : option A => match o with Some a => [a] | None => [] end) (map (fun k => nth k r None) (filter (fun j => existsb (fun r0 => present (nth j r0 None)) x) js)) =
      flat_map (fun o : option A => match o with Some a => [a] | None => [] end) (map (fun k => nth k r None) js)).
    { induction js as [|j js IH]; intros Hjs; [reflexivity|]. cbn [filter]. destruct (existsb (fun r0 => present (nth j r0 None)) x) eqn:E.
      - cbn [map flat_map]. rewrite IH by (intros; apply Hjs; right; assumption). reflexivity.
      - cbn [map flat_map]. rewrite IH by (intros; apply Hjs; right; assumption). destruct (nth j r None) as [a|] eqn:En; [|reflexivity].
        exfalso. apply not_true_iff_false in E. apply E. apply existsb_exists. exists r. rewrite En. auto. }
    apply G. intros j Hj. apply in_seq in Hj. lia. }
  split; [|split].
  - rewrite Hy. unfold values. clear Hy. assert (G : forall l, (forall r, In r l -> In r x) ->
      flat_map (fun r => flat_map (fun o : option A => match o with Some a => [a] | None => [] end) r) (map (keep_by cols) (filter (fun r => existsb present r) l)) =
      flat_map (fun r => flat_map (fun o : option A => match o with Some a => [a] | None => [] end) r) l); [|apply G; auto].
    induction l as [|r l IH]; intros Hl; [reflexivity|]. cbn [filter flat_map]. destruct (existsb present r) eqn:E.
    + cbn [map flat_map]. rewrite IH by (intros; apply Hl; right; assumption). rewrite Hval by (apply Hl; left; reflexivity). reflexivity.
    + rewrite IH by (intros; apply Hl; right; assumption). assert (H0 : flat_map (fun o : option A => match o with Some a => [a] | None => [] end) r = []); [|rewrite H0; reflexivity].
      clear -E. induction r as [|[a|] r IH]; [reflexivity|discriminate|]. cbn in *. apply IH. exact E.
  - intros r Hr. rewrite Hy in Hr. apply in_map_iff in Hr as [r0 [<- Hr0]]. apply filter_In in Hr0 as [Hr0 Hp]. rewrite (Hrow r0 Hr0).
    apply existsb_exists in Hp as [[a|] [Ha Hp]]; [|discriminate]. exists a. apply In_nth with (d := None) in Ha as [j [Hj Ha]].
    apply in_map_iff. exists j. split; [exact Ha|]. apply HC. split; [rewrite <- (Hm r0 Hr0); exact Hj|]. exists r0, a. auto.
  - exists (List.length C). split; [|split].
    + intros r Hr. rewrite Hy in Hr. apply in_map_iff in Hr as [r0 [<- Hr0]]. apply filter_In in Hr0 as [Hr0 _]. rewrite (Hrow r0 Hr0), map_length. reflexivity.
    + unfold C. clear. assert (G : forall js : list nat, (List.length (filter (fun j => existsb (fun r => present (nth j r None)) x) js) <= List.length js)%nat).
      { induction js as [|j js IH]; [cbn; lia|]. cbn. destruct (existsb _ x); cbn; lia. }
      eapply Nat.le_trans; [apply G|]. rewrite seq_length. lia.
    + intros j Hj. destruct (proj1 (HC (nth j C 0%nat)) (nth_In C 0%nat Hj)) as [_ [r0 [a [Hr0 E]]]].
      exists (keep_by cols r0), a. split.
      * rewrite Hy. apply in_map. apply filter_In. split; [exact Hr0|]. apply existsb_exists. exists (Some a). split; [|reflexivity].
        destruct (Nat.lt_ge_cases (nth j C 0%nat) (List.length r0)) as [Hlt|Hge]; [rewrite <- E; apply nth_In; exact Hlt|]. rewrite nth_overflow in E by exact Hge. discriminate.
      * rewrite (Hrow r0 Hr0). rewrite (nth_indep _ None (nth 0%nat r0 None)) by (rewrite map_length; exact Hj). rewrite (map_nth (fun k => nth k r0 None)). exact E.
Qed.
Print Assumptions C124_null_rows_and_columns.

(** C124: the symmetry test compares both orders, so it tolerates a difference only
    up to the smaller entry. *)
Theorem C124_symmetric : forall n rtol atol a, 0 <= rtol ->
  check_symmetric n rtol atol a = true <->
  forall i j, (i < n)%nat -> (j < n)%nat -> Rabs (a i j - a j i) <= atol + rtol * Rmin (Rabs (a i j)) (Rabs (a j i)).
Proof.
  intros n rtol atol a Hr. unfold check_symmetric, forall_below. rewrite forallb_forall. split.
  - intros H i j Hi Hj. assert (G : forall i j, (i < n)%nat -> (j < n)%nat -> Rabs (a i j - a j i) <= atol + rtol * Rabs (a j i)).
    { clear i j Hi Hj. intros i j Hi Hj. assert (Hi' : In i (seq 0 n)) by (apply in_seq; lia). specialize (H i Hi'). rewrite forallb_forall in H.
      assert (Hj' : In j (seq 0 n)) by (apply in_seq; lia). apply Rleb_spec. apply H. exact Hj'. }
    pose proof (G i j Hi Hj) as G1. pose proof (G j i Hj Hi) as G2. rewrite (Rabs_minus_sym (a j i)) in G2. unfold Rmin. destruct (Rle_dec _ _); lra.
  - intros H i Hi. apply forallb_forall. intros j Hj. apply in_seq in Hi, Hj. apply Rleb_spec. eapply Rle_trans; [apply H; lia|].
    apply Rplus_le_compat_l. apply Rmult_le_compat_l; [exact Hr|]. apply Rmin_r.
Qed.
Print Assumptions C124_symmetric.

Example C124_nonvacuous :
  (0 < 1 * 2 * 2)%nat /\
  reshape_null 3 [[Some 1%nat; None; Some 2%nat]; [None; None; None]; [None; None; Some 3%nat]] = [[Some 1%nat; Some 2%nat]; [None; Some 3%nat]] /\
  check_symmetric 2 0 0 (tab2 1 2 2 4) = true /\ check_symmetric 2 0 0 (tab2 1 2 3 4) = false.
Proof.
  split; [lia|]. split; [reflexivity|]. split.
  - apply C124_symmetric; [lra|]. intros i j Hi Hj. destruct i as [|[|i]]; destruct j as [|[|j]]; try lia; cbn; rewrite Rminus_diag_eq by reflexivity; rewrite Rabs_R0; lra.
  - apply not_true_iff_false. intros H. pose proof (proj1 (C124_symmetric 2%nat 0 0 (tab2 1 2 3 4) ltac:(lra)) H) as H'. clear H. rename H' into H. specialize (H 0%nat 1%nat ltac:(lia) ltac:(lia)). cbn in H. rewrite Rabs_left in H by lra. lra.
Qed.
