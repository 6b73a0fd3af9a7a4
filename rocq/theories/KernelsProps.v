(** Stationary distributions of the table samplers. *)
From Coq Require Import List ZArith Lia Bool Arith Reals Lra Permutation.
From Verif Require Import Base RealBase Axes Tables TablesProps InitTables MarkovBasis MarkovBasisProps TableMCMC ProbUtils TableMCMCProps Kernels.
Import ListNotations.
Local Open Scope R_scope.

(** * Sums over lists *)

Lemma lsumf_app : forall A (f : A -> R) a b, lsumf f (a ++ b) = lsumf f a + lsumf f b.
Proof. intros A f a b. induction a as [|x a IH]; cbn; [ring|]. rewrite IH. ring. Qed.
Lemma lsumf_ext : forall A (f g : A -> R) l, (forall x, In x l -> f x = g x) -> lsumf f l = lsumf g l.
Proof. intros A f g l H. induction l as [|x l IH]; [reflexivity|]. cbn. rewrite (H x (or_introl eq_refl)), IH; [reflexivity|]. intros; apply H; right; assumption. Qed.
Lemma lsumf_scal : forall A (f : A -> R) c l, lsumf (fun x => c * f x) l = c * lsumf f l.
Proof. intros A f c l. induction l as [|x l IH]; cbn; [ring|]. rewrite IH. ring. Qed.
Lemma lsumf_add : forall A (f g : A -> R) l, lsumf (fun x => f x + g x) l = lsumf f l + lsumf g l.
Proof. intros A f g l. induction l as [|x l IH]; cbn; [ring|]. rewrite IH. ring. Qed.
Lemma lsumf_zero : forall A (f : A -> R) l, (forall x, In x l -> f x = 0) -> lsumf f l = 0.
Proof. intros A f l H. induction l as [|x l IH]; [reflexivity|]. cbn. rewrite (H x (or_introl eq_refl)), IH; [ring|]. intros; apply H; right; assumption. Qed.
Lemma lsumf_map : forall A B (f : B -> R) (g : A -> B) l, lsumf f (map g l) = lsumf (fun x => f (g x)) l.
Proof. intros A B f g l. induction l as [|x l IH]; [reflexivity|]. cbn. rewrite IH. reflexivity. Qed.
Lemma lsumf_swap : forall A B (f : A -> B -> R) la lb, lsumf (fun x => lsumf (fun y => f x y) lb) la = lsumf (fun y => lsumf (fun x => f x y) la) lb.
Proof.
  intros A B f la lb. induction la as [|x la IH]; cbn; [symmetry; apply lsumf_zero; reflexivity|]. rewrite IH, <- lsumf_add. reflexivity.
Qed.
Lemma lsumf_rsum_swap : forall A (f : A -> nat -> R) l n, lsumf (fun x => rsum n (fun k => f x k)) l = rsum n (fun k => lsumf (fun x => f x k) l).
Proof.
  intros A f l n. induction n as [|n IH]; [apply lsumf_zero; reflexivity|]. rewrite rsum_S, <- IH, <- lsumf_add. reflexivity.
Qed.
Lemma lsumf_pos : forall A (f : A -> R) l, l <> [] -> (forall x, In x l -> 0 < f x) -> 0 < lsumf f l.
Proof.
  intros A f l Hl H. destruct l as [|x l]; [congruence|]. cbn. assert (0 <= lsumf f l).
  { assert (G : forall q, incl q (x :: l) -> 0 <= lsumf f q); [|apply G; intros y Hy; right; exact Hy].
    induction q as [|y q IH]; intros Hq; [cbn; lra|]. cbn. pose proof (H y (Hq y (or_introl eq_refl))). assert (0 <= lsumf f q) by (apply IH; intros z Hz; apply Hq; right; exact Hz). lra. }
  pose proof (H x (or_introl eq_refl)). lra.
Qed.
Lemma lsumf_one : forall A (f : A -> R) l x, NoDup l -> In x l -> (forall y, In y l -> y <> x -> f y = 0) -> lsumf f l = f x.
Proof.
  intros A f l x HN Hx H. apply in_split in Hx as [a [b ->]]. rewrite lsumf_app. cbn.
  apply NoDup_remove_2 in HN. rewrite (lsumf_zero _ f a), (lsumf_zero _ f b); [ring| |].
  - intros y Hy. apply H; [apply in_or_app; right; right; exact Hy|]. intros ->. apply HN. apply in_or_app; right; exact Hy.
  - intros y Hy. apply H; [apply in_or_app; left; exact Hy|]. intros ->. apply HN. apply in_or_app; left; exact Hy.
Qed.
(** A function that vanishes outside [q] sums over [q]. *)
Lemma lsumf_support : forall A (f : A -> R) q l, NoDup l -> NoDup q -> incl q l -> (forall x, In x l -> ~ In x q -> f x = 0) -> lsumf f l = lsumf f q.
Proof.
  intros A f q. induction q as [|x q IH]; intros l HN HQ HI H; [apply lsumf_zero; intros; apply H; auto|].
  assert (Hx : In x l) by (apply HI; left; reflexivity). apply in_split in Hx as [a [b ->]]. inversion HQ as [|? ? Hxq HQ']; subst.
  pose proof (NoDup_remove_1 _ _ _ HN) as HN'. pose proof (NoDup_remove_2 _ _ _ HN) as Hxab.
  transitivity (f x + lsumf f (a ++ b)); [rewrite !lsumf_app; cbn; ring|]. cbn. rewrite (IH (a ++ b) HN' HQ'); [reflexivity| |].
  - intros y Hy. assert (Hyx : y <> x) by (intros ->; contradiction). specialize (HI y (or_intror Hy)). apply in_app_or in HI as [HI|[HI|HI]]; [apply in_or_app; auto|congruence|apply in_or_app; auto].
  - intros y Hy Hyq. apply H; [apply in_app_or in Hy as [Hy|Hy]; apply in_or_app; [left|right; right]; exact Hy|].
    intros [->|Hy']; [apply Hxab; exact Hy|contradiction].
Qed.

Lemma table_eqb_spec : forall s t u, table_eqb s t u = true <-> same_on s t u.
Proof.
  intros s t u. unfold table_eqb. rewrite forallb_forall. split.
  - intros H i j Hi Hj. specialize (H (i, j)). apply Z.eqb_eq. apply H. apply all_cells_in. split; assumption.
  - intros H [i j] Hk. apply all_cells_in in Hk as [Hi Hj]. apply Z.eqb_eq. apply H; assumption.
Qed.

Lemma zrange_in : forall a b x, In x (zrange a b) <-> (a <= x < b)%Z.
Proof.
  intros a b x. unfold zrange. rewrite in_map_iff. split.
  - intros [k [<- Hk]]. apply in_seq in Hk. lia.
  - intros H. exists (Z.to_nat (x - a)). split; [lia|]. apply in_seq. lia.
Qed.
Lemma zrange_NoDup : forall a b, NoDup (zrange a b).
Proof.
  intros a b. unfold zrange. apply FinFun.Injective_map_NoDup; [|apply seq_NoDup]. intros x y H. lia.
Qed.

(** * One minor *)

Definition target (s : shape) (li : nat -> nat -> R) (t : table) : R := exp (log_target s li t).

Lemma target_pos : forall s li t, 0 < target s li t.
Proof. intros. apply exp_pos. Qed.

Definition fz (z : Z) : R := INR (fact (Z.to_nat z)).
Lemma fz_pos : forall z, 0 < fz z.
Proof. intros z. apply INR_fact_pos. Qed.

(** Weight of a cell in the target. *)
Definition cell_weight (li : nat -> nat -> R) (t : table) (k : cell) : R :=
  exp (IZR (t (fst k) (snd k)) * li (fst k) (snd k)) / fz (t (fst k) (snd k)).

Lemma exp_cell_term : forall li t k, exp (cell_term li t k) = cell_weight li t k.
Proof.
  intros li t k. unfold cell_term, cell_weight, Rminus, Rdiv. rewrite exp_plus, exp_Ropp. unfold fz. rewrite exp_ln by apply INR_fact_pos. reflexivity.
Qed.

Lemma exp_pow_nat : forall c n, exp c ^ n = exp (INR n * c).
Proof.
  intros c n. induction n as [|n IH]; [cbn; rewrite Rmult_0_l, exp_0; reflexivity|]. cbn [pow]. rewrite IH, <- exp_plus. f_equal. rewrite S_INR. ring.
Qed.
Lemma IZR_INR : forall x, (0 <= x)%Z -> INR (Z.to_nat x) = IZR x.
Proof. intros x H. rewrite INR_IZR_INZ. f_equal. lia. Qed.

Lemma nchf_weight_eq : forall M n N c x, (0 <= x)%Z -> (x <= n)%Z -> (x <= N)%Z -> (0 <= M - n - N + x)%Z ->
  nchf_weight M n N (exp c) x = fz n * fz (M - n) * exp (IZR x * c) / (fz x * fz (n - x) * (fz (N - x) * fz (M - n - N + x))).
Proof.
  intros M n N c x H0 H1 H2 H3. unfold nchf_weight, C. rewrite exp_pow_nat, IZR_INR by exact H0. unfold fz.
  replace (Z.to_nat n - Z.to_nat x)%nat with (Z.to_nat (n - x)) by lia.
  replace (Z.to_nat (M - n) - Z.to_nat (N - x))%nat with (Z.to_nat (M - n - N + x)) by lia.
  field. repeat split; apply Rgt_not_eq, INR_fact_pos.
Qed.

Lemma nchf_support_in : forall M n N x, In x (nchf_support M n N) <-> (0 <= x /\ x <= n /\ x <= N /\ 0 <= M - n - N + x)%Z.
Proof. intros M n N x. unfold nchf_support. rewrite zrange_in. lia. Qed.

Lemma nchf_total_pos : forall M n N c, nchf_support M n N <> [] -> 0 < lsumf (nchf_weight M n N (exp c)) (nchf_support M n N).
Proof.
  intros M n N c Hs. apply lsumf_pos; [exact Hs|]. intros x Hx. apply nchf_support_in in Hx as [H0 [H1 [H2 H3]]]. rewrite nchf_weight_eq by assumption.
  assert (P : forall z, 0 < fz z) by apply fz_pos. unfold Rdiv. repeat apply Rmult_lt_0_compat; auto using exp_pos. apply Rinv_0_lt_compat. repeat apply Rmult_lt_0_compat; auto.
Qed.

Lemma log_target_sum : forall s li t, log_target s li t = lsumf (cell_term li t) (all_cells s).
Proof. intros s li t. unfold log_target. induction (all_cells s) as [|k l IH]; [reflexivity|]. cbn [fold_right lsumf]. rewrite IH. reflexivity. Qed.

(** The four cells of a minor. *)
Definition four (i j i' j' : nat) : list cell := [(i, j); (i, j'); (i', j); (i', j')].

Lemma four_NoDup : forall i j i' j', (i < i')%nat -> (j < j')%nat -> NoDup (four i j i' j').
Proof.
  intros i j i' j' Hi Hj. unfold four. repeat constructor; cbn; intros H; repeat (destruct H as [H|H]; [inversion H; lia|]); assumption.
Qed.

Lemma target_minor : forall s li t u i j i' j', (i < i')%nat -> (j < j')%nat -> (i' < nI s)%nat -> (j' < nJ s)%nat ->
  (forall a b, (a < nI s)%nat -> (b < nJ s)%nat -> ~ In (a, b) (four i j i' j') -> t a b = u a b) ->
  target s li u = target s li t * exp (lsumf (fun k => cell_term li u k - cell_term li t k) (four i j i' j')).
Proof.
  intros s li t u i j i' j' Hi Hj HI HJ H. unfold target. rewrite <- exp_plus. f_equal. rewrite !log_target_sum.
  rewrite <- (lsumf_support _ _ (four i j i' j') (all_cells s)).
  - clear. induction (all_cells s) as [|k l IH]; cbn; [ring|]. rewrite IH. ring.
  - apply all_cells_NoDup.
  - apply four_NoDup; assumption.
  - intros [a b] Hk. apply all_cells_in. cbn in Hk. unfold in_shape. cbn. repeat (destruct Hk as [Hk|Hk]; [inversion Hk; subst; lia|]). destruct Hk.
  - intros [a b] Hk Hn. apply all_cells_in in Hk as [Ha Hb]. cbn in Ha, Hb. unfold cell_term. cbn [fst snd]. rewrite (H a b Ha Hb Hn). ring.
Qed.

Lemma minor_odds_square : forall li i j i' j', (i < i')%nat -> (j < j')%nat ->
  minor_odds li (square_move (i, j) (i', j')) = safe_cast (exp (log_odds_cross_ratio li (i, j) (i', j'))).
Proof.
  intros li i j i' j' Hi Hj. unfold minor_odds. rewrite cell_sort_square by assumption.
  pose proof (square_value (i, j) (i', j') ltac:(cbn; lia) ltac:(cbn; lia)) as V.
  assert (E : filter (fun k => (0 <? bf_value (square_move (i, j) (i', j')) k)%Z) [(i, j); (i, j'); (i', j); (i', j')] = [(i, j); (i', j')]).
  { cbn [filter]. rewrite !V. cbn [fst snd]. unfold dl, cell_eqb. cbn [fst snd]. rewrite !Nat.eqb_refl.
    assert (N1 : Nat.eqb i i' = false) by (apply Nat.eqb_neq; lia). assert (N2 : Nat.eqb j j' = false) by (apply Nat.eqb_neq; lia).
    assert (N3 : Nat.eqb i' i = false) by (apply Nat.eqb_neq; lia). assert (N4 : Nat.eqb j' j = false) by (apply Nat.eqb_neq; lia).
    rewrite ?N1, ?N2, ?N3, ?N4. reflexivity. }
  rewrite E. reflexivity.
Qed.

(** Probability that one minor step leads from [t] to [u]. *)
Definition minor_hits (s : shape) (f : basis_fn) (t u : table) (x : Z) : bool :=
  match degree_higher_minor f (Some x) t with Ok v => table_eqb s v u | Raise _ => false end.
Definition minor_prob (s : shape) (li : nat -> nat -> R) (f : basis_fn) (t u : table) : R :=
  lsumf (fun xp => snd xp * (if minor_hits s f t u (fst xp) then 1 else 0)) (minor_values li f t).

Section Minor.
  Context (s : shape) (li : nat -> nat -> R) (i j i' j' : nat)
          (Hi : (i < i')%nat) (Hj : (j < j')%nat) (HI : (i' < nI s)%nat) (HJ : (j' < nJ s)%nat).
  Let f := square_move (i, j) (i', j').
  Let cr := log_odds_cross_ratio li (i, j) (i', j').
  Let rs (t : table) := (t i j + t i j')%Z.
  Let cs (t : table) := (t i j + t i' j)%Z.
  Let tot (t : table) := (t i j + t i j' + t i' j + t i' j')%Z.

  Lemma minor_values_eq : forall t, minor_values li f t =
    map (fun x => (x, nchf_pmf (tot t) (rs t) (cs t) (safe_cast (exp cr)) x)) (nchf_support (tot t) (rs t) (cs t)).
  Proof.
    intros t. unfold minor_values, f. rewrite cell_sort_square by assumption. cbn [fst snd map]. rewrite !lsum_cons, lsum_nil.
    rewrite minor_odds_square by assumption. unfold tot, rs, cs. replace (t i j + (t i j' + (t i' j + (t i' j' + 0))))%Z with (t i j + t i j' + t i' j + t i' j')%Z by lia. reflexivity.
  Qed.

  (** [u] is [t] with another value in the first cell of the minor. *)
  Definition linked (t u : table) : Prop :=
    u i j' = (t i j + t i j' - u i j)%Z /\ u i' j = (t i j + t i' j - u i j)%Z /\ u i' j' = (t i' j' - t i j + u i j)%Z /\
    (forall a b, (a < nI s)%nat -> (b < nJ s)%nat -> ~ In (a, b) (four i j i' j') -> t a b = u a b).

  Lemma minor_hits_iff : forall t u x, minor_hits s f t u x = true <-> u i j = x /\ linked t u.
  Proof.
    intros t u x. unfold minor_hits, f. destruct (minor_eq i j i' j' (Some x) t Hi Hj) as [v [-> [V1 [V2 [V3 [V4 [V5 _]]]]]]].
    cbn in V1, V2, V3, V4. rewrite table_eqb_spec. unfold linked. split.
    - intros H. rewrite <- (H i j), <- (H i j'), <- (H i' j), <- (H i' j') by lia. rewrite V1. split; [reflexivity|].
      split; [assumption|]. split; [assumption|]. split; [assumption|].
      intros a b Ha Hb Hn. rewrite <- (H a b Ha Hb). symmetry. apply V5. cbn in Hn.
      destruct (Nat.eq_dec a i) as [->|]; [destruct (Nat.eq_dec b j) as [->|]; [tauto|destruct (Nat.eq_dec b j') as [->|]; [tauto|auto]]|].
      destruct (Nat.eq_dec a i') as [->|]; [destruct (Nat.eq_dec b j) as [->|]; [tauto|destruct (Nat.eq_dec b j') as [->|]; [tauto|auto]]|auto].
    - intros [E [E1 [E2 [E3 E4]]]] a b Ha Hb. destruct (in_dec (fun x y : cell => ltac:(repeat decide equality)) (a, b) (four i j i' j')) as [Hin|Hn].
      + cbn in Hin. destruct Hin as [H|[H|[H|[H|[]]]]]; inversion H; subst a b; lia.
      + rewrite <- (E4 a b Ha Hb Hn). apply V5. cbn in Hn.
        destruct (Nat.eq_dec a i) as [->|]; [destruct (Nat.eq_dec b j) as [->|]; [tauto|destruct (Nat.eq_dec b j') as [->|]; [tauto|auto]]|].
        destruct (Nat.eq_dec a i') as [->|]; [destruct (Nat.eq_dec b j) as [->|]; [tauto|destruct (Nat.eq_dec b j') as [->|]; [tauto|auto]]|auto].
  Qed.

  Lemma linked_sym : forall t u, linked t u -> linked u t.
  Proof. intros t u [E1 [E2 [E3 E4]]]. unfold linked. repeat split; try lia. intros a b Ha Hb Hn. symmetry. apply E4; assumption. Qed.

  Lemma linked_sums : forall t u, linked t u -> rs u = rs t /\ cs u = cs t /\ tot u = tot t.
  Proof. intros t u [E1 [E2 [E3 _]]]. unfold rs, cs, tot. lia. Qed.

  Lemma linked_dec : forall t u, {linked t u} + {~ linked t u}.
  Proof.
    intros t u. destruct (minor_hits s f t u (u i j)) eqn:E; [left; apply minor_hits_iff in E; apply E|right].
    intros H. assert (Ht : minor_hits s f t u (u i j) = true) by (apply minor_hits_iff; auto). congruence.
  Qed.

  Lemma minor_prob_unlinked : forall t u, ~ linked t u -> minor_prob s li f t u = 0.
  Proof.
    intros t u H. unfold minor_prob. apply lsumf_zero. intros xp _. destruct (minor_hits s f t u (fst xp)) eqn:E; [|ring].
    apply minor_hits_iff in E. destruct E; contradiction.
  Qed.

  Lemma minor_prob_linked : forall t u, linked t u -> nonneg_on s u ->
    minor_prob s li f t u = nchf_pmf (tot t) (rs t) (cs t) (safe_cast (exp cr)) (u i j).
  Proof.
    intros t u H Hu. unfold minor_prob. rewrite minor_values_eq, lsumf_map. cbn [fst snd].
    rewrite (lsumf_one _ _ _ (u i j)).
    - assert (minor_hits s f t u (u i j) = true) as -> by (apply minor_hits_iff; auto). ring.
    - apply zrange_NoDup.
    - apply nchf_support_in. pose proof (linked_sums _ _ H) as [E1 [E2 E3]]. rewrite <- E1, <- E2, <- E3. unfold tot, rs, cs.
      pose proof (Hu i j ltac:(lia) ltac:(lia)). pose proof (Hu i j' ltac:(lia) ltac:(lia)). pose proof (Hu i' j ltac:(lia) ltac:(lia)). pose proof (Hu i' j' ltac:(lia) ltac:(lia)). lia.
    - intros x _ Hx. destruct (minor_hits s f t u x) eqn:E; [|ring]. apply minor_hits_iff in E. destruct E; congruence.
  Qed.

  Lemma minor_reversible : forall t u, nonneg_on s t -> nonneg_on s u -> safe_cast (exp cr) = exp cr ->
    target s li t * minor_prob s li f t u = target s li u * minor_prob s li f u t.
  Proof.
    intros t u Ht Hu Hc. destruct (linked_dec t u) as [H|H].
    2:{ rewrite (minor_prob_unlinked t u H), (minor_prob_unlinked u t) by (intros G; apply H, linked_sym, G). ring. }
    rewrite (minor_prob_linked t u H Hu), (minor_prob_linked u t (linked_sym _ _ H) Ht). destruct (linked_sums _ _ H) as [E1 [E2 E3]]. rewrite E1, E2, E3, Hc.
    unfold nchf_pmf, Rdiv. rewrite <- !Rmult_assoc. f_equal.
    pose proof (Ht i j ltac:(lia) ltac:(lia)). pose proof (Ht i j' ltac:(lia) ltac:(lia)). pose proof (Ht i' j ltac:(lia) ltac:(lia)). pose proof (Ht i' j' ltac:(lia) ltac:(lia)).
    pose proof (Hu i j ltac:(lia) ltac:(lia)). pose proof (Hu i j' ltac:(lia) ltac:(lia)). pose proof (Hu i' j ltac:(lia) ltac:(lia)). pose proof (Hu i' j' ltac:(lia) ltac:(lia)).
    destruct H as [L1 [L2 [L3 L4]]].
    rewrite !nchf_weight_eq by (unfold tot, rs, cs; lia).
    rewrite (target_minor s li t u i j i' j' Hi Hj HI HJ L4).
    replace (rs t - u i j)%Z with (u i j') by (unfold rs; lia). replace (cs t - u i j)%Z with (u i' j) by (unfold cs; lia).
    replace (tot t - rs t - cs t + u i j)%Z with (u i' j') by (unfold tot, rs, cs; lia).
    replace (rs t - t i j)%Z with (t i j') by (unfold rs; lia). replace (cs t - t i j)%Z with (t i' j) by (unfold cs; lia).
    replace (tot t - rs t - cs t + t i j)%Z with (t i' j') by (unfold tot, rs, cs; lia).
    assert (E : exp (lsumf (fun k => cell_term li u k - cell_term li t k) (four i j i' j')) * exp (IZR (t i j) * cr) * (fz (u i j) * fz (u i j') * (fz (u i' j) * fz (u i' j'))) =
      exp (IZR (u i j) * cr) * (fz (t i j) * fz (t i j') * (fz (t i' j) * fz (t i' j')))).
    { assert (F : forall z, fz z = exp (ln (fz z))) by (intros z; symmetry; apply exp_ln, fz_pos). rewrite (F (u i j)), (F (u i j')), (F (u i' j)), (F (u i' j')), (F (t i j)), (F (t i j')), (F (t i' j)), (F (t i' j')).
      rewrite <- !exp_plus. f_equal. unfold four. cbn [lsumf]. unfold cell_term. cbn [fst snd]. fold (fz (u i j)) (fz (u i j')) (fz (u i' j)) (fz (u i' j')) (fz (t i j)) (fz (t i j')) (fz (t i' j)) (fz (t i' j')).
      rewrite L1, L2, L3. rewrite !minus_IZR, !plus_IZR, !minus_IZR. unfold cr, log_odds_cross_ratio. cbn [fst snd]. ring. }
    assert (Pu : 0 < fz (u i j) * fz (u i j') * (fz (u i' j) * fz (u i' j'))) by (repeat apply Rmult_lt_0_compat; apply fz_pos).
    assert (Pt : 0 < fz (t i j) * fz (t i j') * (fz (t i' j) * fz (t i' j'))) by (repeat apply Rmult_lt_0_compat; apply fz_pos).
    set (A := fz (u i j) * fz (u i j') * (fz (u i' j) * fz (u i' j'))) in *. set (B := fz (t i j) * fz (t i j') * (fz (t i' j) * fz (t i' j'))) in *.
    set (X := exp (lsumf _ _)) in *. set (Eu := exp (IZR (u i j) * cr)) in *. set (Et := exp (IZR (t i j) * cr)) in *.
    assert (E' : Eu / A = X * Et / B).
    { apply Rmult_eq_reg_r with (A * B); [|apply Rgt_not_eq, Rmult_lt_0_compat; assumption]. transitivity (Eu * B); [field; lra|]. rewrite <- E. field. lra. }
    unfold Rdiv in *. transitivity (target s li t * (fz (rs t) * fz (tot t - rs t)) * (Eu * / A)); [ring|]. rewrite E'. ring.
  Qed.

  Lemma minor_total : forall t (L : list table), nonneg_on s t -> safe_cast (exp cr) = exp cr ->
    (forall v, linked t v -> nonneg_on s v -> lsumf (fun u => if table_eqb s v u then 1 else 0) L = 1) ->
    lsumf (fun u => minor_prob s li f t u) L = 1.
  Proof.
    intros t L Ht Hc HL. unfold minor_prob. rewrite minor_values_eq, Hc.
    rewrite (lsumf_ext _ _ (fun u => lsumf (fun x => nchf_pmf (tot t) (rs t) (cs t) (exp cr) x * (if minor_hits s f t u x then 1 else 0)) (nchf_support (tot t) (rs t) (cs t)))) by (intros u _; apply lsumf_map).
    rewrite lsumf_swap.
    assert (Hne : nchf_support (tot t) (rs t) (cs t) <> []).
    { intros E. assert (Hin : In (t i j) (nchf_support (tot t) (rs t) (cs t))); [|rewrite E in Hin; destruct Hin]. apply nchf_support_in. unfold tot, rs, cs.
      pose proof (Ht i j ltac:(lia) ltac:(lia)). pose proof (Ht i j' ltac:(lia) ltac:(lia)). pose proof (Ht i' j ltac:(lia) ltac:(lia)). pose proof (Ht i' j' ltac:(lia) ltac:(lia)). lia. }
    rewrite (lsumf_ext _ _ (fun x => / lsumf (nchf_weight (tot t) (rs t) (cs t) (exp cr)) (nchf_support (tot t) (rs t) (cs t)) * nchf_weight (tot t) (rs t) (cs t) (exp cr) x)).
    - rewrite lsumf_scal. apply Rinv_l. apply Rgt_not_eq. apply nchf_total_pos. exact Hne.
    - intros x Hx. rewrite lsumf_scal. apply nchf_support_in in Hx as [X0 [X1 [X2 X3]]].
      destruct (minor_eq i j i' j' (Some x) t Hi Hj) as [v [Ev [V1 [V2 [V3 [V4 [V5 _]]]]]]]. cbn in V1, V2, V3, V4.
      assert (Hv : linked t v).
      { assert (Hh : minor_hits s f t v x = true); [|apply minor_hits_iff in Hh; apply Hh]. unfold minor_hits, f. rewrite Ev. apply table_eqb_spec. intros a b _ _. reflexivity. }
      assert (Hvn : nonneg_on s v).
      { intros a b Ha Hb. destruct (in_dec (fun x y : cell => ltac:(repeat decide equality)) (a, b) (four i j i' j')) as [Hin|Hn].
        - unfold tot, rs, cs in *. cbn in Hin. destruct Hin as [H|[H|[H|[H|[]]]]]; inversion H; subst a b; lia.
        - rewrite <- (proj2 (proj2 (proj2 Hv)) a b Ha Hb Hn). apply Ht; assumption. }
      rewrite (lsumf_ext _ _ (fun u => if table_eqb s v u then 1 else 0)).
      + rewrite (HL v Hv Hvn). unfold nchf_pmf, Rdiv. ring.
      + intros u _. unfold minor_hits, f. rewrite Ev. reflexivity.
  Qed.
End Minor.

(** * C125: degree-higher steps *)

(** Every odds ratio of two rows and two columns can be used without clipping. *)
Definition odds_in_range (s : shape) (li : nat -> nat -> R) : Prop :=
  forall i j i' j', (i < i')%nat -> (j < j')%nat -> (i' < nI s)%nat -> (j' < nJ s)%nat ->
  / 10 ^ 6 <= exp (li i j + li i' j' - li i j' - li i' j) <= 10 ^ 6.

(** [L] lists every non-negative table that meets the constraints, once. *)
Definition lists_tables (c : ct) (L : list table) : Prop :=
  (forall t, In t L -> table_admissible c t = true /\ nonneg_on (ct_shape c) t) /\
  ForallOrdPairs (fun t u => ~ same_on (ct_shape c) t u) L /\
  (forall v, table_admissible c v = true -> nonneg_on (ct_shape c) v -> exists t, In t L /\ same_on (ct_shape c) v t).

Lemma safe_cast_id : forall x, / 10 ^ 6 <= x <= 10 ^ 6 -> safe_cast x = x.
Proof.
  intros x [H1 H2]. unfold safe_cast. set (lo := / 10 ^ 6) in *. set (hi := 10 ^ 6) in *. destruct (Rltb lo x) eqn:E1.
  - destruct (Rltb x hi) eqn:E2; [reflexivity|]. apply Rltb_false in E2. lra.
  - apply Rltb_false in E1. assert (x = lo) by lra. subst x. destruct (Rltb lo hi) eqn:E2; [reflexivity|]. apply Rltb_false in E2. lra.
Qed.

Lemma hits_once : forall s L v t, ForallOrdPairs (fun t u => ~ same_on s t u) L -> In t L -> same_on s v t ->
  lsumf (fun u => if table_eqb s v u then 1 else 0) L = 1.
Proof.
  intros s L v t H Ht Hv. induction H as [|u L Hu HL IH]; [destruct Ht|]. cbn [lsumf]. destruct Ht as [->|Ht].
  - assert (table_eqb s v t = true) as -> by (apply table_eqb_spec; exact Hv). rewrite lsumf_zero; [ring|]. intros w Hw.
    destruct (table_eqb s v w) eqn:E; [|reflexivity]. exfalso. rewrite Forall_forall in Hu. apply (Hu w Hw). apply table_eqb_spec in E. intros a b Ha Hb. rewrite <- (Hv a b Ha Hb). apply E; assumption.
  - destruct (table_eqb s v u) eqn:E; [|rewrite (IH Ht); ring]. exfalso. rewrite Forall_forall in Hu. apply (Hu t Ht). apply table_eqb_spec in E. intros a b Ha Hb. rewrite <- (E a b Ha Hb). apply Hv; assumption.
Qed.

Lemma higher_prob_minors : forall mc li t u, mc_prop mc = DegreeHigher ->
  higher_prob mc li t u = rsum (length (mc_basis mc)) (fun idx => / INR (length (mc_basis mc)) * minor_prob (ct_shape (mc_ct mc)) li (nth idx (mc_basis mc) []) t u).
Proof.
  intros mc li t u Hp. unfold higher_prob, minor_prob. apply rsum_ext. intros idx Hidx. f_equal. apply lsumf_ext. intros xp _. f_equal.
  assert (E : step_hits mc li t u (Draw idx true (Some (fst xp)) [] None) = minor_hits (ct_shape (mc_ct mc)) (nth idx (mc_basis mc) []) t u (fst xp)); [|rewrite E; reflexivity].
  unfold step_hits, table_gibbs_step, propose, minor_hits. rewrite Hp. cbn [d_idx d_val]. unfold degree_higher_proposal, pick_basis.
  destruct (mc_basis mc) as [|f0 fs] eqn:Eb; [cbn in Hidx; lia|]. rewrite Nat.mod_small by exact Hidx. cbn [rbind].
  rewrite (nth_indep (f0 :: fs) f0 [] Hidx). destruct (degree_higher_minor _ _ _) as [v|]; [|reflexivity]. cbn [rbind]. unfold log_acceptance. rewrite Hp. cbn [rbind].
  unfold accepts. assert (Rleb 0 0 = true) as -> by (apply Rleb_spec; lra). reflexivity.
Qed.

Lemma table_admissible_ext : forall c t u, same_on (ct_shape c) t u -> (forall k, In k (ct_fixed c) -> in_shape (ct_shape c) k) ->
  table_admissible c t = table_admissible c u.
Proof.
  intros c t u H Hf. unfold table_admissible. f_equal.
  - unfold table_margins_admissible. assert (constrained_margins_stat c t = constrained_margins_stat c u) as ->; [|reflexivity].
    unfold constrained_margins_stat. induction (ct_caxes c) as [|a l IH]; [reflexivity|]. cbn [flat_map]. f_equal; [|exact IH]. destruct a; cbn [axis_margin]; first [f_equal; apply total_ext; exact H|apply map_ext_in; intros k Hk; apply in_seq in Hk; first [apply col_sum_ext; [lia|exact H]|apply row_sum_ext; [lia|exact H]]].
  - unfold table_cells_admissible. induction (ct_fixed c) as [|k l IH]; [reflexivity|]. cbn [forallb]. f_equal; [|apply IH; intros; apply Hf; right; assumption].
    destruct (Hf k (or_introl eq_refl)) as [Ha Hb]. rewrite (H _ _ Ha Hb). reflexivity.
Qed.

(** The step satisfies detailed balance with respect to Fisher's non-central
    hypergeometric distribution, and leaves it invariant. *)
Theorem C125_fisher_step : forall s truth m axes fixed c draws mc li,
  (forall a, length (m a) = axis_len s a) ->
  (forall k, In k fixed -> in_shape s k) ->
  build_ct s truth m axes fixed = Ok c -> build_mcmc c DegreeHigher draws = Ok mc ->
  odds_in_range s li ->
  (forall t u, nonneg_on s t -> nonneg_on s u ->
     target s li t * higher_prob mc li t u = target s li u * higher_prob mc li u t) /\
  (mc_basis mc <> [] -> forall L, lists_tables c L -> forall u, In u L ->
     lsumf (fun t => higher_prob mc li u t) L = 1 /\
     lsumf (fun t => target s li t * higher_prob mc li t u) L = target s li u).
Proof.
  intros s truth m axes fixed c draws mc li W Hfix Hok Hmc Hodds.
  destruct (higher_basis _ _ _ _ _ _ _ _ Hok Hmc) as [Hp [Hct [Hg [H0 H1]]]].
  destruct (build_shape _ _ _ _ _ _ Hok) as [Es _].
  assert (Hb : ax_in A0 axes && ax_in A1 axes = true) by (rewrite andb_true_iff, !ax_in_spec; tauto).
  assert (Hax : ax_in A0 axes || ax_in A1 axes = true) by (rewrite orb_true_iff, !ax_in_spec; tauto).
  destruct (generate_both s truth m axes fixed c Hok Hax Hb draws) as [fs' [E HF]]. rewrite Hg in E; inversion E; subst fs'; clear E.
  assert (HB : forall idx, (idx < length (mc_basis mc))%nat -> exists i j i' j', nth idx (mc_basis mc) [] = square_move (i, j) (i', j') /\
     (i < i')%nat /\ (j < j')%nat /\ (i' < nI s)%nat /\ (j' < nJ s)%nat).
  { intros idx Hidx. destruct (HF _ (nth_In _ [] Hidx)) as [[i j] [[i' j'] [Ef [_ [[[HI HJ] _] [_ [_ [L1 L2]]]]]]]]. cbn [fst snd] in *. exists i, j, i', j'. split; [exact Ef|auto]. }
  assert (HD : forall t u, nonneg_on s t -> nonneg_on s u -> target s li t * higher_prob mc li t u = target s li u * higher_prob mc li u t).
  { intros t u Ht Hu. rewrite !higher_prob_minors by exact Hp. rewrite Hct, Es. rewrite <- !rsum_scal. apply rsum_ext. intros idx Hidx. cbv beta.
    destruct (HB idx Hidx) as [i [j [i' [j' [-> [L1 [L2 [HI HJ]]]]]]]].
    pose proof (minor_reversible s li i j i' j' L1 L2 HI HJ t u Ht Hu (safe_cast_id _ (Hodds i j i' j' L1 L2 HI HJ))) as R.
    rewrite <- !Rmult_assoc, !(Rmult_comm _ (/ INR _)), !Rmult_assoc, R. reflexivity. }
  split; [exact HD|]. intros Hne L [HLa [HLd HLc]] u Hu. rewrite Es in *. destruct (HLa u Hu) as [Hua Hun].
  assert (HS : lsumf (fun t => higher_prob mc li u t) L = 1).
  { rewrite (lsumf_ext _ _ (fun t => rsum (length (mc_basis mc)) (fun idx => / INR (length (mc_basis mc)) * minor_prob s li (nth idx (mc_basis mc) []) u t)))
      by (intros t _; rewrite higher_prob_minors, Hct, Es by exact Hp; reflexivity).
    rewrite lsumf_rsum_swap. rewrite (rsum_ext _ _ (fun _ => / INR (length (mc_basis mc)))).
    - rewrite rsum_const. apply Rinv_r. apply not_0_INR. destruct (mc_basis mc); [congruence|discriminate].
    - intros idx Hidx. rewrite lsumf_scal. destruct (HB idx Hidx) as [i [j [i' [j' [Ef [L1 [L2 [HI HJ]]]]]]]]. rewrite Ef.
      transitivity (/ INR (length (mc_basis mc)) * 1); [|ring]. f_equal.
      apply (minor_total s li i j i' j' L1 L2 HI HJ u L Hun (safe_cast_id _ (Hodds i j i' j' L1 L2 HI HJ))).
      intros v Hv Hvn. assert (Hva : table_admissible c v = true).
      { assert (Hm : exists w, degree_higher_minor (square_move (i, j) (i', j')) (Some (v i j)) u = Ok w /\ same_on s w v).
        { pose proof (proj2 (minor_hits_iff s i j i' j' L1 L2 HI HJ u v (v i j)) (conj eq_refl Hv)) as Hh. unfold minor_hits in Hh.
          destruct (degree_higher_minor _ _ _) as [w|]; [|discriminate]. exists w. split; [reflexivity|]. apply table_eqb_spec. exact Hh. }
        destruct Hm as [w [Hw Hsw]].
        assert (Hadm : table_admissible c w = true).
        { assert (Hr : reaches mc u w).
          { eapply (reach_step mc u u w li (Draw idx true (Some (v i j)) [] None) 1); [apply reach_here|].
            unfold table_gibbs_step, propose. rewrite Hp. cbn [d_idx d_val]. unfold degree_higher_proposal, pick_basis.
            destruct (mc_basis mc) as [|f0 fs] eqn:Eb; [cbn in Hidx; lia|]. rewrite Nat.mod_small by exact Hidx. cbn [rbind].
            rewrite (nth_indep (f0 :: fs) f0 [] Hidx), Ef, Hw. cbn [rbind]. unfold log_acceptance. rewrite Hp. cbn [rbind].
            unfold accepts. assert (Rleb 0 0 = true) as -> by (apply Rleb_spec; lra). reflexivity. }
          destruct (C18_chain_stays_admissible s truth m axes fixed c DegreeHigher draws mc u w W Hok Hmc Hua Hr) as [Hw' _]. exact Hw'. }
        rewrite <- Hadm. symmetry. apply table_admissible_ext; [rewrite Es; exact Hsw|]. rewrite Es, (proj2 (proj2 (proj2 (proj2 (build_shape _ _ _ _ _ _ Hok))))). exact Hfix. }
      destruct (HLc v Hva Hvn) as [t [Ht Hvt]]. apply (hits_once s L v t HLd Ht Hvt). }
  split; [exact HS|].
  rewrite (lsumf_ext _ _ (fun t => target s li u * higher_prob mc li u t)).
  - rewrite lsumf_scal. transitivity (target s li u * 1); [f_equal; exact HS|ring].
  - intros t Ht. apply HD; [apply HLa; exact Ht|exact Hun].
Qed.
Print Assumptions C125_fisher_step.

(** The two tables with one item in each row and column of a two by two table. *)
Definition unit_diag : table := fun i j => if Nat.eqb i j then 1%Z else 0%Z.
Definition unit_anti : table := fun i j => if Nat.eqb i j then 0%Z else 1%Z.
Definition unit_ct : res ct := build_ct (Shape 2 2) unit_diag (axis_margin (Shape 2 2) unit_diag) [A0; A1] [].

Lemma unit_lists : forall c, unit_ct = Ok c -> lists_tables c [unit_diag; unit_anti].
Proof.
  intros c Hc. inversion Hc; subst c; clear Hc. cbn [ct_shape]. split; [|split].
  - intros t [<-|[<-|[]]]; (split; [reflexivity|]); intros i j _ _; unfold unit_diag, unit_anti; destruct (Nat.eqb i j); lia.
  - constructor; [constructor; [|constructor]|constructor; [constructor|constructor]]. intros H. specialize (H 0%nat 0%nat ltac:(cbn; lia) ltac:(cbn; lia)). discriminate.
  - intros v Ha Hn. cbn in Hn.
    unfold table_admissible in Ha. apply andb_true_iff in Ha as [Ha _].
    unfold table_margins_admissible, constrained_margins_stat in Ha. cbn [ct_caxes ct_shape ct_margins flat_map] in Ha.
    let ax := eval vm_compute in (constrained_axes_2d [A0; A1]) in change (constrained_axes_2d [A0; A1]) with ax in Ha.
    cbn [flat_map] in Ha. apply zlist_eqb_spec in Ha. unfold axis_margin, total, row_sum, col_sum in Ha. cbn in Ha. injection Ha as Z0 Z1 Z2 Z3 Z4.
    pose proof (Hn 0 0 ltac:(cbn; lia) ltac:(cbn; lia))%nat. pose proof (Hn 0 1 ltac:(cbn; lia) ltac:(cbn; lia))%nat. pose proof (Hn 1 0 ltac:(cbn; lia) ltac:(cbn; lia))%nat. pose proof (Hn 1 1 ltac:(cbn; lia) ltac:(cbn; lia))%nat.
    destruct (Z.eq_dec (v 0%nat 0%nat) 1) as [E|E]; [exists unit_diag|exists unit_anti]; (split; [cbn; auto|]); intros i j Hi Hj; cbn in Hi, Hj;
      destruct i as [|[|i]]; destruct j as [|[|j]]; try lia; cbn; lia.
Qed.

Lemma unit_mcmc : forall c, unit_ct = Ok c -> exists mc, build_mcmc c DegreeHigher (fun n => n) = Ok mc /\ mc_basis mc = [square_move (0, 0) (1, 1)]%nat /\ mc_prop mc = DegreeHigher /\ mc_ct mc = c.
Proof. intros c Hc. inversion Hc; subst c. eexists. split; [reflexivity|]. split; [reflexivity|]. split; reflexivity. Qed.

Lemma unit_probs : forall c mc li, unit_ct = Ok c -> build_mcmc c DegreeHigher (fun n => n) = Ok mc ->
  let w := safe_cast (exp (li 0%nat 0%nat + li 1%nat 1%nat - li 0%nat 1%nat - li 1%nat 0%nat)) in 0 < w ->
  higher_prob mc li unit_diag unit_anti = 1 / (1 + w) /\ higher_prob mc li unit_anti unit_diag = w / (1 + w) /\ higher_prob mc li unit_anti unit_anti = 1 / (1 + w).
Proof.
  intros c mc li Hc Hmc w Hw. destruct (unit_mcmc c Hc) as [mc' [Hmc' [Hb [Hp Hct]]]]. rewrite Hmc in Hmc'. inversion Hmc'; subst mc'; clear Hmc'.
  rewrite !higher_prob_minors by exact Hp. rewrite Hb, Hct. assert (Es : ct_shape c = Shape 2 2) by (inversion Hc; reflexivity). rewrite Es. cbn [length rsum nth].
  assert (N1 : nonneg_on (Shape 2 2) unit_diag) by (intros i j _ _; unfold unit_diag; destruct (Nat.eqb i j); lia).
  assert (N2 : nonneg_on (Shape 2 2) unit_anti) by (intros i j _ _; unfold unit_anti; destruct (Nat.eqb i j); lia).
  assert (K : linked (Shape 2 2) 0 0 1 1 unit_diag unit_anti).
  { split; [reflexivity|]. split; [reflexivity|]. split; [reflexivity|]. intros a b Ha Hb' Hn. exfalso. apply Hn. cbn in Ha, Hb'. destruct a as [|[|a]]; destruct b as [|[|b]]; try lia; cbn; auto. }
  assert (K1 : linked (Shape 2 2) 0 0 1 1 unit_anti unit_diag) by (apply linked_sym; try exact K; cbn; lia).
  assert (K2 : linked (Shape 2 2) 0 0 1 1 unit_anti unit_anti) by (split; [reflexivity|]; split; [reflexivity|]; split; reflexivity).
  rewrite (minor_prob_linked (Shape 2 2) li 0%nat 0%nat 1 1 ltac:(lia) ltac:(lia) ltac:(cbn; lia) ltac:(cbn; lia) _ _ K N2).
  rewrite (minor_prob_linked (Shape 2 2) li 0%nat 0%nat 1 1 ltac:(lia) ltac:(lia) ltac:(cbn; lia) ltac:(cbn; lia) _ _ K1 N1).
  rewrite (minor_prob_linked (Shape 2 2) li 0%nat 0%nat 1 1 ltac:(lia) ltac:(lia) ltac:(cbn; lia) ltac:(cbn; lia) _ _ K2 N2).
  unfold log_odds_cross_ratio. cbn [fst snd]. fold w. clearbody w. unfold nchf_pmf. 
  change (unit_diag 0 0)%nat with 1%Z. change (unit_diag 0 1)%nat with 0%Z. change (unit_diag 1 0)%nat with 0%Z. change (unit_diag 1 1)%nat with 1%Z.
  change (unit_anti 0 0)%nat with 0%Z. change (unit_anti 0 1)%nat with 1%Z. change (unit_anti 1 0)%nat with 1%Z. change (unit_anti 1 1)%nat with 0%Z.
  change (nchf_support (1 + 0 + 0 + 1) (1 + 0) (1 + 0)) with [0; 1]%Z. change (nchf_support (0 + 1 + 1 + 0) (0 + 1) (0 + 1)) with [0; 1]%Z.
  assert (W0 : nchf_weight 2 1 1 w 0 = 1). { unfold nchf_weight, C. cbn. change (Pos.to_nat 1) with 1%nat. cbn. field. } assert (W1 : nchf_weight 2 1 1 w 1 = w) by (unfold nchf_weight, C; cbn; change (Pos.to_nat 1) with 1%nat; cbn; field).
  change (1 + 0 + 0 + 1)%Z with 2%Z. change (0 + 1 + 1 + 0)%Z with 2%Z. change (1 + 0)%Z with 1%Z. change (0 + 1)%Z with 1%Z. cbn [lsumf]. rewrite W0, W1. cbn [INR]. split; [field; lra|split; field; lra].
Qed.

Lemma unit_targets : forall li, target (Shape 2 2) li unit_diag = exp (li 0%nat 0%nat + li 1%nat 1%nat) /\ target (Shape 2 2) li unit_anti = exp (li 0%nat 1%nat + li 1%nat 0%nat).
Proof.
  intros li. unfold target, log_target. change (all_cells (Shape 2 2)) with [(0, 0); (0, 1); (1, 0); (1, 1)]%nat. cbn. change (Pos.to_nat 1) with 1%nat. cbn. rewrite !ln_1. split; f_equal; ring.
Qed.

Example C125_nonvacuous : exists c mc, unit_ct = Ok c /\ build_mcmc c DegreeHigher (fun n => n) = Ok mc /\ mc_basis mc <> [] /\
  odds_in_range (Shape 2 2) (fun i j => INR (i * j)) /\ lists_tables c [unit_diag; unit_anti] /\
  higher_prob mc (fun i j => INR (i * j)) unit_diag unit_anti = 1 / (1 + exp 1).
Proof.
  destruct unit_ct as [c|] eqn:Hc; [|discriminate]. exists c. destruct (unit_mcmc c Hc) as [mc [Hmc [Hb [Hp Hct]]]]. exists mc.
  assert (B : / 10 ^ 6 <= exp 1 <= 10 ^ 6).
  { pose proof exp_le_3. pose proof (exp_ineq1 1 ltac:(lra)). split; [apply Rle_trans with 1; [|lra]; rewrite <- Rinv_1; apply Rinv_le_contravar; lra|lra]. }
  split; [reflexivity|]. split; [exact Hmc|]. split; [rewrite Hb; discriminate|]. split; [|split; [apply unit_lists; exact Hc|]].
  - intros i j i' j' H1 H2 H3 H4. cbn in H3, H4. assert (i = 0 /\ i' = 1 /\ j = 0 /\ j' = 1)%nat as [-> [-> [-> ->]]] by lia. cbn [INR Nat.mul Nat.add]. replace (0 + 1 - 0 - 0) with 1 by ring. exact B.
  - destruct (unit_probs c mc (fun i j => INR (i * j)) Hc Hmc) as [H _].
    + cbn [INR Nat.mul Nat.add]. replace (0 + 1 - 0 - 0) with 1 by ring. rewrite safe_cast_id by exact B. apply exp_pos.
    + rewrite H. cbn [INR Nat.mul Nat.add]. replace (0 + 1 - 0 - 0) with 1 by ring. rewrite safe_cast_id by exact B. reflexivity.
Qed.

(** Outside that range the clipped odds ratio gives another distribution: in a two
    by two table with one item per row and column the target is not invariant. *)
Theorem C125_clipped_refuted : forall li, 10 ^ 6 < exp (li 0%nat 0%nat + li 1%nat 1%nat - li 0%nat 1%nat - li 1%nat 0%nat) -> forall c mc, unit_ct = Ok c -> build_mcmc c DegreeHigher (fun n => n) = Ok mc ->
  lists_tables c [unit_diag; unit_anti] /\
  lsumf (fun t => target (Shape 2 2) li t * higher_prob mc li t unit_anti) [unit_diag; unit_anti] <> target (Shape 2 2) li unit_anti.
Proof.
  intros li Hli c mc Hc Hmc. split; [apply unit_lists; exact Hc|]. cbn [lsumf].
  assert (Hw : safe_cast (exp (li 0%nat 0%nat + li 1%nat 1%nat - li 0%nat 1%nat - li 1%nat 0%nat)) = 10 ^ 6).
  { unfold safe_cast. assert (Rltb (/ 10 ^ 6) (exp (li 0%nat 0%nat + li 1%nat 1%nat - li 0%nat 1%nat - li 1%nat 0%nat)) = true) as ->.
    { apply Rltb_spec. apply Rlt_trans with (10 ^ 6); [|exact Hli]. apply Rlt_trans with 1; [|lra]. rewrite <- Rinv_1. apply Rinv_lt_contravar; lra. }
    destruct (Rltb _ _) eqn:E; [|reflexivity]. apply Rltb_spec in E. lra. }
  destruct (unit_probs c mc li Hc Hmc) as [H1 [_ H2]]; [rewrite Hw; lra|]. rewrite Hw in H1, H2. rewrite H1, H2. destruct (unit_targets li) as [-> ->].
  intros E. set (w := 10 ^ 6) in *. assert (Wp : 1 < w) by (unfold w; lra). clearbody w.
  replace (li 0%nat 0%nat + li 1%nat 1%nat - li 0%nat 1%nat - li 1%nat 0%nat) with ((li 0%nat 0%nat + li 1%nat 1%nat) + - (li 0%nat 1%nat + li 1%nat 0%nat)) in Hli by ring. rewrite exp_plus, exp_Ropp in Hli.
  set (a := exp (li 0%nat 0%nat + li 1%nat 1%nat)) in *. set (b := exp (li 0%nat 1%nat + li 1%nat 0%nat)) in *. assert (0 < b) by apply exp_pos.
  apply Rmult_lt_compat_r with (r := b) in Hli; [|assumption]. rewrite Rmult_assoc, Rinv_l, Rmult_1_r in Hli by lra.
  apply (f_equal (fun z => z * (1 + w))) in E. field_simplify in E; [|lra]. nra.
Qed.
Print Assumptions C125_clipped_refuted.

(** * C126: degree-one steps *)

(** [accept_prob] is the measure of the uniform draws that accept. *)
Definition log_draw (u : R) : option R := if Req_EM_T u 0 then None else Some (ln u).
Lemma accept_prob_spec : forall la u, 0 <= u < 1 -> accepts la (log_draw u) = true <-> u < accept_prob la.
Proof.
  intros [a|] u [H0 H1]; cbn [accepts accept_prob]; [|split; [discriminate|lra]]. unfold log_draw. destruct (Rleb 0 a) eqn:Ea; cbn [orb].
  - apply Rleb_spec in Ea. split; [intros _|reflexivity]. apply Rmin_glb_lt; [exact H1|]. apply Rlt_le_trans with 1; [exact H1|]. destruct Ea as [Ea| <-]; [left|rewrite exp_0; lra].
    pose proof (exp_ineq1 a ltac:(lra)). lra.
  - apply Rleb_false in Ea. assert (Ee : exp a < 1) by (rewrite <- exp_0; apply exp_increasing; exact Ea). rewrite Rmin_right by lra. destruct (Req_EM_T u 0) as [->|Hu].
    + split; [intros _; apply exp_pos|reflexivity].
    + rewrite Rltb_spec. split; intros H.
      * rewrite <- (exp_ln u) by lra. apply exp_increasing. exact H.
      * rewrite <- (ln_exp a). apply ln_increasing; lra.
Qed.

(** The distribution the code's ratio belongs to (C21). *)
Definition effective_target (s : shape) (li : nat -> nat -> R) (t : table) : R := exp (effective_log_target s li t).

Lemma effective_ext : forall s li t u, same_on s t u -> effective_log_target s li t = effective_log_target s li u.
Proof.
  intros s li t u H. unfold effective_log_target. assert (G : forall k, In k (all_cells s) -> t (fst k) (snd k) = u (fst k) (snd k)).
  { intros k Hk. apply all_cells_in in Hk as [Ha Hb]. apply H; assumption. }
  induction (all_cells s) as [|k l IH]; [reflexivity|]. cbn [fold_right]. rewrite (G k (or_introl eq_refl)), IH; [reflexivity|]. intros; apply G; right; assumption.
Qed.

(** No cell that differs is at least two in both tables. *)
Definition gentle (s : shape) (t u : table) : Prop :=
  forall i j, (i < nI s)%nat -> (j < nJ s)%nat -> t i j <> u i j -> (Z.min (t i j) (u i j) <= 1)%Z.

Definition one_term (c : ct) (li : nat -> nat -> R) (f : basis_fn) (e : Z) (t u : table) : R :=
  match metropolis_log_acceptance c (apply_move f e t) t li with
  | Raise _ => 0
  | Ok la => accept_prob la * (if table_eqb (ct_shape c) (apply_move f e t) u then 1 else 0) +
             (1 - accept_prob la) * (if table_eqb (ct_shape c) t u then 1 else 0)
  end.

Lemma metropolis_prob_terms : forall mc li t u,
  metropolis_prob mc li t u = rsum (length (mc_basis mc)) (fun idx => / INR (length (mc_basis mc)) *
    (/ 2 * one_term (mc_ct mc) li (nth idx (mc_basis mc) []) 1 t u + / 2 * one_term (mc_ct mc) li (nth idx (mc_basis mc) []) (-1) t u)).
Proof.
  intros mc li t u. unfold metropolis_prob. apply rsum_ext. intros idx Hidx. f_equal. cbn [lsumf]. unfold degree_one_proposal, pick_basis.
  destruct (mc_basis mc) as [|f0 fs] eqn:Eb; [cbn in Hidx; lia|]. rewrite Nat.mod_small by exact Hidx. cbn [rbind]. rewrite (nth_indep (f0 :: fs) f0 [] Hidx).
  unfold one_term. ring.
Qed.

Lemma acceptance_value : forall c v t li, nonneg_on (ct_shape c) t -> nonneg_on (ct_shape c) v -> gentle (ct_shape c) t v ->
  metropolis_log_acceptance c v t li = Ok (Some (effective_log_target (ct_shape c) li v - effective_log_target (ct_shape c) li t)).
Proof.
  intros c v t li Ht Hv Hg. destruct (metropolis_log_acceptance c v t li) as [[r|]|e] eqn:E.
  - do 2 f_equal. apply (C21_ratio_exact_partial c v t li r Ht E).
  - exfalso. unfold metropolis_log_acceptance in E. destruct (log_target_measure_difference _ _ _ _ _); [|discriminate]. cbn [rbind] in E.
    assert (table_nonnegative (ct_shape c) v = true) as En by (apply table_nonnegative_iff; exact Hv). rewrite En in E. discriminate.
  - exfalso. destruct (proj1 (C21_ratio_fails_iff c v t li) (ex_intro _ e E)) as [i [j [Hi [Hj [H1 H2]]]]]. specialize (Hg i j Hi Hj ltac:(lia)). lia.
Qed.

Lemma one_term_apart : forall c li f e t u, nonneg_on (ct_shape c) t -> nonneg_on (ct_shape c) u -> gentle (ct_shape c) t u -> ~ same_on (ct_shape c) t u ->
  one_term c li f e t u = if table_eqb (ct_shape c) (apply_move f e t) u then Rmin 1 (exp (effective_log_target (ct_shape c) li u - effective_log_target (ct_shape c) li t)) else 0.
Proof.
  intros c li f e t u Ht Hu Hg Hn. unfold one_term. assert (table_eqb (ct_shape c) t u = false) as -> by (apply not_true_iff_false; rewrite table_eqb_spec; exact Hn).
  destruct (table_eqb (ct_shape c) (apply_move f e t) u) eqn:E.
  - apply table_eqb_spec in E. rewrite acceptance_value; [|exact Ht| |].
    + cbn [accept_prob]. rewrite (effective_ext _ li _ _ E). ring.
    + intros i j Hi Hj. rewrite (E i j Hi Hj). apply Hu; assumption.
    + intros i j Hi Hj H. rewrite (E i j Hi Hj) in *. apply Hg; assumption.
  - destruct (metropolis_log_acceptance _ _ _ _); ring.
Qed.

Lemma move_back : forall s f e t u, table_eqb s (apply_move f e t) u = table_eqb s (apply_move f (- e) u) t.
Proof.
  assert (G : forall s f e t u, table_eqb s (apply_move f e t) u = true -> table_eqb s (apply_move f (- e) u) t = true).
  { intros s f e t u H. apply table_eqb_spec in H. apply table_eqb_spec. intros i j Hi Hj. specialize (H i j Hi Hj). rewrite apply_move_value in *. lia. }
  intros s f e t u. destruct (table_eqb s (apply_move f e t) u) eqn:E; [symmetry; apply G; exact E|].
  destruct (table_eqb s (apply_move f (- e) u) t) eqn:E'; [|reflexivity]. apply G in E'. rewrite Z.opp_involutive in E'. congruence.
Qed.

Lemma metropolis_symmetric : forall a b, exp a * Rmin 1 (exp (b - a)) = exp b * Rmin 1 (exp (a - b)).
Proof.
  assert (G : forall a b, a <= b -> exp a * Rmin 1 (exp (b - a)) = exp b * Rmin 1 (exp (a - b))).
  { intros a b H. assert (H1 : 1 <= exp (b - a)) by (pose proof (exp_ineq1_le (b - a)); lra). rewrite Rmin_left by exact H1.
    assert (H2 : exp (a - b) <= 1). { replace (a - b) with (- (b - a)) by ring. rewrite exp_Ropp. rewrite <- Rinv_1. apply Rinv_le_contravar; lra. }
    rewrite Rmin_right by exact H2. rewrite <- exp_plus. replace (b + (a - b)) with a by ring. ring. }
  intros a b. destruct (Rle_dec a b) as [H|H]; [apply G; exact H|]. symmetry. apply G. lra.
Qed.

Lemma terms_reversible : forall c li f t u, nonneg_on (ct_shape c) t -> nonneg_on (ct_shape c) u -> gentle (ct_shape c) t u -> ~ same_on (ct_shape c) t u ->
  effective_target (ct_shape c) li t * (/ 2 * one_term c li f 1 t u + / 2 * one_term c li f (-1) t u) =
  effective_target (ct_shape c) li u * (/ 2 * one_term c li f 1 u t + / 2 * one_term c li f (-1) u t).
Proof.
  intros c li f t u Ht Hu Hg Hn. set (s := ct_shape c) in *.
  assert (Hg' : gentle s u t) by (intros i j Hi Hj H; rewrite Z.min_comm; apply Hg; auto).
  assert (Hn' : ~ same_on s u t) by (intros H; apply Hn; intros i j Hi Hj; symmetry; apply H; assumption).
  unfold s in *. rewrite !one_term_apart by assumption.
  rewrite (move_back _ f 1 t u), (move_back _ f (-1) t u). change (- (1))%Z with (-1)%Z. change (- (-1))%Z with 1%Z.
  pose proof (metropolis_symmetric (effective_log_target (ct_shape c) li t) (effective_log_target (ct_shape c) li u)) as M. unfold effective_target.
  destruct (table_eqb _ (apply_move f (-1) u) t); destruct (table_eqb _ (apply_move f 1 u) t); lra.
Qed.

Definition entries_at_most (s : shape) (b : Z) (t : table) : Prop := forall i j, (i < nI s)%nat -> (j < nJ s)%nat -> (t i j <= b)%Z.

(** The step satisfies detailed balance with respect to the distribution its ratio
    belongs to, wherever it does not raise, and leaves it invariant when no table
    has a count above two. *)
Theorem C126_metropolis_step_partial : forall s truth m axes fixed c draws mc li,
  (forall a, length (m a) = axis_len s a) -> (forall k, In k fixed -> in_shape s k) ->
  build_ct s truth m axes fixed = Ok c -> build_mcmc c DegreeOne draws = Ok mc ->
  (forall t u, nonneg_on s t -> nonneg_on s u -> gentle s t u ->
     effective_target s li t * metropolis_prob mc li t u = effective_target s li u * metropolis_prob mc li u t) /\
  (mc_basis mc <> [] -> forall L, lists_tables c L -> (forall t, In t L -> entries_at_most s 2 t) -> forall u, In u L ->
     lsumf (fun t => metropolis_prob mc li u t) L = 1 /\
     lsumf (fun t => effective_target s li t * metropolis_prob mc li t u) L = effective_target s li u).
Proof.
  intros s truth m axes fixed c draws mc li W Hfix Hok Hmc.
  destruct (build_shape _ _ _ _ _ _ Hok) as [Es [_ [_ [_ Ef]]]]. destruct (mcmc_cases _ _ _ _ Hmc) as [Hct Hcases].
  assert (Hg : generate_markov_basis c draws = Ok (mc_basis mc)).
  { unfold build_mcmc in Hmc. destruct (update_proposal_type c DegreeOne) as [p|] eqn:Eu; [|discriminate]. cbn [rbind] in Hmc.
    destruct (distribution_of c) as [d|] eqn:Ed; [|discriminate]. cbn [rbind] in Hmc.
    assert (p = DegreeOne) by (unfold update_proposal_type in Eu; rewrite Ed in Eu; cbn in Eu; destruct d; congruence). subst p.
    destruct (generate_markov_basis c draws) as [fs|]; [|discriminate]. cbn in Hmc. inversion Hmc; reflexivity. }
  assert (HD : forall t u, nonneg_on s t -> nonneg_on s u -> gentle s t u ->
     effective_target s li t * metropolis_prob mc li t u = effective_target s li u * metropolis_prob mc li u t).
  { intros t u Ht Hu Hgt. destruct (table_eqb s t u) eqn:E.
    - apply table_eqb_spec in E. unfold effective_target. rewrite (effective_ext s li t u E). f_equal. rewrite !metropolis_prob_terms. apply rsum_ext. intros idx Hidx. f_equal.
      rewrite Hct. assert (G : forall f e, one_term c li f e t u = one_term c li f e u t); [|rewrite !G; reflexivity].
      intros f e. unfold one_term. rewrite Es.
      assert (E1 : metropolis_log_acceptance c (apply_move f e t) t li = metropolis_log_acceptance c (apply_move f e u) u li).
      { unfold metropolis_log_acceptance, cells_of_interest. rewrite Es.
        assert (G : forall k, In k (all_cells s) -> apply_move f e t (fst k) (snd k) = apply_move f e u (fst k) (snd k) /\ t (fst k) (snd k) = u (fst k) (snd k)).
        { intros k Hk. apply all_cells_in in Hk as [Ha Hb]. rewrite !apply_move_value, (E _ _ Ha Hb). auto. }
        assert (En : table_nonnegative s (apply_move f e t) = table_nonnegative s (apply_move f e u)).
        { unfold table_nonnegative. f_equal. clear -G. induction (all_cells s) as [|k l IH]; [reflexivity|]. cbn [existsb]. rewrite (proj1 (G k (or_introl eq_refl))). f_equal. apply IH. intros; apply G; right; assumption. }
        rewrite En. f_equal. clear -G. generalize 0. induction (all_cells s) as [|[a b] l IH]; intros acc; [reflexivity|].
        destruct (G (a, b) (or_introl eq_refl)) as [G1 G2]. cbn [fst snd] in G1, G2. cbn [filter fst snd]. rewrite G1, G2.
        assert (IH' := IH (fun k Hk => G k (or_intror Hk))). destruct (negb _); [|apply IH']. cbn [log_target_measure_difference]. rewrite G1, G2.
        destruct (_ <? _)%Z; [apply IH'|]. destruct (_ <? _)%Z; [|apply IH']. destruct (_ <? _)%Z; [reflexivity|apply IH']. }
      rewrite E1. destruct (metropolis_log_acceptance c (apply_move f e u) u li) as [la|]; [|reflexivity].
      assert (T1 : table_eqb s t u = true) by (apply table_eqb_spec; exact E). assert (T2 : table_eqb s u t = true) by (apply table_eqb_spec; intros i j Hi Hj; symmetry; apply E; assumption).
      rewrite T1, T2. assert (table_eqb s (apply_move f e t) u = table_eqb s (apply_move f e u) t) as ->; [|reflexivity].
      unfold table_eqb. clear -E. assert (G : forall k, In k (all_cells s) -> (apply_move f e t (fst k) (snd k) =? u (fst k) (snd k))%Z = (apply_move f e u (fst k) (snd k) =? t (fst k) (snd k))%Z).
      { intros k Hk. apply all_cells_in in Hk as [Ha Hb]. rewrite !apply_move_value, (E _ _ Ha Hb). reflexivity. }
      induction (all_cells s) as [|k l IH]; [reflexivity|]. cbn [forallb]. rewrite (G k (or_introl eq_refl)). f_equal. apply IH. intros; apply G; right; assumption.
    - rewrite !metropolis_prob_terms, <- !rsum_scal. apply rsum_ext. intros idx Hidx. cbv beta. rewrite Hct.
      assert (Hn : ~ same_on (ct_shape c) t u) by (rewrite Es, <- table_eqb_spec, E; discriminate).
      pose proof (terms_reversible c li (nth idx (mc_basis mc) []) t u) as R. rewrite Es in R. specialize (R Ht Hu Hgt ltac:(rewrite <- Es; exact Hn)).
      rewrite <- !Rmult_assoc, !(Rmult_comm _ (/ INR _)), !Rmult_assoc, R. reflexivity. }
  split; [exact HD|]. intros Hne L [HLa [HLd HLc]] H2 u Hu. rewrite Es in *. destruct (HLa u Hu) as [Hua Hun].
  assert (HS : lsumf (fun t => metropolis_prob mc li u t) L = 1).
  { rewrite (lsumf_ext _ _ (fun t => rsum (length (mc_basis mc)) (fun idx => / INR (length (mc_basis mc)) *
      (/ 2 * one_term c li (nth idx (mc_basis mc) []) 1 u t + / 2 * one_term c li (nth idx (mc_basis mc) []) (-1) u t))))
      by (intros t _; rewrite metropolis_prob_terms, Hct; reflexivity).
    rewrite lsumf_rsum_swap. rewrite (rsum_ext _ _ (fun _ => / INR (length (mc_basis mc)))).
    - rewrite rsum_const. apply Rinv_r. apply not_0_INR. destruct (mc_basis mc); [congruence|discriminate].
    - intros idx Hidx. rewrite lsumf_scal. transitivity (/ INR (length (mc_basis mc)) * 1); [|ring]. f_equal. rewrite lsumf_add, !lsumf_scal.
      assert (G : forall e, lsumf (fun t => one_term c li (nth idx (mc_basis mc) []) e u t) L = 1).
      { intros e. set (f := nth idx (mc_basis mc) []). assert (Hf : In f (mc_basis mc)) by (apply nth_In; exact Hidx).
        destruct (C16_markov_move_keeps_constraints s truth m axes fixed c draws (mc_basis mc) f e u W Hok Hg Hf Hua) as [Hva _].
        assert (Hone : lsumf (fun t => if table_eqb s u t then 1 else 0) L = 1) by (apply (hits_once s L u u HLd Hu); intros i j _ _; reflexivity).
        unfold one_term. rewrite Es. set (v := apply_move f e u) in *.
        destruct (metropolis_log_acceptance c v u li) as [la|er] eqn:Em.
        - rewrite lsumf_add, !lsumf_scal, Hone. destruct la as [r|].
          + assert (Hvn : nonneg_on s v).
            { unfold metropolis_log_acceptance in Em. destruct (log_target_measure_difference _ _ _ _ _); [|discriminate]. cbn [rbind] in Em. rewrite Es in Em.
              destruct (table_nonnegative s v) eqn:En; [|discriminate]. intros i j Hi Hj. exact (proj1 (table_nonnegative_iff s v) En i j Hi Hj). }
            destruct (HLc v Hva Hvn) as [t [Ht Hvt]]. rewrite (hits_once s L v t HLd Ht Hvt). ring.
          + cbn [accept_prob]. ring.
        - exfalso. destruct (proj1 (C21_ratio_fails_iff c v u li) (ex_intro _ er Em)) as [i [j [Hi [Hj [G1 G2]]]]]. rewrite Es in Hi, Hj. specialize (H2 u Hu i j Hi Hj). lia. }
      pose proof (G 1%Z) as G1. pose proof (G (-1)%Z) as G2. cbv beta in *.
      transitivity (/ 2 * 1 + / 2 * 1); [|lra]. f_equal; f_equal; assumption. }
  split; [exact HS|].
  rewrite (lsumf_ext _ _ (fun t => effective_target s li u * metropolis_prob mc li u t)).
  - rewrite lsumf_scal. transitivity (effective_target s li u * 1); [f_equal; exact HS|ring].
  - intros t Ht. apply HD; [apply HLa; exact Ht|exact Hun|]. intros i j Hi Hj Hd. specialize (H2 t Ht i j Hi Hj) as A. specialize (H2 u Hu i j Hi Hj) as B. lia.
Qed.
Print Assumptions C126_metropolis_step_partial.

(** With no count above one the two distributions agree: then the target itself is
    invariant. *)
Lemma effective_binary : forall s li t, nonneg_on s t -> entries_at_most s 1 t -> effective_log_target s li t = log_target s li t.
Proof.
  intros s li t Hn H1. unfold effective_log_target, log_target.
  assert (G : forall k, In k (all_cells s) -> (0 <= t (fst k) (snd k) <= 1)%Z) by (intros k Hk; apply all_cells_in in Hk as [Ha Hb]; split; [apply Hn|apply H1]; assumption).
  induction (all_cells s) as [|k l IH]; [reflexivity|]. cbn [fold_right]. rewrite IH by (intros; apply G; right; assumption). f_equal. f_equal.
  specialize (G k (or_introl eq_refl)). assert (t (fst k) (snd k) = 0 \/ t (fst k) (snd k) = 1)%Z as [-> | ->] by lia.
  - cbn. rewrite ln_1. reflexivity.
  - change (Z.to_nat 1) with 1%nat. cbn. rewrite ln_1. ring.
Qed.

Theorem C126_binary_tables_partial : forall s truth m axes fixed c draws mc li,
  (forall a, length (m a) = axis_len s a) -> (forall k, In k fixed -> in_shape s k) ->
  build_ct s truth m axes fixed = Ok c -> build_mcmc c DegreeOne draws = Ok mc -> mc_basis mc <> [] ->
  forall L, lists_tables c L -> (forall t, In t L -> entries_at_most s 1 t) -> forall u, In u L ->
  lsumf (fun t => metropolis_prob mc li u t) L = 1 /\
  lsumf (fun t => target s li t * metropolis_prob mc li t u) L = target s li u.
Proof.
  intros s truth m axes fixed c draws mc li W Hfix Hok Hmc Hne L HL H1 u Hu.
  destruct (build_shape _ _ _ _ _ _ Hok) as [Es _].
  destruct (C126_metropolis_step_partial s truth m axes fixed c draws mc li W Hfix Hok Hmc) as [_ H].
  destruct (H Hne L HL ltac:(intros t Ht i j Hi Hj; specialize (H1 t Ht i j Hi Hj); lia) u Hu) as [A B]. split; [exact A|].
  assert (E : forall t, In t L -> target s li t = effective_target s li t).
  { intros t Ht. unfold target, effective_target. rewrite effective_binary; [reflexivity| |apply H1; exact Ht]. destruct HL as [Ha _]. rewrite Es in Ha. apply (Ha t Ht). }
  rewrite (E u Hu), <- B. apply lsumf_ext. intros t Ht. rewrite (E t Ht). reflexivity.
Qed.
Print Assumptions C126_binary_tables_partial.

(** Two items in the first row: the walk is symmetric, while the target weighs the
    split table twice as much. *)
Definition pair_table (a b : Z) : table := fun i j => match i, j with 0%nat, 0%nat => a | 0%nat, 1%nat => b | _, _ => 0%Z end.
Definition pair_tables : list table := [pair_table 2 0; pair_table 1 1; pair_table 0 2].
Definition pair_ct : res ct := build_ct (Shape 2 2) (pair_table 1 1) (axis_margin (Shape 2 2) (pair_table 1 1)) [A1] [].

Lemma pair_lists : forall c, pair_ct = Ok c -> lists_tables c pair_tables.
Proof.
  intros c Hc. inversion Hc; subst c; clear Hc. cbn [ct_shape]. split; [|split].
  - intros t [<-|[<-|[<-|[]]]]; (split; [reflexivity|]); intros i j _ _; destruct i as [|i]; destruct j as [|[|j]]; cbn; lia.
  - repeat constructor; intros H; specialize (H 0%nat 0%nat ltac:(cbn; lia) ltac:(cbn; lia)); discriminate.
  - intros v Ha Hn. cbn in Hn.
    unfold table_admissible in Ha. apply andb_true_iff in Ha as [Ha _].
    unfold table_margins_admissible, constrained_margins_stat in Ha. cbn [ct_caxes ct_shape ct_margins flat_map] in Ha.
    let ax := eval vm_compute in (constrained_axes_2d [A1]) in change (constrained_axes_2d [A1]) with ax in Ha.
    cbn [flat_map] in Ha. apply zlist_eqb_spec in Ha. unfold axis_margin, total, row_sum, col_sum in Ha. cbn in Ha. injection Ha as Z0 Z1 Z2.
    pose proof (Hn 0 0 ltac:(cbn; lia) ltac:(cbn; lia))%nat. pose proof (Hn 0 1 ltac:(cbn; lia) ltac:(cbn; lia))%nat. pose proof (Hn 1 0 ltac:(cbn; lia) ltac:(cbn; lia))%nat. pose proof (Hn 1 1 ltac:(cbn; lia) ltac:(cbn; lia))%nat.
    assert (v 0%nat 0%nat = 2 \/ v 0%nat 0%nat = 1 \/ v 0%nat 0%nat = 0)%Z as [E|[E|E]] by lia; [exists (pair_table 2 0)|exists (pair_table 1 1)|exists (pair_table 0 2)]; (split; [cbn; auto|]); intros i j Hi Hj; cbn in Hi, Hj;
      destruct i as [|[|i]]; destruct j as [|[|j]]; try lia; cbn; lia.
Qed.

Lemma pair_effective : forall t, In t pair_tables -> effective_target (Shape 2 2) (fun _ _ => 0) t = 1.
Proof.
  intros t Ht. rewrite <- exp_0. unfold effective_target. f_equal. unfold effective_log_target. change (all_cells (Shape 2 2)) with [(0, 0); (0, 1); (1, 0); (1, 1)]%nat.
  destruct Ht as [<-|[<-|[<-|[]]]]; cbn; try change (Pos.to_nat 1) with 1%nat; try change (Pos.to_nat 2) with 2%nat; cbn; rewrite ?ln_1; ring.
Qed.

Lemma pair_target : target (Shape 2 2) (fun _ _ => 0) (pair_table 2 0) = / 2 /\ target (Shape 2 2) (fun _ _ => 0) (pair_table 1 1) = 1 /\ target (Shape 2 2) (fun _ _ => 0) (pair_table 0 2) = / 2.
Proof.
  assert (E : forall x, x = - ln 2 -> exp x = / 2) by (intros x ->; rewrite exp_Ropp, exp_ln; lra).
  unfold target, log_target. change (all_cells (Shape 2 2)) with [(0, 0); (0, 1); (1, 0); (1, 1)]%nat.
  split; [apply E|split; [rewrite <- exp_0; f_equal|apply E]]; cbn; try change (Pos.to_nat 1) with 1%nat; try change (Pos.to_nat 2) with 2%nat; cbn; rewrite ?ln_1; try (replace (1 + 1) with 2 by ring); try ring; try lra.
Qed.

Lemma pair_mcmc : forall c, pair_ct = Ok c -> exists mc, build_mcmc c DegreeOne (fun n => n) = Ok mc /\ mc_basis mc = [pair_move ((0, 0), (0, 1)); pair_move ((1, 0), (1, 1))]%nat /\ mc_ct mc = c.
Proof. intros c Hc. inversion Hc; subst c. eexists. split; [reflexivity|]. split; reflexivity. Qed.

Lemma pair_prob : forall c mc, pair_ct = Ok c -> build_mcmc c DegreeOne (fun n => n) = Ok mc -> metropolis_prob mc (fun _ _ => 0) (pair_table 1 1) (pair_table 2 0) = 1 / 4.
Proof.
  intros c mc Hc Hmc. destruct (pair_mcmc c Hc) as [mc' [Hmc' [Hb Hct]]]. rewrite Hmc in Hmc'. inversion Hmc'; subst mc'; clear Hmc'.
  rewrite metropolis_prob_terms, Hb, Hct. cbn [length rsum nth]. assert (Es : ct_shape c = Shape 2 2) by (inversion Hc; reflexivity).
  rewrite !one_term_apart; rewrite ?Es;
    try (intros i j _ _; destruct i as [|i]; destruct j as [|[|j]]; cbn; lia);
    try (intros H; specialize (H 0%nat 0%nat ltac:(cbn; lia) ltac:(cbn; lia)); discriminate).
  pose proof (pair_effective (pair_table 2 0) ltac:(cbn; auto)) as E1. pose proof (pair_effective (pair_table 1 1) ltac:(cbn; auto)) as E2. unfold effective_target in E1, E2.
  rewrite <- exp_0 in E1, E2. apply exp_inv in E1, E2. rewrite E1, E2. replace (0 - 0) with 0 by ring. rewrite exp_0, Rmin_left by lra.
  change (table_eqb (Shape 2 2) (apply_move (pair_move ((0, 0), (0, 1)))%nat 1 (pair_table 1 1)) (pair_table 2 0)) with true.
  change (table_eqb (Shape 2 2) (apply_move (pair_move ((0, 0), (0, 1)))%nat (-1) (pair_table 1 1)) (pair_table 2 0)) with false.
  change (table_eqb (Shape 2 2) (apply_move (pair_move ((1, 0), (1, 1)))%nat 1 (pair_table 1 1)) (pair_table 2 0)) with false.
  change (table_eqb (Shape 2 2) (apply_move (pair_move ((1, 0), (1, 1)))%nat (-1) (pair_table 1 1)) (pair_table 2 0)) with false.
  cbn [INR]. field.
Qed.

Theorem C126_metropolis_refuted : forall c mc, pair_ct = Ok c -> build_mcmc c DegreeOne (fun n => n) = Ok mc ->
  lists_tables c pair_tables /\ mc_basis mc <> [] /\
  lsumf (fun t => target (Shape 2 2) (fun _ _ => 0) t * metropolis_prob mc (fun _ _ => 0) t (pair_table 2 0)) pair_tables <> target (Shape 2 2) (fun _ _ => 0) (pair_table 2 0).
Proof.
  intros c mc Hc Hmc. split; [apply pair_lists; exact Hc|]. destruct (pair_mcmc c Hc) as [mc' [Hmc' [Hb Hct]]]. rewrite Hmc in Hmc'. inversion Hmc'; subst mc'; clear Hmc'.
  assert (Hne : mc_basis mc <> []) by (rewrite Hb; discriminate). split; [exact Hne|].
  destruct (C126_metropolis_step_partial (Shape 2 2) (pair_table 1 1) (axis_margin (Shape 2 2) (pair_table 1 1)) [A1] [] c (fun n => n) mc (fun _ _ => 0) ltac:(intros []; reflexivity) ltac:(intros k []) Hc Hmc) as [_ H].
  destruct (H Hne pair_tables (pair_lists c Hc) ltac:(intros t [<-|[<-|[<-|[]]]] i j _ _; destruct i as [|i]; destruct j as [|[|j]]; cbn; lia) (pair_table 2 0) (or_introl eq_refl)) as [_ B].
  pose proof (pair_prob c mc Hc Hmc) as P. destruct pair_target as [T1 [T2 T3]].
  pose proof (pair_effective (pair_table 2 0) ltac:(cbn; auto)) as E1. pose proof (pair_effective (pair_table 1 1) ltac:(cbn; auto)) as E2. pose proof (pair_effective (pair_table 0 2) ltac:(cbn; auto)) as E3.
  unfold pair_tables in B |- *. cbn [lsumf] in B |- *. rewrite T1, T2, T3. rewrite E1, E2, E3 in B. rewrite P in *. lra.
Qed.
Print Assumptions C126_metropolis_refuted.

(** The same table, and one item in the first row for the binary case. *)
Example C126_nonvacuous : exists c mc, pair_ct = Ok c /\ build_mcmc c DegreeOne (fun n => n) = Ok mc /\ mc_basis mc <> [] /\
  lists_tables c pair_tables /\ (forall t, In t pair_tables -> entries_at_most (Shape 2 2) 2 t) /\
  metropolis_prob mc (fun _ _ => 0) (pair_table 1 1) (pair_table 2 0) = 1 / 4.
Proof.
  destruct pair_ct as [c|] eqn:Hc; [|discriminate]. exists c. destruct (pair_mcmc c Hc) as [mc [Hmc [Hb Hct]]]. exists mc.
  split; [reflexivity|]. split; [exact Hmc|]. split; [rewrite Hb; discriminate|]. split; [apply pair_lists; exact Hc|].
  split; [intros t [<-|[<-|[<-|[]]]] i j _ _; destruct i as [|i]; destruct j as [|[|j]]; cbn; lia|apply (pair_prob c mc Hc Hmc)].
Qed.

Example C126_binary_nonvacuous : exists c mc,
  build_ct (Shape 2 2) (pair_table 1 0) (axis_margin (Shape 2 2) (pair_table 1 0)) [A1] [] = Ok c /\ build_mcmc c DegreeOne (fun n => n) = Ok mc /\ mc_basis mc <> [] /\
  lists_tables c [pair_table 1 0; pair_table 0 1] /\ (forall t, In t [pair_table 1 0; pair_table 0 1] -> entries_at_most (Shape 2 2) 1 t).
Proof.
  destruct (build_ct (Shape 2 2) (pair_table 1 0) (axis_margin (Shape 2 2) (pair_table 1 0)) [A1] []) as [c|] eqn:Hc; [|discriminate]. exists c. inversion Hc; subst c.
  eexists. split; [reflexivity|]. split; [reflexivity|]. split; [discriminate|]. split.
  - cbn [ct_shape]. split; [|split].
    + intros t [<-|[<-|[]]]; (split; [reflexivity|]); intros i j _ _; destruct i as [|i]; destruct j as [|[|j]]; cbn; lia.
    + repeat constructor; intros H; specialize (H 0%nat 0%nat ltac:(cbn; lia) ltac:(cbn; lia)); discriminate.
    + intros v Ha Hn. cbn in Hn.
      unfold table_admissible in Ha. apply andb_true_iff in Ha as [Ha _].
      unfold table_margins_admissible, constrained_margins_stat in Ha. cbn [ct_caxes ct_shape ct_margins flat_map] in Ha.
      let ax := eval vm_compute in (constrained_axes_2d [A1]) in change (constrained_axes_2d [A1]) with ax in Ha.
      cbn [flat_map] in Ha. apply zlist_eqb_spec in Ha. unfold axis_margin, total, row_sum, col_sum in Ha. cbn in Ha. injection Ha as Z0 Z1 Z2.
      pose proof (Hn 0 0 ltac:(cbn; lia) ltac:(cbn; lia))%nat. pose proof (Hn 0 1 ltac:(cbn; lia) ltac:(cbn; lia))%nat. pose proof (Hn 1 0 ltac:(cbn; lia) ltac:(cbn; lia))%nat. pose proof (Hn 1 1 ltac:(cbn; lia) ltac:(cbn; lia))%nat.
      assert (v 0%nat 0%nat = 1 \/ v 0%nat 0%nat = 0)%Z as [E|E] by lia; [exists (pair_table 1 0)|exists (pair_table 0 1)]; (split; [cbn; auto|]); intros i j Hi Hj; cbn in Hi, Hj;
        destruct i as [|[|i]]; destruct j as [|[|j]]; try lia; cbn; lia.
  - intros t [<-|[<-|[]]] i j _ _; destruct i as [|i]; destruct j as [|[|j]]; cbn; lia.
Qed.

(** * C127: direct sampling *)

Definition lprod {A} (f : A -> R) (l : list A) : R := fold_right Rmult 1 (map f l).
Lemma lprod_cons : forall A (f : A -> R) x l, lprod f (x :: l) = f x * lprod f l.
Proof. reflexivity. Qed.
Lemma lprod_app : forall A (f : A -> R) a b, lprod f (a ++ b) = lprod f a * lprod f b.
Proof. intros A f a b. induction a as [|x a IH]; [unfold lprod; cbn; ring|]. cbn [app]. rewrite !lprod_cons, IH. ring. Qed.
Lemma lprod_ext : forall A (f g : A -> R) l, (forall x, In x l -> f x = g x) -> lprod f l = lprod g l.
Proof. intros A f g l H. induction l as [|x l IH]; [reflexivity|]. rewrite !lprod_cons, (H x (or_introl eq_refl)), IH; [reflexivity|]. intros; apply H; right; assumption. Qed.
Lemma lprod_pos : forall A (f : A -> R) l, (forall x, In x l -> 0 < f x) -> 0 < lprod f l.
Proof. intros A f l H. induction l as [|x l IH]; [cbn; lra|]. rewrite lprod_cons. apply Rmult_lt_0_compat; [apply H; left; reflexivity|]. apply IH. intros; apply H; right; assumption. Qed.
Lemma lprod_split : forall A (f : A -> R) p l, lprod f l = lprod f (filter p l) * lprod f (filter (fun x => negb (p x)) l).
Proof. intros A f p l. induction l as [|x l IH]; [unfold lprod; cbn; ring|]. cbn [filter]. destruct (p x); cbn [negb]; rewrite !lprod_cons, IH; ring. Qed.
Lemma lsumf_flat_map : forall A B (f : B -> R) (g : A -> list B) l, lsumf f (flat_map g l) = lsumf (fun x => lsumf f (g x)) l.
Proof. intros A B f g l. induction l as [|x l IH]; [reflexivity|]. cbn [flat_map lsumf]. rewrite lsumf_app, IH. reflexivity. Qed.
Lemma lsumf_perm : forall A (f : A -> R) a b, Permutation a b -> lsumf f a = lsumf f b.
Proof. intros A f a b H. induction H; cbn [lsumf]; lra. Qed.

Lemma target_product : forall s li t, target s li t = lprod (cell_weight li t) (all_cells s).
Proof.
  intros s li t. unfold target. rewrite log_target_sum. induction (all_cells s) as [|k l IH]; [apply exp_0|]. cbn [lsumf]. rewrite exp_plus, IH, exp_cell_term. reflexivity.
Qed.

(** All vectors of [k] non-negative counts that add up to [n]. *)
Fixpoint compositions (k n : nat) : list (list Z) :=
  match k with
  | O => match n with O => [[]] | _ => [] end
  | S k' => flat_map (fun x => map (cons (Z.of_nat x)) (compositions k' (n - x))) (seq 0 (S n))
  end.

Lemma compositions_in : forall k n v, In v (compositions k n) <-> multinomial_draw (Z.of_nat n) k v.
Proof.
  unfold multinomial_draw. induction k as [|k IH]; intros n v.
  - destruct n; cbn [compositions In].
    + split; [intros [<-|[]]; repeat split; auto|intros [H _]; destruct v; [auto|discriminate]].
    + split; [intros []|]. intros [H [H' _]]. destruct v; [|discriminate]. cbn in H'. lia.
  - cbn [compositions]. rewrite in_flat_map. split.
    + intros [x [Hx Hv]]. apply in_seq in Hx. apply in_map_iff in Hv as [w [<- Hw]]. apply IH in Hw as [H1 [H2 H3]]. cbn [length lsum fold_right]. split; [congruence|]. split; [|constructor; [lia|exact H3]].
      change (lsum (Z.of_nat x :: w) = Z.of_nat n). change (Z.of_nat x + lsum w = Z.of_nat n)%Z. lia.
    + intros [H1 [H2 H3]]. destruct v as [|z w]; [discriminate|]. change (z + lsum w = Z.of_nat n)%Z in H2. inversion H3; subst.
      assert (0 <= lsum w)%Z. { clear -H5. induction H5; [cbn; lia|]. change (0 <= x + lsum l)%Z. lia. }
      exists (Z.to_nat z). split; [apply in_seq; lia|]. apply in_map_iff. exists w. split; [f_equal; lia|]. apply IH. split; [cbn in H1; lia|]. split; [lia|assumption].
Qed.
Lemma compositions_NoDup : forall k n, NoDup (compositions k n).
Proof.
  induction k as [|k IH]; intros n; cbn [compositions]; [destruct n; repeat constructor; auto|].
  assert (G : forall l, NoDup l -> NoDup (flat_map (fun x => map (cons (Z.of_nat x)) (compositions k (n - x))) l)); [|apply G, seq_NoDup].
  induction l as [|x l IHl]; intros H; [constructor|]. inversion H; subst. cbn [flat_map].
  assert (D : forall (a b : list (list Z)), NoDup a -> NoDup b -> (forall z, In z a -> ~ In z b) -> NoDup (a ++ b)).
  { induction a as [|y a IHa]; intros b Ha Hb Hd; [exact Hb|]. inversion Ha; subst. cbn. constructor.
    - rewrite in_app_iff. intros [Hy|Hy]; [contradiction|]. apply (Hd y); [left; reflexivity|exact Hy].
    - apply IHa; auto. intros z Hz. apply Hd. right; exact Hz. }
  apply D; [|apply IHl; assumption|].
  - apply FinFun.Injective_map_NoDup; [|apply IH]. intros a b E. congruence.
  - intros z Hz Hz'. apply in_map_iff in Hz as [a [<- _]]. apply in_flat_map in Hz' as [y [Hy Hz']]. apply in_map_iff in Hz' as [b [E _]]. injection E as E _. assert (x = y) by lia. subst. contradiction.
Qed.

Lemma lsumf_seq : forall f n, lsumf f (seq 0 (S n)) = sum_f_R0 f n.
Proof.
  intros f n. induction n as [|n IH]; [cbn; ring|]. rewrite seq_S, lsumf_app, IH. cbn [lsumf tech5]. rewrite tech5. rewrite Nat.add_0_l. ring.
Qed.

(** Multinomial theorem. *)
Definition part (wv : R * Z) : R := fst wv ^ Z.to_nat (snd wv) / fz (snd wv).
Lemma fact_nz : forall n, INR (fact n) <> 0.
Proof. intros n. apply Rgt_not_eq, INR_fact_pos. Qed.
Lemma multinomial_theorem : forall ws n,
  lsumf (fun v => lprod part (combine ws v)) (compositions (length ws) n) = fold_right Rplus 0 ws ^ n / INR (fact n).
Proof.
  induction ws as [|w ws IH]; intros n.
  - destruct n; cbn; [field|]. unfold Rdiv. rewrite !Rmult_0_l. reflexivity.
  - cbn [length compositions fold_right]. rewrite lsumf_flat_map, lsumf_seq.
    rewrite binomial. unfold Rdiv at 1. rewrite Rmult_comm, scal_sum. apply sum_eq. intros i Hi.
    rewrite lsumf_map. cbn [combine].
    rewrite (lsumf_ext _ _ (fun v => part (w, Z.of_nat i) * lprod part (combine ws v))) by reflexivity.
    rewrite lsumf_scal. specialize (IH (n - i)%nat). rewrite IH. unfold part, fz, C. cbn [fst snd]. rewrite Nat2Z.id. field. repeat split; apply fact_nz.
Qed.

Lemma weights_positive : forall (w : cell -> R) cells, (forall k, 0 < w k) -> cells <> [] -> 0 < fold_right Rplus 0 (map w cells).
Proof.
  intros w cells Hw. induction cells as [|k l IH]; intros H; [congruence|]. cbn [map fold_right]. specialize (Hw k) as Hk. destruct l as [|k' l']; [cbn; lra|]. specialize (IH ltac:(discriminate)). lra.
Qed.

(** The generator normalises, so a common factor of the probabilities cancels. *)
Lemma multinomial_pmf_value : forall (li norm : nat -> nat -> R) c0 cells n vals,
  (forall k, In k cells -> norm (fst k) (snd k) = c0) -> multinomial_draw (Z.of_nat n) (length cells) vals ->
  let ws := map (fun k => exp (li (fst k) (snd k))) cells in
  multinomial_pmf (Z.of_nat n) (cell_probs li norm cells) vals * lsumf (fun v => lprod part (combine ws v)) (compositions (length cells) n) = lprod part (combine ws vals).
Proof.
  intros li norm c0 cells n vals Hn [Hl [Hs Hp]] ws. assert (HL : length ws = length cells) by (unfold ws; rewrite map_length; reflexivity). rewrite <- HL, multinomial_theorem.
  set (S := fold_right Rplus 0 ws). assert (EP : cell_probs li norm cells = map (fun w => w * exp (- c0)) ws).
  { unfold cell_probs, ws. rewrite map_map. apply map_ext_in. intros k Hk. rewrite (Hn k Hk). unfold Rminus. apply exp_plus. }
  assert (ES : fold_right Rplus 0 (cell_probs li norm cells) = S * exp (- c0)).
  { rewrite EP. unfold S. generalize ws. induction ws0 as [|w l IH]; cbn; [ring|]. rewrite IH. ring. }
  unfold multinomial_pmf. rewrite ES, EP, Nat2Z.id. pose proof (exp_pos (- c0)) as Ec.
  destruct cells as [|k0 cs].
  { destruct vals; [|discriminate]. cbn in Hs. assert (n = 0)%nat by lia. subst n. cbn. unfold S, ws. cbn. field. }
  assert (HS : 0 < S) by (unfold S, ws; apply weights_positive; [intros; apply exp_pos|discriminate]).
  assert (G : forall l v, length v = length l -> Forall (fun x => (0 <= x)%Z) v ->
    fold_right Rmult 1 (map (fun pv => (fst pv / (S * exp (- c0))) ^ Z.to_nat (snd pv) / INR (fact (Z.to_nat (snd pv)))) (combine (map (fun w => w * exp (- c0)) l) v)) = lprod part (combine l v) / S ^ Z.to_nat (lsum v)).
  { induction l as [|w l IH]; intros [|z v] HLv HF; try discriminate; [cbn; field|]. inversion HF; subst. cbn [map combine fold_right]. rewrite IH by (cbn in HLv; auto).
    rewrite lprod_cons. change (lsum (z :: v)) with (z + lsum v)%Z. assert (0 <= lsum v)%Z. { clear -H2. induction H2; [cbn; lia|]. change (0 <= x + lsum l)%Z. lia. }
    rewrite Z2Nat.inj_add by lia. rewrite pow_add. unfold part, fz. cbn [fst snd].
    assert (w * exp (- c0) / (S * exp (- c0)) = w / S) as -> by (field; split; lra). unfold Rdiv at 2. rewrite Rpow_mult_distr, pow_inv. field. repeat split; try apply pow_nonzero; try apply fact_nz; lra. }
  rewrite G; [|rewrite HL; exact Hl|exact Hp]. rewrite Hs, Nat2Z.id. field. split; [apply fact_nz|apply pow_nonzero; lra].
Qed.

(** The counts of the free cells of a table. *)
Definition free_counts (c : ct) (t : table) : list Z := map (fun k => t (fst k) (snd k)) (ct_free c).

Lemma parts_weight : forall li t cells, (forall k, In k cells -> (0 <= t (fst k) (snd k))%Z) ->
  lprod part (combine (map (fun k => exp (li (fst k) (snd k))) cells) (map (fun k => t (fst k) (snd k)) cells)) = lprod (cell_weight li t) cells.
Proof.
  intros li t cells H. induction cells as [|k l IH]; [reflexivity|]. cbn [map combine]. rewrite !lprod_cons, IH by (intros; apply H; right; assumption). f_equal.
  unfold part, cell_weight. cbn [fst snd]. rewrite exp_pow_nat, IZR_INR by (apply H; left; reflexivity). reflexivity.
Qed.

Lemma lsum_nonneg : forall l, Forall (fun x => (0 <= x)%Z) l -> (0 <= lsum l)%Z.
Proof. intros l H. induction H; [cbn; lia|]. change (0 <= x + lsum l)%Z. lia. Qed.

Lemma map_NoDup_pairs : forall A B (f : A -> B) (P : A -> A -> Prop) l, ForallOrdPairs P l -> (forall x y, In x l -> In y l -> P x y -> f x <> f y) -> NoDup (map f l).
Proof.
  intros A B f P l H. induction H as [|x l Hx Hl IH]; intros G; [constructor|]. cbn. constructor.
  - intros Hin. apply in_map_iff in Hin as [y [E Hy]]. rewrite Forall_forall in Hx. apply (G x y (or_introl eq_refl) (or_intror Hy) (Hx y Hy)). congruence.
  - apply IH. intros y z Hy Hz. apply G; right; assumption.
Qed.

Lemma same_from_cells : forall s t u, map (fun k => t (fst k) (snd k)) (all_cells s) = map (fun k => u (fst k) (snd k)) (all_cells s) -> same_on s t u.
Proof.
  intros s t u H i j Hi Hj. assert (G : forall l, map (fun k => t (fst k) (snd k)) l = map (fun k => u (fst k) (snd k)) l -> forall k, In k l -> t (fst k) (snd k) = u (fst k) (snd k)).
  { induction l as [|x l IH]; intros E k []; [injection E as E _; subst; exact E|apply IH; [injection E; auto|assumption]]. }
  apply (G (all_cells s) H (i, j)). apply all_cells_in. split; assumption.
Qed.

(** Weight of the cells that are held fixed. *)
Definition fixed_weight (c : ct) (li : nat -> nat -> R) : R :=
  lprod (cell_weight li (ct_truth c)) (filter (fun k => cell_in k (ct_fixed c)) (all_cells (ct_shape c))).

Lemma target_free : forall s truth m axes fixed c li t, build_ct s truth m axes fixed = Ok c ->
  (forall i j, In (i, j) fixed -> t i j = truth i j) -> nonneg_on s t ->
  target s li t = fixed_weight c li * lprod part (combine (map (fun k => exp (li (fst k) (snd k))) (ct_free c)) (free_counts c t)).
Proof.
  intros s truth m axes fixed c li t Hok Hf Hn. destruct (build_shape _ _ _ _ _ _ Hok) as [Es [Et [_ [_ Ef]]]]. unfold free_counts.
  rewrite (build_free _ _ _ _ _ _ Hok), parts_weight.
  - rewrite target_product, (lprod_split _ _ (fun k => cell_in k fixed)). f_equal. unfold fixed_weight. rewrite Es, Et, Ef. apply lprod_ext. intros [a b] Hk. apply filter_In in Hk as [_ Hk].
    apply cell_in_spec in Hk. unfold cell_weight. cbn [fst snd]. rewrite (Hf a b Hk). reflexivity.
  - intros [a b] Hk. apply filter_In in Hk as [Hk _]. apply all_cells_in in Hk as [Ha Hb]. apply Hn; assumption.
Qed.

Lemma sample_gives_back : forall s truth m axes fixed c t, build_ct s truth m axes fixed = Ok c -> (forall k, In k fixed -> in_shape s k) -> NoDup fixed -> (forall a, length (m a) = axis_len s a) ->
  (forall i j, In (i, j) fixed -> t i j = truth i j) -> same_on s (sample_free_cells c (free_counts c t)) t.
Proof.
  intros s truth m axes fixed c t Hok Hin Hnd W Hf i j Hi Hj. destruct (build_shape _ _ _ _ _ _ Hok) as [Es [Et [_ [_ Ef]]]].
  destruct (C04_residual_margins _ _ _ _ _ _ W Hin Hnd Hok) as [_ [_ [_ [HF HN]]]].
  destruct (cell_in (i, j) fixed) eqn:E.
  - unfold sample_free_cells. rewrite assign_other; [|rewrite HF; apply cell_in_spec in E; tauto]. unfold fixed_table. rewrite Ef, Et, E. symmetry. apply Hf. apply cell_in_spec. exact E.
  - assert (HIn : In (i, j) (ct_free c)) by (apply HF; apply cell_in_false in E; tauto). apply (In_nth _ _ (0, 0)%nat) in HIn as [p [Hp Ep]].
    pose proof (assign_nth (ct_free c) (free_counts c t) (fixed_table c) p (0, 0)%nat HN ltac:(unfold free_counts; apply map_length) Hp) as A. rewrite Ep in A. cbn [fst snd] in A.
    unfold sample_free_cells. rewrite A. unfold free_counts. rewrite (nth_indep _ 0%Z (t (fst (0, 0)%nat) (snd (0, 0)%nat))) by (rewrite map_length; exact Hp).
    rewrite (map_nth (fun k => t (fst k) (snd k)) (ct_free c) (0, 0)%nat). rewrite Ep. reflexivity.
Qed.

(** With the grand total constrained a table is drawn with its share of the target
    among the tables that meet the constraints. *)
Theorem C127_multinomial_partial : forall s truth m axes fixed c li L t rest,
  (forall a, length (m a) = axis_len s a) -> (forall k, In k fixed -> in_shape s k) -> NoDup fixed ->
  build_ct s truth m axes fixed = Ok c -> In A01 axes -> ~ In A0 axes -> ~ In A1 axes ->
  lists_tables c L -> In t L ->
  (exists t', direct_sampling_proposal c (AtMultinomial (free_counts c t) :: rest) = Ok (Some t') /\ same_on s t' t) /\
  (forall vals t', multinomial_draw (nth 0 (ct_resid c A01) 0%Z) (length (ct_free c)) vals ->
     direct_sampling_proposal c (AtMultinomial vals :: rest) = Ok (Some t') -> same_on s t' t -> vals = free_counts c t) /\
  multinomial_draw_prob c li (free_counts c t) = target s li t / lsumf (target s li) L.
Proof.
  intros s truth m axes fixed c li L t rest W Hin Hnd Hok H01 H0 H1 [HLa [HLd HLc]] Ht.
  destruct (C04_residual_margins _ _ _ _ _ _ W Hin Hnd Hok) as [_ [_ [HT [HF HN]]]].
  destruct (build_shape _ _ _ _ _ _ Hok) as [Es [Et [Em [Ea Ef]]]]. rewrite Es in *.
  destruct (C02_two_way_closure axes) as [K0 [K1 K01]].
  set (n := nth 0 (ct_resid c A01) 0%Z) in *. set (q := length (ct_free c)).
  assert (Adm : forall u, table_admissible c u = true <-> zsum (nI s) (fun i => zsum (nJ s) (fun j => u i j)) = nth 0 (m A01) 0%Z /\ (forall i j, In (i, j) fixed -> u i j = truth i j)).
  { intros u. rewrite C01_admissible_iff by (rewrite Em, Es; exact W). rewrite Es, Em, Ea, Ef, Et. split.
    - intros [_ [_ [A B]]]. split; [apply A; apply K01; auto|exact B].
    - intros [A B]. split; [intros Ha; apply K1 in Ha; tauto|]. split; [intros Ha; apply K0 in Ha; tauto|]. split; [intros _; exact A|exact B]. }
  assert (Draw : forall u, table_admissible c u = true -> nonneg_on s u -> multinomial_draw n q (free_counts c u)).
  { intros u Hu Hn. apply Adm in Hu as [A B]. split; [unfold free_counts; apply map_length|]. split.
    - change (cells_sum u (ct_free c) = n). rewrite (cells_sum_all s) by (try exact HN; intros [a b] Hk; apply HF in Hk; unfold in_shape; cbn [fst snd]; tauto).
      rewrite HT, <- A.
      assert (G : zsum (nI s) (fun i => zsum (nJ s) (fun j => u i j)) = (zsum (nI s) (fun i => zsum (nJ s) (fun j => if cell_in (i, j) (ct_free c) then u i j else 0)) + zsum (nI s) (fun i => zsum (nJ s) (fun j => if cell_in (i, j) fixed then truth i j else 0)))%Z).
      { rewrite <- zsum_add. apply zsum_ext; intros i Hi. rewrite <- zsum_add. apply zsum_ext; intros j Hj. destruct (cell_in (i, j) fixed) eqn:E1, (cell_in (i, j) (ct_free c)) eqn:E2.
        - apply cell_in_spec in E1, E2. apply HF in E2. tauto.
        - apply cell_in_spec in E1. rewrite (B i j E1). lia.
        - lia.
        - apply cell_in_false in E1, E2. rewrite HF in E2. tauto. }
      lia.
    - unfold free_counts. rewrite Forall_forall. intros x Hx. apply in_map_iff in Hx as [[a b] [<- Hk]]. apply HF in Hk. apply Hn; tauto. }
  destruct (HLa t Ht) as [Hta Htn]. pose proof (Draw t Hta Htn) as HD. assert (Hpos : (0 <= n)%Z) by (destruct HD as [_ [<- HD]]; apply lsum_nonneg; exact HD).
  assert (Ends : forall vals, multinomial_draw n q vals -> exists t', direct_sampling_proposal c (AtMultinomial vals :: rest) = Ok (Some t') /\ t' = sample_free_cells c vals /\ table_admissible c t' = true /\ nonneg_on s t' /\ free_counts c t' = vals).
  { intros vals HV. destruct (C22_multinomial_first_attempt s truth m axes fixed c vals [] W Hin Hnd Hok H01 H0 H1 HV) as [t' [D [A [B [_ [_ P]]]]]]. exists t'.
    cbn [direct_sampling_proposal direct_attempt rbind] in D |- *. destruct (table_admissible c (sample_free_cells c vals)); [|discriminate]. split; [exact D|].
    assert (Eq : t' = sample_free_cells c vals) by congruence.
    split; [exact Eq|]. split; [exact A|]. split.
    - intros i j Hi Hj. destruct (cell_in (i, j) fixed) eqn:E.
      + apply cell_in_spec in E. rewrite (B i j E). apply Adm in Hta as [_ Hta]. rewrite <- (Hta i j E). apply Htn; assumption.
      + apply P; try assumption. apply cell_in_false. exact E.
    - subst t'. unfold free_counts, sample_free_cells. apply assign_map; [exact HN|]. destruct HV; assumption. }
  split; [|split].
  - destruct (Ends _ HD) as [t' [D [Eq _]]]. exists t'. split; [exact D|]. subst t'. apply (sample_gives_back s truth m axes fixed); try assumption. apply Adm in Hta; tauto.
  - intros vals t' HV D S. destruct (Ends vals HV) as [t'' [D' [_ [_ [_ E]]]]]. assert (t'' = t') by congruence. subst t''. rewrite <- E. unfold free_counts. apply map_ext_in. intros [a b] Hk. apply HF in Hk. apply S; tauto.
  - set (k := Z.to_nat n). assert (Ek : Z.of_nat k = n) by (unfold k; lia).
    set (ws := map (fun k => exp (li (fst k) (snd k))) (ct_free c)).
    assert (HT2 : forall u, In u L -> target s li u = fixed_weight c li * lprod part (combine ws (free_counts c u))).
    { intros u Hu. destruct (HLa u Hu) as [A B]. apply (target_free s truth m axes fixed); try assumption. apply Adm in A; tauto. }
    assert (HP : Permutation (map (free_counts c) L) (compositions q k)).
    { apply NoDup_Permutation.
      - apply (map_NoDup_pairs _ _ _ _ L HLd). intros x y Hx Hy Hxy E. apply Hxy. destruct (HLa x Hx) as [Ax _]. destruct (HLa y Hy) as [Ay _]. apply Adm in Ax as [_ Ax]. apply Adm in Ay as [_ Ay].
        pose proof (sample_gives_back s truth m axes fixed c x Hok Hin Hnd W Ax) as Sx. pose proof (sample_gives_back s truth m axes fixed c y Hok Hin Hnd W Ay) as Sy.
        intros i j Hi Hj. rewrite <- (Sx i j Hi Hj), <- (Sy i j Hi Hj), E. reflexivity.
      - apply compositions_NoDup.
      - intros v. rewrite compositions_in, Ek. split.
        + intros Hv. apply in_map_iff in Hv as [u [<- Hu]]. destruct (HLa u Hu). apply Draw; assumption.
        + intros Hv. destruct (Ends v Hv) as [t' [_ [_ [A [B E]]]]]. destruct (HLc t' A B) as [u [Hu S]]. apply in_map_iff. exists u. split; [|exact Hu]. rewrite <- E.
          unfold free_counts. apply map_ext_in. intros [a b] Hk. apply HF in Hk. symmetry. apply S; tauto. }
    assert (HSum : lsumf (target s li) L = fixed_weight c li * lsumf (fun v => lprod part (combine ws v)) (compositions q k)).
    { rewrite (lsumf_ext _ _ _ L HT2), lsumf_scal. f_equal. rewrite <- (lsumf_perm _ _ _ _ HP), lsumf_map. reflexivity. }
    pose proof (multinomial_pmf_value li (fun _ _ => lse2 (nI s) (nJ s) li) (lse2 (nI s) (nJ s) li) (ct_free c) k (free_counts c t) ltac:(reflexivity) ltac:(rewrite Ek; exact HD)) as V.
    cbn zeta in V. fold ws q in V. rewrite Ek in V. unfold multinomial_draw_prob. fold n. rewrite Es, HSum, (HT2 t Ht), <- V.
    assert (FW : 0 < fixed_weight c li) by (apply lprod_pos; intros x _; unfold cell_weight; apply Rmult_lt_0_compat; [apply exp_pos|apply Rinv_0_lt_compat, fz_pos]).
    assert (TS : 0 < lsumf (target s li) L) by (apply lsumf_pos; [intros ->; destruct Ht|intros; apply target_pos]). rewrite HSum in TS.
    assert (lsumf (fun v => lprod part (combine ws v)) (compositions q k) <> 0) by (intros Z0; rewrite Z0 in TS; lra). field. split; [assumption|lra].
Qed.
Print Assumptions C127_multinomial_partial.

(** Without margin constraints the free cells are drawn with the Poisson weights of
    the target: any two tables in the ratio of their targets, and with no cell fixed
    with the target divided by the exponential of the total intensity. *)
Lemma poisson_value : forall li t cells, (forall k, In k cells -> (0 <= t (fst k) (snd k))%Z) ->
  poisson_pmf (cell_probs li (fun _ _ => 0) cells) (map (fun k => t (fst k) (snd k)) cells) = exp (- lsumf (fun k => exp (li (fst k) (snd k))) cells) * lprod (cell_weight li t) cells.
Proof.
  intros li t cells H. unfold poisson_pmf, cell_probs. induction cells as [|k l IH]; [unfold lprod; cbn; rewrite Ropp_0, exp_0; ring|]. cbn [map combine fold_right lsumf]. rewrite IH by (intros; apply H; right; assumption).
  rewrite lprod_cons, Ropp_plus_distr, exp_plus. unfold cell_weight. cbn [fst snd]. rewrite Rminus_0_r, exp_pow_nat, IZR_INR by (apply H; left; reflexivity). unfold fz. field. apply fact_nz.
Qed.

Lemma lsumf_all_cells : forall (f : nat -> nat -> R) s, lsumf (fun k => f (fst k) (snd k)) (all_cells s) = rsum2 (nI s) (nJ s) f.
Proof.
  intros f s. unfold all_cells, rsum2. generalize (nI s). intros n. assert (G : forall l, lsumf (fun k => f (fst k) (snd k)) (list_prod l (seq 0 (nJ s))) = lsumf (fun i => rsum (nJ s) (fun j => f i j)) l).
  { induction l as [|x l IH]; [reflexivity|]. cbn [list_prod lsumf]. rewrite lsumf_app, IH, lsumf_map. f_equal. cbn [fst snd]. clear IH. induction (nJ s) as [|w IHw]; [reflexivity|]. rewrite seq_S, lsumf_app, IHw, rsum_S. cbn [lsumf]. rewrite Nat.add_0_l. ring. }
  rewrite G. clear G. induction n as [|n IH]; [reflexivity|]. rewrite seq_S, lsumf_app, IH, rsum_S. cbn [lsumf]. rewrite Nat.add_0_l. ring.
Qed.

Theorem C127_poisson_partial : forall s truth m fixed c li t rest,
  (forall a, length (m a) = axis_len s a) -> (forall k, In k fixed -> in_shape s k) -> NoDup fixed ->
  build_ct s truth m [] fixed = Ok c -> (forall i j, In (i, j) fixed -> t i j = truth i j) -> nonneg_on s t ->
  (exists t', direct_sampling_proposal c (AtPoisson (free_counts c t) :: rest) = Ok (Some t') /\ same_on s t' t) /\
  (forall vals t', length vals = length (ct_free c) ->
     direct_sampling_proposal c (AtPoisson vals :: rest) = Ok (Some t') -> same_on s t' t -> vals = free_counts c t) /\
  (forall u, (forall i j, In (i, j) fixed -> u i j = truth i j) -> nonneg_on s u ->
     poisson_draw_prob c li (free_counts c t) * target s li u = poisson_draw_prob c li (free_counts c u) * target s li t) /\
  (fixed = [] -> poisson_draw_prob c li (free_counts c t) = target s li t / exp (rsum2 (nI s) (nJ s) (fun i j => exp (li i j)))).
Proof.
  intros s truth m fixed c li t rest W Hin Hnd Hok Hf Hn.
  destruct (C04_residual_margins _ _ _ _ _ _ W Hin Hnd Hok) as [_ [_ [_ [HF HN]]]].
  destruct (build_shape _ _ _ _ _ _ Hok) as [Es [Et [Em [Ea Ef]]]].
  destruct (C02_two_way_closure []) as [K0 [K1 K01]].
  assert (FixS : forall vals i j, In (i, j) fixed -> sample_free_cells c vals i j = truth i j).
  { intros vals i j Hk. unfold sample_free_cells. rewrite assign_other by (rewrite HF; tauto). unfold fixed_table. rewrite Ef, Et.
    assert (cell_in (i, j) fixed = true) as -> by (apply cell_in_spec; exact Hk). reflexivity. }
  assert (Adm : forall vals, table_admissible c (sample_free_cells c vals) = true).
  { intros vals. rewrite C01_admissible_iff by (rewrite Em, Es; exact W). rewrite Es, Em, Ea, Ef, Et.
    split; [intros Ha; apply K1 in Ha; destruct Ha|]. split; [intros Ha; apply K0 in Ha; destruct Ha|]. split; [intros Ha; apply K01 in Ha as [[]|[[]|[]]]|apply FixS]. }
  assert (NF : forall u, nonneg_on s u -> forall k, In k (ct_free c) -> (0 <= u (fst k) (snd k))%Z) by (intros u Hu [a b] Hk; apply HF in Hk; apply Hu; tauto).
  assert (V : forall u, nonneg_on s u -> (forall i j, In (i, j) fixed -> u i j = truth i j) -> poisson_draw_prob c li (free_counts c u) * fixed_weight c li = exp (- lsumf (fun k => exp (li (fst k) (snd k))) (ct_free c)) * target s li u).
  { intros u Hu Huf. unfold poisson_draw_prob, free_counts. rewrite poisson_value by (apply NF; exact Hu). rewrite (target_free s truth m [] fixed c li u Hok Huf Hu). unfold free_counts. rewrite parts_weight by (apply NF; exact Hu). ring. }
  assert (FW : 0 < fixed_weight c li) by (apply lprod_pos; intros x _; unfold cell_weight; apply Rmult_lt_0_compat; [apply exp_pos|apply Rinv_0_lt_compat, fz_pos]).
  split; [|split; [|split]].
  - cbn [direct_sampling_proposal direct_attempt rbind]. rewrite Adm. eexists. split; [reflexivity|]. apply (sample_gives_back s truth m [] fixed); assumption.
  - intros vals t' Hl D S. cbn [direct_sampling_proposal direct_attempt rbind] in D. rewrite Adm in D. injection D as <-.
    rewrite <- (assign_map (ct_free c) vals (fixed_table c) HN Hl). unfold free_counts. apply map_ext_in. intros [a b] Hk. apply HF in Hk. apply S; tauto.
  - intros u Huf Hu. pose proof (V t Hn Hf) as V1. pose proof (V u Hu Huf) as V2. apply Rmult_eq_reg_r with (fixed_weight c li); [|lra].
    transitivity (poisson_draw_prob c li (free_counts c t) * fixed_weight c li * target s li u); [ring|]. rewrite V1.
    transitivity (poisson_draw_prob c li (free_counts c u) * fixed_weight c li * target s li t); [rewrite V2; ring|ring].
  - intros ->. pose proof (V t Hn Hf) as V1. assert (E1 : fixed_weight c li = 1).
    { unfold fixed_weight. rewrite Ef. assert (filter (fun k => cell_in k []) (all_cells (ct_shape c)) = []) as ->; [|reflexivity]. induction (all_cells (ct_shape c)); [reflexivity|assumption]. }
    assert (EF : ct_free c = all_cells s).
    { rewrite (build_free _ _ _ _ _ _ Hok). cbn. induction (all_cells s) as [|x l IH]; [reflexivity|cbn; congruence]. }
    rewrite EF in V1. rewrite E1, Rmult_1_r in V1. rewrite V1. rewrite (lsumf_all_cells (fun i j => exp (li i j))), exp_Ropp. field. apply Rgt_not_eq, exp_pos.
Qed.
Print Assumptions C127_poisson_partial.

(** Row totals constrained, no cell fixed. *)
Definition table_rows (s : shape) (t : table) : list (list Z) := map (fun i => map (fun j => t i j) (seq 0 (nJ s))) (seq 0 (nI s)).

(** All ways of filling the rows. *)
Fixpoint row_choices (k : nat) (ms : list nat) : list (list (list Z)) :=
  match ms with [] => [[]] | m :: r => flat_map (fun v => map (cons v) (row_choices k r)) (compositions k m) end.

Lemma row_choices_in : forall k ms rs, In rs (row_choices k ms) <-> length rs = length ms /\ forall i, (i < length ms)%nat -> multinomial_draw (Z.of_nat (nth i ms 0%nat)) k (nth i rs []).
Proof.
  intros k. induction ms as [|m ms IH]; intros rs; cbn [row_choices].
  - split; [intros [<-|[]]; split; [reflexivity|]; intros i Hi; cbn in Hi; lia|]. intros [H _]. destruct rs; [left; reflexivity|discriminate].
  - rewrite in_flat_map. split.
    + intros [v [Hv Hr]]. apply in_map_iff in Hr as [r [<- Hr]]. apply IH in Hr as [H1 H2]. split; [cbn; congruence|]. intros [|i] Hi; cbn [nth]; [apply compositions_in; exact Hv|]. apply H2. cbn in Hi. lia.
    + intros [H1 H2]. destruct rs as [|v r]; [discriminate|]. exists v. split; [apply compositions_in; apply (H2 0%nat); cbn; lia|]. apply in_map_iff. exists r. split; [reflexivity|]. apply IH. split; [cbn in H1; lia|].
      intros i Hi. apply (H2 (S i)). cbn. lia.
Qed.
Lemma NoDup_app : forall A (a b : list A), NoDup a -> NoDup b -> (forall z, In z a -> ~ In z b) -> NoDup (a ++ b).
Proof.
  induction a as [|y a IHa]; intros b Ha Hb Hd; [exact Hb|]. inversion Ha; subst. cbn. constructor.
  - rewrite in_app_iff. intros [Hy|Hy]; [contradiction|]. apply (Hd y); [left; reflexivity|exact Hy].
  - apply IHa; auto. intros z Hz. apply Hd. right; exact Hz.
Qed.
Lemma row_choices_NoDup : forall k ms, NoDup (row_choices k ms).
Proof.
  intros k. induction ms as [|m ms IH]; cbn [row_choices]; [repeat constructor; auto|]. pose proof (compositions_NoDup k m) as H. induction H as [|v l Hv Hl IHl]; [constructor|]. cbn [flat_map].
  apply NoDup_app; [apply FinFun.Injective_map_NoDup; [intros a b E; congruence|exact IH]|exact IHl|].
  intros z Hz Hz'. apply in_map_iff in Hz as [a [<- _]]. apply in_flat_map in Hz' as [y [Hy Hz']]. apply in_map_iff in Hz' as [b [E _]]. injection E as E _. subst. contradiction.
Qed.
Lemma row_choices_sum : forall k (fs : list (list Z -> R)) ms, length fs = length ms ->
  lsumf (fun rs => lprod (fun fr => fst fr (snd fr)) (combine fs rs)) (row_choices k ms) = lprod (fun fm => lsumf (fst fm) (compositions k (snd fm))) (combine fs ms).
Proof.
  intros k. induction fs as [|f fs IH]; intros [|m ms] H; try discriminate; [unfold lprod; cbn; ring|]. cbn [row_choices combine]. rewrite lsumf_flat_map, lprod_cons. cbn [fst snd].
  rewrite (lsumf_ext _ _ (fun v => lprod (fun fm => lsumf (fst fm) (compositions k (snd fm))) (combine fs ms) * f v)).
  - rewrite lsumf_scal. apply Rmult_comm.
  - intros v _. rewrite lsumf_map. cbn [combine].
    rewrite (lsumf_ext _ _ (fun r => f v * lprod (fun fr => fst fr (snd fr)) (combine fs r))) by reflexivity. rewrite lsumf_scal, IH by (cbn in H; lia). ring.
Qed.

Lemma rprod_list : forall n f, rprod n f = lprod f (seq 0 n).
Proof. induction n as [|n IH]; intros f; [reflexivity|]. rewrite seq_S, lprod_app. cbn [rprod]. rewrite IH. unfold lprod at 3. cbn. ring. Qed.

Lemma row_of_cells : forall s i, (i < nI s)%nat -> filter (fun k => Nat.eqb (fst k) i) (all_cells s) = map (fun j => (i, j)) (seq 0 (nJ s)).
Proof.
  intros s i Hi. unfold all_cells. assert (G : forall l, NoDup l -> filter (fun k => Nat.eqb (fst k) i) (list_prod l (seq 0 (nJ s))) = if existsb (Nat.eqb i) l then map (fun j => (i, j)) (seq 0 (nJ s)) else []).
  { induction l as [|x l IH]; intros HN; [reflexivity|]. inversion HN; subst. cbn [list_prod existsb]. rewrite filter_app, IH by assumption.
    assert (E : filter (fun k => Nat.eqb (fst k) i) (map (fun y => (x, y)) (seq 0 (nJ s))) = if Nat.eqb i x then map (fun j => (i, j)) (seq 0 (nJ s)) else []).
    { clear IH. destruct (Nat.eqb_spec i x) as [->|Hne]; induction (seq 0 (nJ s)) as [|y q IHq]; try reflexivity; cbn [map filter fst].
      - rewrite Nat.eqb_refl. f_equal. apply IHq.
      - assert (Nat.eqb x i = false) as -> by (apply Nat.eqb_neq; congruence). exact IHq. }
    rewrite E. destruct (Nat.eqb_spec i x) as [->|Hne]; cbn [orb]; [|reflexivity]. assert (existsb (Nat.eqb x) l = false) as ->; [|apply app_nil_r].
    apply not_true_iff_false. intros Ex. apply existsb_exists in Ex as [y [Hy E']]. apply Nat.eqb_eq in E'. subst. contradiction. }
  rewrite G by apply seq_NoDup. assert (existsb (Nat.eqb i) (seq 0 (nI s)) = true) as ->; [|reflexivity]. apply existsb_exists. exists i. split; [apply in_seq; lia|apply Nat.eqb_refl].
Qed.

Lemma lprod_all_cells : forall (f : cell -> R) s, lprod f (all_cells s) = lprod (fun i => lprod (fun j => f (i, j)) (seq 0 (nJ s))) (seq 0 (nI s)).
Proof.
  intros f s. unfold all_cells. induction (seq 0 (nI s)) as [|x l IH]; [reflexivity|]. cbn [list_prod]. rewrite lprod_app, lprod_cons, IH. f_equal. unfold lprod. rewrite map_map. reflexivity.
Qed.

Lemma lprod_map : forall A B (f : B -> R) (g : A -> B) l, lprod f (map g l) = lprod (fun x => f (g x)) l.
Proof. intros. unfold lprod. rewrite map_map. reflexivity. Qed.
Lemma lprod_mult : forall A (f g : A -> R) l, lprod (fun x => f x * g x) l = lprod f l * lprod g l.
Proof. intros A f g l. induction l as [|x l IH]; [unfold lprod; cbn; ring|]. rewrite !lprod_cons, IH. ring. Qed.
Lemma combine_map : forall A B C0 (f : A -> B) (g : A -> C0) l, combine (map f l) (map g l) = map (fun x => (f x, g x)) l.
Proof. intros. induction l as [|x l IH]; [reflexivity|]. cbn. rewrite IH. reflexivity. Qed.

Theorem C127_rows_partial : forall s truth m axes c li L t rest,
  (forall a, length (m a) = axis_len s a) -> nth 0 (m A01) 0%Z = lsum (m A1) ->
  build_ct s truth m axes [] = Ok c -> In A1 axes -> ~ In A0 axes ->
  lists_tables c L -> In t L ->
  (exists t', direct_sampling_proposal c (AtProduct (table_rows s t) :: rest) = Ok (Some t') /\ same_on s t' t) /\
  (forall counts t', length counts = nI s -> (forall i, (i < nI s)%nat -> multinomial_draw (nth i (m A1) 0%Z) (nJ s) (nth i counts [])) ->
     direct_sampling_proposal c (AtProduct counts :: rest) = Ok (Some t') -> same_on s t' t -> counts = table_rows s t) /\
  product_draw_prob c li (table_rows s t) = target s li t / lsumf (target s li) L.
Proof.
  intros s truth m axes c li L t rest W WT Hok H1 H0 [HLa [HLd HLc]] Ht.
  destruct (build_shape _ _ _ _ _ _ Hok) as [Es [Et [Em [Ea Ef]]]]. rewrite Es in *.
  destruct (C02_two_way_closure axes) as [K0 [K1 K01]].
  assert (EF : ct_free c = all_cells s).
  { rewrite (build_free _ _ _ _ _ _ Hok). cbn. induction (all_cells s) as [|x l IH]; [reflexivity|cbn; congruence]. }
  assert (ER : forall i, (i < nI s)%nat -> nth i (ct_resid c A1) 0%Z = nth i (m A1) 0%Z).
  { intros i Hi. destruct (C04_residual_margins s truth m axes [] c W (fun k H => match H with end) (NoDup_nil _) Hok) as [HR _]. rewrite (HR i Hi). cbn [cell_in existsb]. rewrite zsum_zero; [lia|]. intros; reflexivity. }
  assert (Row : forall u i, (i < nI s)%nat -> nth i (table_rows s u) [] = map (fun j => u i j) (seq 0 (nJ s))).
  { intros u i Hi. unfold table_rows. rewrite (nth_indep _ [] (map (fun j => u 0%nat j) (seq 0 (nJ s)))) by (rewrite map_length, seq_length; exact Hi).
    rewrite (map_nth (fun i => map (fun j => u i j) (seq 0 (nJ s)))), seq_nth by exact Hi. reflexivity. }
  assert (Adm : forall u, table_admissible c u = true -> forall i, (i < nI s)%nat -> zsum (nJ s) (fun j => u i j) = nth i (m A1) 0%Z).
  { intros u Hu. apply C01_admissible_iff in Hu; [|rewrite Em, Es; exact W]. rewrite Es, Em, Ea in Hu. destruct Hu as [Hu _]. apply Hu. apply K1. exact H1. }
  assert (Draw : forall u, table_admissible c u = true -> nonneg_on s u -> forall i, (i < nI s)%nat -> multinomial_draw (nth i (m A1) 0%Z) (nJ s) (nth i (table_rows s u) [])).
  { intros u Hu Hn i Hi. rewrite Row by exact Hi. split; [rewrite map_length, seq_length; reflexivity|]. split.
    - rewrite <- (Adm u Hu i Hi). rewrite <- zsum_nth, map_length, seq_length. apply zsum_ext. intros j Hj. rewrite (nth_indep _ 0%Z (u i 0%nat)) by (rewrite map_length, seq_length; exact Hj). rewrite (map_nth (fun j => u i j)), seq_nth by exact Hj. reflexivity.
    - rewrite Forall_forall. intros x Hx. apply in_map_iff in Hx as [j [<- Hj]]. apply in_seq in Hj. apply Hn; lia. }
  assert (Back : forall counts t', length counts = nI s -> (forall i, (i < nI s)%nat -> length (nth i counts []) = nJ s) -> (forall i j, (i < nI s)%nat -> (j < nJ s)%nat -> t' i j = nth j (nth i counts []) 0%Z) -> table_rows s t' = counts).
  { intros counts t' HL HL' HV. apply (nth_ext _ _ [] []); [unfold table_rows; rewrite map_length, seq_length; auto|]. intros i Hi. unfold table_rows in Hi. rewrite map_length, seq_length in Hi. rewrite Row by exact Hi.
    apply (nth_ext _ _ 0%Z 0%Z); [rewrite map_length, seq_length; symmetry; apply HL'; exact Hi|]. intros j Hj. rewrite map_length, seq_length in Hj.
    rewrite (nth_indep _ 0%Z (t' i 0%nat)) by (rewrite map_length, seq_length; exact Hj). rewrite (map_nth (fun j => t' i j)), seq_nth by exact Hj. apply HV; assumption. }
  assert (Same : forall u v, table_rows s u = table_rows s v -> same_on s u v).
  { intros u v E i j Hi Hj. pose proof (Row u i Hi) as Ru. rewrite E, (Row v i Hi) in Ru. apply (f_equal (fun l => nth j l (v i 0%nat))) in Ru.
    rewrite (map_nth (fun j => v i j)) in Ru. rewrite (nth_indep _ _ (u i 0%nat)) in Ru by (rewrite map_length, seq_length; exact Hj). rewrite (map_nth (fun j => u i j)), seq_nth in Ru by exact Hj. symmetry. exact Ru. }
  assert (Rows_same : forall u v, same_on s u v -> table_rows s u = table_rows s v).
  { intros u v H. unfold table_rows. apply map_ext_in. intros i Hi. apply in_seq in Hi. apply map_ext_in. intros j Hj. apply in_seq in Hj. apply H; lia. }
  destruct (HLa t Ht) as [Hta Htn].
  assert (LR : forall u, length (table_rows s u) = nI s) by (intros u; unfold table_rows; rewrite map_length, seq_length; reflexivity).
  assert (Ends : forall counts, length counts = nI s -> (forall i, (i < nI s)%nat -> multinomial_draw (nth i (m A1) 0%Z) (nJ s) (nth i counts [])) ->
    exists t', direct_sampling_proposal c (AtProduct counts :: rest) = Ok (Some t') /\ table_admissible c t' = true /\ nonneg_on s t' /\ table_rows s t' = counts).
  { intros counts HL HD. destruct (C23_rows_no_fixed_cells_partial s truth m axes c counts rest W WT Hok H1 H0 HL HD) as [t' [D [V [_ [A N]]]]]. exists t'. split; [exact D|]. split; [exact A|]. split; [exact N|].
    apply Back; [exact HL| |exact V]. intros i Hi. destruct (HD i Hi) as [HX _]. exact HX. }
  split; [|split].
  - destruct (Ends (table_rows s t) (LR t) (Draw t Hta Htn)) as [t' [D [_ [_ E]]]]. exists t'. split; [exact D|]. apply Same. exact E.
  - intros counts t' HL HD D S. destruct (Ends counts HL HD) as [t'' [D' [_ [_ E]]]]. assert (t'' = t') by congruence. subst t''. rewrite <- E. apply Rows_same. exact S.
  - set (ms := map (fun i => Z.to_nat (nth i (m A1) 0%Z)) (seq 0 (nI s))).
    assert (Lm : length ms = nI s) by (unfold ms; rewrite map_length, seq_length; reflexivity).
    assert (Nm : forall i, (i < nI s)%nat -> nth i ms 0%nat = Z.to_nat (nth i (m A1) 0%Z)).
    { intros i Hi. unfold ms. rewrite (nth_indep _ 0%nat (Z.to_nat (nth 0 (m A1) 0%Z))) by (rewrite map_length, seq_length; exact Hi). rewrite (map_nth (fun i => Z.to_nat (nth i (m A1) 0%Z))), seq_nth by exact Hi. reflexivity. }
    assert (Pos : forall i, (i < nI s)%nat -> (0 <= nth i (m A1) 0)%Z).
    { intros i Hi. destruct (Draw t Hta Htn i Hi) as [_ [<- HP]]. apply lsum_nonneg. exact HP. }
    set (ws := fun i => map (fun j => exp (li i j)) (seq 0 (nJ s))).
    set (f := fun i (v : list Z) => lprod part (combine (ws i) v)).
    set (fs := map f (seq 0 (nI s))).
    assert (HT2 : forall u, In u L -> target s li u = lprod (fun fr => fst fr (snd fr)) (combine fs (table_rows s u))).
    { intros u Hu. destruct (HLa u Hu) as [_ Hn]. rewrite target_product, lprod_all_cells. unfold fs, table_rows. rewrite combine_map, lprod_map. apply lprod_ext. intros i Hi. apply in_seq in Hi. cbn [fst snd]. unfold f, ws.
      rewrite combine_map, lprod_map. apply lprod_ext. intros j Hj. apply in_seq in Hj. unfold part, cell_weight. cbn [fst snd]. rewrite exp_pow_nat, IZR_INR by (apply Hn; lia). reflexivity. }
    assert (HP : Permutation (map (table_rows s) L) (row_choices (nJ s) ms)).
    { apply NoDup_Permutation.
      - apply (map_NoDup_pairs _ _ _ _ L HLd). intros x y Hx Hy Hxy E. apply Hxy. apply Same. exact E.
      - apply row_choices_NoDup.
      - intros v. rewrite row_choices_in, Lm. split.
        + intros Hv. apply in_map_iff in Hv as [u [<- Hu]]. destruct (HLa u Hu) as [A B]. split; [apply LR|]. intros i Hi. rewrite Nm by exact Hi. rewrite Z2Nat.id by (apply Pos; exact Hi). apply Draw; assumption.
        + intros [Lv Hv]. destruct (Ends v Lv) as [t' [_ [A [B E]]]]; [intros i Hi; specialize (Hv i Hi); rewrite Nm, Z2Nat.id in Hv by (try apply Pos; exact Hi); exact Hv|].
          destruct (HLc t' A B) as [u [Hu S]]. apply in_map_iff. exists u. split; [|exact Hu]. rewrite <- E. symmetry. apply Rows_same. exact S. }
    assert (HSum : lsumf (target s li) L = lprod (fun i => lsumf (f i) (compositions (nJ s) (Z.to_nat (nth i (m A1) 0%Z)))) (seq 0 (nI s))).
    { rewrite (lsumf_ext _ _ _ L HT2). transitivity (lsumf (fun rs => lprod (fun fr => fst fr (snd fr)) (combine fs rs)) (row_choices (nJ s) ms)).
      - rewrite <- (lsumf_perm _ _ _ _ HP), lsumf_map. reflexivity.
      - rewrite row_choices_sum by (unfold fs; rewrite map_length, seq_length; auto). unfold fs, ms. rewrite combine_map, lprod_map. reflexivity. }
    assert (TS : 0 < lsumf (target s li) L) by (apply lsumf_pos; [intros ->; destruct Ht|intros; apply target_pos]).
    apply Rmult_eq_reg_r with (lsumf (target s li) L); [|lra]. transitivity (target s li t); [|field; lra].
    unfold product_draw_prob. rewrite Es, rprod_list, HSum, <- lprod_mult, (HT2 t Ht). unfold fs at 1. unfold table_rows at 2. rewrite combine_map, lprod_map. apply lprod_ext. intros i Hi. apply in_seq in Hi. cbn [fst snd].
    assert (Hi' : (i < nI s)%nat) by lia. rewrite EF, row_of_cells, ER, Row by exact Hi'.
    pose proof (multinomial_pmf_value li (fun i' _ => lse (nJ s) (fun j => li i' j)) (lse (nJ s) (fun j => li i j)) (map (fun j => (i, j)) (seq 0 (nJ s))) (Z.to_nat (nth i (m A1) 0%Z)) (map (fun j => t i j) (seq 0 (nJ s)))) as V.
    rewrite Z2Nat.id in V by (apply Pos; exact Hi'). rewrite map_length, seq_length in V. cbn zeta in V. rewrite map_map in V. unfold f at 1, ws. cbn [fst snd] in V.
    apply V.
    + intros k Hk. apply in_map_iff in Hk as [j [<- _]]. reflexivity.
    + pose proof (Draw t Hta Htn i Hi') as D. rewrite Row in D by exact Hi'. exact D.
Qed.
Print Assumptions C127_rows_partial.
