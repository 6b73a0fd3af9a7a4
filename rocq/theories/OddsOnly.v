(** C199: what the table samplers see of the intensity when margins are fixed. *)
From Coq Require Import List ZArith Lia Bool Arith Reals Lra.
From Verif Require Import Base RealBase Axes Tables TablesProps InitTables MarkovBasis MarkovBasisProps TableMCMC ProbUtils TableMCMCProps Kernels KernelsProps KernelsLimit SIM.
Import ListNotations.
Local Open Scope R_scope.

(** ---- Specification ------------------------------------------------------ *)

(** Two log intensities that differ by a row effect, a column effect and a
    constant. *)
Definition differ_by (li li' : mat) (a b : nat -> R) (g : R) : Prop := forall i j, li i j = li' i j + a i + b j + g.

(** The constraints of a table on [axes] fix the row totals, the column totals. *)
Definition rows_fixed (axes : list ax) : Prop := In A1 axes.
Definition columns_fixed (axes : list ax) : Prop := In A0 axes.

(** ---- Degree-higher steps -------------------------------------------------- *)

Lemma minor_odds_cross : forall li li' f, (forall c1 c2, log_odds_cross_ratio li c1 c2 = log_odds_cross_ratio li' c1 c2) -> minor_odds li f = minor_odds li' f.
Proof. intros li li' f H. unfold minor_odds. destruct (filter _ _) as [|x [|y [|]]]; try reflexivity. rewrite H. reflexivity. Qed.

Lemma higher_step_blind : forall mc li li' t d, mc_prop mc = DegreeHigher -> table_gibbs_step mc li t d = table_gibbs_step mc li' t d.
Proof. intros mc li li' t d H. unfold table_gibbs_step, log_acceptance. rewrite H. reflexivity. Qed.

Lemma higher_prob_cross : forall mc li li' t u, mc_prop mc = DegreeHigher ->
  (forall c1 c2, log_odds_cross_ratio li c1 c2 = log_odds_cross_ratio li' c1 c2) -> higher_prob mc li t u = higher_prob mc li' t u.
Proof.
  intros mc li li' t u Hp H. unfold higher_prob. apply rsum_ext. intros idx _. f_equal.
  assert (E : minor_values li (nth idx (mc_basis mc) []) t = minor_values li' (nth idx (mc_basis mc) []) t)
    by (unfold minor_values; rewrite (minor_odds_cross li li' _ H); reflexivity).
  rewrite E. apply lsumf_ext. intros xp _. do 2 f_equal. unfold step_hits. rewrite (higher_step_blind mc li li' t _ Hp). reflexivity.
Qed.

Lemma law_cross : forall mc li li' L t0 n u, mc_prop mc = DegreeHigher ->
  (forall c1 c2, log_odds_cross_ratio li c1 c2 = log_odds_cross_ratio li' c1 c2) -> law mc li L t0 n u = law mc li' L t0 n u.
Proof.
  intros mc li li' L t0 n u Hp H. revert u. induction n as [|n IH]; intros u; cbn [law]; [reflexivity|].
  apply lsumf_ext. intros t _. rewrite IH, (higher_prob_cross mc li li' t u Hp H). reflexivity.
Qed.

Lemma tc_cross : forall I J c T x al be c1 c2, log_odds_cross_ratio (tc_log_flow I J c T x al be) c1 c2 = log_odds_cross_ratio (fun i j => - be * c i j) c1 c2.
Proof. intros. unfold log_odds_cross_ratio, tc_log_flow. unfold log_utility at 1 3 5 7. ring. Qed.

Lemma pc_cross : forall I J O c T x al be c1 c2, log_odds_cross_ratio (pc_log_flow I J O c T x al be) c1 c2 = log_odds_cross_ratio (fun i j => - be * c i j) c1 c2.
Proof. intros. unfold log_odds_cross_ratio, pc_log_flow. unfold log_utility at 1 3 5 7. ring. Qed.

(** With both margins of the table fixed, the degree-higher sampler run at the
    intensities of either interaction model has, after any number of steps, the
    distribution it would have with the log intensity [- beta * cost]: attractions,
    alpha, origin demands and the grand total have no effect on it. *)
Theorem C199_only_costs_matter : forall s truth m axes fixed ct0 draws mc L t0 n u I J c T x al be O,
  build_ct s truth m axes fixed = Ok ct0 -> build_mcmc ct0 DegreeHigher draws = Ok mc ->
  law mc (tc_log_flow I J c T x al be) L t0 n u = law mc (fun i j => - be * c i j) L t0 n u /\
  law mc (pc_log_flow I J O c T x al be) L t0 n u = law mc (fun i j => - be * c i j) L t0 n u.
Proof.
  intros s truth m axes fixed ct0 draws mc L t0 n u I J c T x al be O Hb Hm.
  destruct (higher_basis _ _ _ _ _ _ _ _ Hb Hm) as [Hp _].
  split; apply law_cross; try exact Hp; [apply tc_cross|apply pc_cross].
Qed.
Print Assumptions C199_only_costs_matter.

(** The same for two intensities that differ by row and column effects, and for
    costs of the form [row effect + column effect], which have no effect at all. *)
Theorem C199_effects_cancel : forall s truth m axes fixed ct0 draws mc L t0 n u li li' a b g,
  build_ct s truth m axes fixed = Ok ct0 -> build_mcmc ct0 DegreeHigher draws = Ok mc -> differ_by li li' a b g ->
  law mc li L t0 n u = law mc li' L t0 n u.
Proof.
  intros s truth m axes fixed ct0 draws mc L t0 n u li li' a b g Hb Hm Hd.
  destruct (higher_basis _ _ _ _ _ _ _ _ Hb Hm) as [Hp _]. apply law_cross; [exact Hp|].
  intros c1 c2. unfold log_odds_cross_ratio. rewrite !Hd. ring.
Qed.
Print Assumptions C199_effects_cancel.

(** ---- Degree-one steps ----------------------------------------------------- *)

Lemma measure_shift : forall new prev li li' (d : mat) cells acc acc', (forall i j, li i j = li' i j + d i j) ->
  match log_target_measure_difference new prev li cells acc, log_target_measure_difference new prev li' cells acc' with
  | Ok r, Ok r' => r - acc = r' - acc' + lsumf (fun k => IZR (new (fst k) (snd k) - prev (fst k) (snd k)) * d (fst k) (snd k)) cells
  | Raise e, Raise e' => e = e'
  | _, _ => False
  end.
Proof.
  intros new prev li li' d cells. induction cells as [|[i j] cells IH]; intros acc acc' H; cbn [log_target_measure_difference lsumf fst snd]; [ring|].
  destruct (prev i j <? new i j)%Z; [|destruct (new i j <? prev i j)%Z; [destruct (1 <? Z.max (new i j) 1)%Z; [reflexivity|]|]].
  - pose proof (IH (acc + IZR (new i j - prev i j) * li i j - log_factorial_sum (Z.max (prev i j) 1) (Z.max (new i j) 1)) (acc' + IZR (new i j - prev i j) * li' i j - log_factorial_sum (Z.max (prev i j) 1) (Z.max (new i j) 1)) H) as G.
    destruct (log_target_measure_difference new prev li cells _), (log_target_measure_difference new prev li' cells _); try exact G. rewrite (H i j) in G; lra.
  - pose proof (IH (acc + IZR (new i j - prev i j) * li i j + log_factorial_sum (Z.max (new i j) 1) (Z.max (prev i j) 1)) (acc' + IZR (new i j - prev i j) * li' i j + log_factorial_sum (Z.max (new i j) 1) (Z.max (prev i j) 1)) H) as G.
    destruct (log_target_measure_difference new prev li cells _), (log_target_measure_difference new prev li' cells _); try exact G. rewrite (H i j) in G; lra.
  - pose proof (IH (acc + IZR (new i j - prev i j) * li i j) (acc' + IZR (new i j - prev i j) * li' i j) H) as G.
    destruct (log_target_measure_difference new prev li cells _), (log_target_measure_difference new prev li' cells _); try exact G. rewrite (H i j) in G; lra.
Qed.

Lemma lsumf_filter_zero : forall A (f : A -> R) p l, (forall x, p x = false -> f x = 0) -> lsumf f (filter p l) = lsumf f l.
Proof.
  intros A f p l H. induction l as [|x l IH]; cbn [filter lsumf]; [reflexivity|].
  destruct (p x) eqn:E; cbn [lsumf]; rewrite IH; [reflexivity|]. rewrite (H x E). ring.
Qed.

Lemma rsum_IZR : forall n f, rsum n (fun k => IZR (f k)) = IZR (zsum n f).
Proof. induction n as [|n IH]; intros f; cbn [rsum]; [reflexivity|]. rewrite zsum_S, IH, plus_IZR. reflexivity. Qed.

Lemma rsum_nil : forall n f, (forall k, (k < n)%nat -> f k = 0) -> rsum n f = 0.
Proof. induction n as [|n IH]; intros f H; cbn [rsum]; [reflexivity|]. rewrite IH by (intros; apply H; lia). rewrite H by lia. ring. Qed.

(** A move that keeps what is fixed is orthogonal to the effects. *)
Lemma move_orthogonal : forall s (h : nat -> nat -> Z) (a b : nat -> R) g,
  ((forall i, zsum (nJ s) (fun j => h i j) = 0%Z) \/ (forall i, a i = 0)) ->
  ((forall j, zsum (nI s) (fun i => h i j) = 0%Z) \/ (forall j, b j = 0)) ->
  zsum (nI s) (fun i => zsum (nJ s) (fun j => h i j)) = 0%Z ->
  rsum2 (nI s) (nJ s) (fun i j => IZR (h i j) * (a i + b j + g)) = 0.
Proof.
  intros s h a b g HA HB HT.
  rewrite (rsum2_ext _ _ _ (fun i j => (IZR (h i j) * a i + IZR (h i j) * b j) + IZR (h i j) * g)) by (intros; ring).
  rewrite !rsum2_add.
  assert (E1 : rsum2 (nI s) (nJ s) (fun i j => IZR (h i j) * a i) = 0).
  { unfold rsum2. apply rsum_nil. intros i _. destruct HA as [HA|HA].
    - rewrite (rsum_ext _ _ (fun j => a i * IZR (h i j))) by (intros; ring). rewrite rsum_scal, rsum_IZR, HA. ring.
    - apply rsum_nil. intros j _. rewrite HA. ring. }
  assert (E2 : rsum2 (nI s) (nJ s) (fun i j => IZR (h i j) * b j) = 0).
  { rewrite rsum2_swap. unfold rsum2. apply rsum_nil. intros j _. destruct HB as [HB|HB].
    - rewrite (rsum_ext _ _ (fun i => b j * IZR (h i j))) by (intros; ring). rewrite rsum_scal, rsum_IZR, HB. ring.
    - apply rsum_nil. intros i _. rewrite HB. ring. }
  assert (E3 : rsum2 (nI s) (nJ s) (fun i j => IZR (h i j) * g) = 0).
  { unfold rsum2. rewrite (rsum_ext _ _ (fun i => g * IZR (zsum (nJ s) (fun j => h i j)))).
    - rewrite rsum_scal, rsum_IZR, HT. ring.
    - intros i _. rewrite (rsum_ext _ _ (fun j => g * IZR (h i j))) by (intros; ring). rewrite rsum_scal, rsum_IZR. reflexivity. }
  rewrite E1, E2, E3. ring.
Qed.

Lemma one_term_effects : forall s truth m axes fixed ct0 draws fs f li li' a b g e t u,
  build_ct s truth m axes fixed = Ok ct0 -> generate_markov_basis ct0 draws = Ok fs -> In f fs -> differ_by li li' a b g ->
  (rows_fixed axes \/ forall i, a i = 0) -> (columns_fixed axes \/ forall j, b j = 0) ->
  one_term ct0 li f e t u = one_term ct0 li' f e t u.
Proof.
  intros s truth m axes fixed ct0 draws fs f li li' a b g e t u Hb Hg Hf Hd HA HB.
  destruct (C11_moves_preserve_constraints _ _ _ _ _ _ _ _ _ Hb Hg Hf) as [HR [HC [HT _]]].
  destruct (build_shape _ _ _ _ _ _ Hb) as [Es _]. unfold one_term, metropolis_log_acceptance. rewrite Es.
  pose proof (measure_shift (apply_move f e t) t li li' (fun i j => a i + b j + g) (cells_of_interest s (apply_move f e t) t) 0 0 ltac:(intros i j; cbv beta; rewrite (Hd i j); ring)) as M.
  assert (Z0 : lsumf (fun k => IZR (apply_move f e t (fst k) (snd k) - t (fst k) (snd k)) * ((fun i j => a i + b j + g) (fst k) (snd k))) (cells_of_interest s (apply_move f e t) t) = 0).
  { unfold cells_of_interest. rewrite lsumf_filter_zero.
    - rewrite (lsumf_all_cells (fun i j => IZR (apply_move f e t i j - t i j) * (a i + b j + g))).
      rewrite (rsum2_ext _ _ _ (fun i j => IZR (e * bf_value f (i, j)) * (a i + b j + g))).
      + apply (move_orthogonal s (fun i j => e * bf_value f (i, j))%Z a b g).
        * destruct HA as [HA|HA]; [left; intros i; rewrite zsum_mul, (HR HA); lia|right; exact HA].
        * destruct HB as [HB|HB]; [left; intros j; rewrite zsum_mul, (HC HB); lia|right; exact HB].
        * rewrite (zsum_ext _ _ (fun i => (e * zsum (nJ s) (fun j => bf_value f (i, j)))%Z)) by (intros; apply zsum_mul). rewrite zsum_mul, HT. lia.
      + intros i j _ _. rewrite apply_move_value. do 2 f_equal. lia.
    - intros k Hk. apply negb_false_iff, Z.eqb_eq in Hk. rewrite Hk, Z.sub_diag. ring. }
  cbv beta in M. cbv beta in Z0.
  destruct (log_target_measure_difference (apply_move f e t) t li _ 0) as [r|er], (log_target_measure_difference (apply_move f e t) t li' _ 0) as [r'|er']; try contradiction.
  - cbn [rbind]. assert (E : r = r') by lra. rewrite E. reflexivity.
  - reflexivity.
Qed.

(** The degree-one sampler: row effects in the intensity have no effect on any of
    its transition probabilities when the row totals are fixed, column effects when
    the column totals are, and constants never; so the same holds for the whole
    chain, and a step that fails, fails for both. *)
Theorem C199_degree_one_effects_cancel : forall s truth m axes fixed ct0 draws mc li li' a b g t u,
  build_ct s truth m axes fixed = Ok ct0 -> build_mcmc ct0 DegreeOne draws = Ok mc -> differ_by li li' a b g ->
  (rows_fixed axes \/ forall i, a i = 0) -> (columns_fixed axes \/ forall j, b j = 0) ->
  metropolis_prob mc li t u = metropolis_prob mc li' t u.
Proof.
  intros s truth m axes fixed ct0 draws mc li li' a b g t u Hb Hm Hd HA HB.
  assert (F : mc_ct mc = ct0 /\ generate_markov_basis ct0 draws = Ok (mc_basis mc)).
  { unfold build_mcmc in Hm. destruct (update_proposal_type ct0 DegreeOne) as [p|] eqn:Eu; [|discriminate]. cbn [rbind] in Hm.
    destruct (distribution_of ct0) as [d|] eqn:Ed; [|discriminate]. cbn [rbind] in Hm.
    assert (p = DegreeOne) by (unfold update_proposal_type in Eu; rewrite Ed in Eu; cbn in Eu; destruct d; congruence). subst p.
    destruct (generate_markov_basis ct0 draws) as [fs|] eqn:Eg; [|discriminate]. cbn in Hm. inversion Hm. split; reflexivity. }
  destruct F as [Hc Hg]. rewrite !metropolis_prob_terms, Hc. apply rsum_ext. intros idx Hi. f_equal.
  assert (Hf : In (nth idx (mc_basis mc) []) (mc_basis mc)) by (apply nth_In; exact Hi).
  rewrite !(one_term_effects s truth m axes fixed ct0 draws (mc_basis mc) _ li li' a b g _ t u Hb Hg Hf Hd HA HB). reflexivity.
Qed.
Print Assumptions C199_degree_one_effects_cancel.

(** In particular with the row totals fixed, the two interaction models give the
    same sampler at the same attractions, whatever the origin demands and the grand
    total; with both margins fixed, the attractions have no effect either. *)
Theorem C199_models_agree_given_rows : forall s truth m axes fixed ct0 draws mc t u I J c T T' x al be O,
  build_ct s truth m axes fixed = Ok ct0 -> build_mcmc ct0 DegreeOne draws = Ok mc -> rows_fixed axes ->
  metropolis_prob mc (pc_log_flow I J O c T x al be) t u = metropolis_prob mc (tc_log_flow I J c T' x al be) t u /\
  (columns_fixed axes -> metropolis_prob mc (tc_log_flow I J c T' x al be) t u = metropolis_prob mc (fun i j => - be * c i j) t u).
Proof.
  intros s truth m axes fixed ct0 draws mc t u I J c T T' x al be O Hb Hm HR. split.
  - apply (C199_degree_one_effects_cancel s truth m axes fixed ct0 draws mc _ _
      (fun i => ln (O i) - lse J (fun j' => log_utility c x al be i j')) (fun _ => 0) (lse2 I J (log_utility c x al be) + ln T - ln T') t u Hb Hm);
      [|left; exact HR|right; reflexivity].
    intros i j. unfold pc_log_flow, tc_log_flow. ring.
  - intros HC. apply (C199_degree_one_effects_cancel s truth m axes fixed ct0 draws mc _ _
      (fun _ => 0) (fun j => al * x j) (ln T' - lse2 I J (log_utility c x al be)) t u Hb Hm); [|left; exact HR|left; exact HC].
    intros i j. unfold tc_log_flow. unfold log_utility at 1. ring.
Qed.
Print Assumptions C199_models_agree_given_rows.

(** ---- Direct sampling ------------------------------------------------------ *)

(** Direct sampling with the row totals fixed (product multinomial): row effects
    cancel; with the grand total fixed (multinomial): constants cancel. *)
Theorem C199_direct_effects_cancel : forall (c : ct) li li' a g,
  (0 < nI (ct_shape c))%nat -> (0 < nJ (ct_shape c))%nat ->
  ((forall i j, li i j = li' i j + a i) -> forall counts, product_draw_prob c li counts = product_draw_prob c li' counts) /\
  ((forall i j, li i j = li' i j + g) -> forall vals, multinomial_draw_prob c li vals = multinomial_draw_prob c li' vals).
Proof.
  intros c li li' a g HI HJ. split; intros H.
  - intros counts. unfold product_draw_prob. rewrite !rprod_list. apply lprod_ext. intros i Hi. f_equal.
    unfold cell_probs. apply map_ext_in. intros [k l] Hk. cbn [fst snd].
    assert (E : lse (nJ (ct_shape c)) (fun j => li k j) = lse (nJ (ct_shape c)) (fun j => li' k j) + a k).
    { rewrite <- lse_shift by exact HJ. unfold lse. f_equal. apply rsum_ext. intros j _. rewrite H. reflexivity. }
    rewrite E, H. f_equal. ring.
  - intros vals. unfold multinomial_draw_prob. f_equal. unfold cell_probs. apply map_ext. intros [k l]. cbn [fst snd].
    assert (E : lse2 (nI (ct_shape c)) (nJ (ct_shape c)) li = lse2 (nI (ct_shape c)) (nJ (ct_shape c)) li' + g).
    { rewrite <- lse2_shift by assumption. unfold lse2. f_equal. apply rsum2_ext. intros i j _ _. rewrite H. reflexivity. }
    rewrite E, H. f_equal. ring.
Qed.
Print Assumptions C199_direct_effects_cancel.

(** ---- What is left open does matter ----------------------------------------- *)

(** The two-by-two table with unit margins: one step of the degree-higher sampler
    has the same law under two intensities in the range only if their cross
    differences agree. *)
Theorem C199_cross_differences_matter : forall ct0 mc li li', unit_ct = Ok ct0 -> build_mcmc ct0 DegreeHigher (fun n => n) = Ok mc ->
  odds_in_range (Shape 2 2) li -> odds_in_range (Shape 2 2) li' ->
  higher_prob mc li unit_diag unit_anti = higher_prob mc li' unit_diag unit_anti ->
  li 0%nat 0%nat + li 1%nat 1%nat - li 0%nat 1%nat - li 1%nat 0%nat = li' 0%nat 0%nat + li' 1%nat 1%nat - li' 0%nat 1%nat - li' 1%nat 0%nat.
Proof.
  intros ct0 mc li li' Hc Hm HR HR' E.
  pose proof (HR 0 0 1 1 ltac:(lia) ltac:(lia) ltac:(cbn; lia) ltac:(cbn; lia))%nat as B.
  pose proof (HR' 0 0 1 1 ltac:(lia) ltac:(lia) ltac:(cbn; lia) ltac:(cbn; lia))%nat as B'.
  set (d := li 0%nat 0%nat + li 1%nat 1%nat - li 0%nat 1%nat - li 1%nat 0%nat) in *.
  set (d' := li' 0%nat 0%nat + li' 1%nat 1%nat - li' 0%nat 1%nat - li' 1%nat 0%nat) in *.
  pose proof (exp_pos d) as P. pose proof (exp_pos d') as P'.
  destruct (unit_probs ct0 mc li Hc Hm) as [U _]; [fold d; rewrite (safe_cast_id _ B); exact P|].
  destruct (unit_probs ct0 mc li' Hc Hm) as [U' _]; [fold d'; rewrite (safe_cast_id _ B'); exact P'|].
  fold d in U. fold d' in U'. rewrite (safe_cast_id _ B) in U. rewrite (safe_cast_id _ B') in U'.
  rewrite U, U' in E. unfold Rdiv in E. rewrite !Rmult_1_l in E. apply exp_inv.
  apply (f_equal Rinv) in E. rewrite !Rinv_inv in E. lra.
Qed.
Print Assumptions C199_cross_differences_matter.

(** With only the row totals fixed the attractions do have an effect. *)
Theorem C199_attractions_matter_refuted : exists ct0 x x',
  build_ct (Shape 1 2) (fun _ _ => 1%Z) (axis_margin (Shape 1 2) (fun _ _ => 1%Z)) [A1] [] = Ok ct0 /\
  product_draw_prob ct0 (tc_log_flow 1 2 (fun _ _ => 0) 2 x 1 1) [[2; 0]%Z] <> product_draw_prob ct0 (tc_log_flow 1 2 (fun _ _ => 0) 2 x' 1 1) [[2; 0]%Z].
Proof.
  eexists. exists (fun _ => 0), (fun j => if Nat.eqb j 0 then ln 3 else 0). split; [reflexivity|].
  assert (G : forall ct0 x, build_ct (Shape 1 2) (fun _ _ => 1%Z) (axis_margin (Shape 1 2) (fun _ _ => 1%Z)) [A1] [] = Ok ct0 ->
    product_draw_prob ct0 (tc_log_flow 1 2 (fun _ _ => 0) 2 x 1 1) [[2; 0]%Z] = (exp (x 0%nat) / (exp (x 0%nat) + exp (x 1%nat))) ^ 2).
  { intros ct0 x Hb. injection Hb as E. symmetry in E.
    destruct (C199_direct_effects_cancel ct0 (tc_log_flow 1 2 (fun _ _ => 0) 2 x 1 1) (fun i j => x j) (fun _ => ln 2 - lse2 1 2 (log_utility (fun _ _ => 0) x 1 1)) 0) as [D _]; [subst ct0; cbn; lia|subst ct0; cbn; lia|].
    rewrite D by (intros i j; unfold tc_log_flow; unfold log_utility at 1; ring). clear D. subst ct0.
    unfold product_draw_prob. cbn [ct_shape nI nJ rprod]. 
    match goal with |- context [multinomial_pmf ?n _ _] => change n with 2%Z end.
    match goal with |- context [cell_probs _ _ ?l] => change l with [(0, 0); (0, 1)]%nat end.
    match goal with |- context [lse ?n _] => change n with 2%nat end.
    cbn [cell_probs map fst snd nth]. set (l := lse 2 _). unfold multinomial_pmf. change (Z.to_nat 2) with 2%nat.
    cbn [combine map fold_right fst snd Z.to_nat Pos.to_nat]. change (Pos.to_nat 2) with 2%nat. cbn [fact Nat.mul Nat.add INR pow].
    unfold Rminus. rewrite !exp_plus. pose proof (exp_pos (x 0%nat)). pose proof (exp_pos (x 1%nat)). pose proof (exp_pos (- l)). field. split; [lra|]. rewrite <- Rmult_plus_distr_r. apply Rgt_not_eq. apply Rmult_lt_0_compat; lra. }
  rewrite !G by reflexivity. cbn [Nat.eqb]. rewrite exp_0, exp_ln by lra. lra.
Qed.
Print Assumptions C199_attractions_matter_refuted.

Example C199_nonvacuous : exists ct0 mc, unit_ct = Ok ct0 /\ build_mcmc ct0 DegreeHigher (fun n => n) = Ok mc /\
  odds_in_range (Shape 2 2) (fun _ _ => 0) /\
  (exists ct1 mc1, pair_ct = Ok ct1 /\ build_mcmc ct1 DegreeOne (fun n => n) = Ok mc1 /\ rows_fixed [A1] /\ metropolis_prob mc1 (fun _ _ => 0) (pair_table 1 1) (pair_table 2 0) = 1 / 4).
Proof.
  eexists; eexists. split; [reflexivity|]. split; [reflexivity|]. split.
  - intros i j i' j' _ _ _ _. replace (0 + 0 - 0 - 0) with 0 by ring. rewrite exp_0. split; [|lra]. apply Rmult_le_reg_r with (10 ^ 6); [lra|]. rewrite Rinv_l by lra. lra.
  - eexists; eexists. split; [reflexivity|]. split; [reflexivity|]. split; [left; reflexivity|]. apply (pair_prob _ _ eq_refl eq_refl).
Qed.
