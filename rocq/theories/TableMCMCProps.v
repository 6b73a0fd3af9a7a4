(** Properties C16-C24: table proposals, acceptance and the table chain. *)
From Coq Require Import List ZArith Lia Bool Arith Reals Lra Permutation.
From Verif Require Import Base RealBase Axes Tables TablesProps InitTables InitTablesProps
  MarkovBasis MarkovBasisProps TableMCMC.
Import ListNotations.
Open Scope Z_scope.

(** ---- Admissibility is a function of the totals and the fixed cells ---- *)

Lemma caxes_nonempty_total : forall axes, In A01 (constrained_axes_2d axes) ->
  In A01 axes \/ In A0 axes \/ In A1 axes.
Proof. intros axes; apply C02_two_way_closure. Qed.

Lemma adm_same : forall s truth m axes fixed c t u,
  (forall a, length (m a) = axis_len s a) ->
  build_ct s truth m axes fixed = Ok c ->
  same_margins s axes t u -> (forall i j, In (i, j) fixed -> t i j = u i j) ->
  table_admissible c t = true -> table_admissible c u = true.
Proof.
  intros s truth m axes fixed c t u W Hok [HR [HC HT]] HF HA.
  destruct (build_shape _ _ _ _ _ _ Hok) as [Es [Et [Em [Ea Ef]]]].
  assert (W' : forall a, length (ct_margins c a) = axis_len (ct_shape c) a) by (rewrite Em, Es; exact W).
  rewrite C01_admissible_iff in * by exact W'. rewrite Es, Em, Ea, Ef, Et in *.
  destruct HA as [H1 [H0 [H01 HC']]].
  destruct (C02_two_way_closure axes) as [K0 [K1 _]].
  split; [|split; [|split]].
  - intros Ha i Hi. rewrite <- (H1 Ha i Hi). symmetry. apply HR; [apply K1; exact Ha|exact Hi].
  - intros Ha j Hj. rewrite <- (H0 Ha j Hj). symmetry. apply HC; [apply K0; exact Ha|exact Hj].
  - intros Ha. rewrite <- (H01 Ha). symmetry. exact HT.
  - intros i j Hin. rewrite <- (HC' i j Hin). symmetry. apply HF; exact Hin.
Qed.

Lemma apply_move_value : forall f eps t i j,
  apply_move f eps t i j = t i j + eps * bf_value f (i, j).
Proof.
  intros f eps t i j; unfold apply_move.
  destruct (cell_in (i, j) (map fst f)) eqn:E; [reflexivity|].
  assert (bf_value f (i, j) = 0) as ->; [|lia].
  apply cell_in_false in E. induction f as [|[k v] f IH]; [reflexivity|].
  cbn in *. rewrite cell_eqb_neq by (intros <-; tauto). apply IH; tauto.
Qed.

Lemma apply_move_margins : forall s axes f eps t,
  (In A1 axes -> forall i, zsum (nJ s) (fun j => bf_value f (i, j)) = 0) ->
  (In A0 axes -> forall j, zsum (nI s) (fun i => bf_value f (i, j)) = 0) ->
  zsum (nI s) (fun i => zsum (nJ s) (fun j => bf_value f (i, j))) = 0 ->
  same_margins s axes t (apply_move f eps t).
Proof.
  intros s axes f eps t HR HC HT.
  assert (R : forall i, row_sum s (apply_move f eps t) i
      = row_sum s t i + eps * zsum (nJ s) (fun j => bf_value f (i, j))).
  { intros i. unfold row_sum. rewrite <- zsum_mul, <- zsum_add. apply zsum_ext.
    intros j _. apply apply_move_value. }
  split; [|split].
  - intros Ha i Hi. rewrite R, (HR Ha). lia.
  - intros Ha j Hj.
    assert (C : col_sum s (apply_move f eps t) j
      = col_sum s t j + eps * zsum (nI s) (fun i => bf_value f (i, j))).
    { unfold col_sum. rewrite <- zsum_mul, <- zsum_add. apply zsum_ext.
      intros i _. apply apply_move_value. }
    rewrite C, (HC Ha). lia.
  - unfold total. rewrite (zsum_ext _ (fun i => row_sum s (apply_move f eps t) i) _ (fun k _ => R k)).
    rewrite zsum_add, zsum_mul, HT, Z.mul_0_r, Z.add_0_r. reflexivity.
Qed.

(** ---- C16 ---------------------------------------------------------------- *)

Theorem C16_markov_move_keeps_constraints : forall s truth m axes fixed c draws fs f eps t,
  (forall a, length (m a) = axis_len s a) ->
  build_ct s truth m axes fixed = Ok c ->
  generate_markov_basis c draws = Ok fs -> In f fs ->
  table_admissible c t = true ->
  let t' := apply_move f eps t in
  table_admissible c t' = true /\
  (forall i j, In (i, j) fixed -> t' i j = truth i j) /\
  (forall i j, t' i j = t i j + eps * bf_value f (i, j)) /\
  (forall i j, ~ In (i, j) (map fst f) -> t' i j = t i j).
Proof.
  intros s truth m axes fixed c draws fs f eps t W Hok Hgen Hf HA t'.
  destruct (C11_moves_preserve_constraints _ _ _ _ _ _ _ _ _ Hok Hgen Hf) as [HR [HC [HT [_ [HK _]]]]].
  assert (HN : forall i j, ~ In (i, j) (map fst f) -> t' i j = t i j).
  { intros i j Hn. unfold t', apply_move. apply cell_in_false in Hn; rewrite Hn; reflexivity. }
  assert (HFx : forall i j, In (i, j) fixed -> t' i j = t i j).
  { intros i j Hin. apply HN. intros Hk. apply in_map_iff in Hk as [[k v] [E Hk]]; cbn in E; subst.
    destruct (HK _ _ Hk) as [_ [_ [Hnf _]]]; contradiction. }
  assert (HA' : table_admissible c t' = true).
  { apply (adm_same s truth m axes fixed c t t' W Hok); [|intros; symmetry; apply HFx; assumption|exact HA].
    apply apply_move_margins; assumption. }
  split; [exact HA'|split; [|split; [intros; apply apply_move_value|exact HN]]].
  intros i j Hin. destruct (build_shape _ _ _ _ _ _ Hok) as [Es [Et [Em [Ea Ef]]]].
  apply C01_admissible_iff in HA'; [|rewrite Em, Es; exact W].
  destruct HA' as [_ [_ [_ HA']]]. rewrite Ef, Et in HA'. apply HA'; exact Hin.
Qed.
Print Assumptions C16_markov_move_keeps_constraints.

(** The degree-one proposal is one such move, of size one. *)
Theorem C16_degree_one_proposal : forall s truth m axes fixed c draws mc idx plus t t',
  (forall a, length (m a) = axis_len s a) ->
  build_ct s truth m axes fixed = Ok c ->
  build_mcmc c DegreeOne draws = Ok mc ->
  table_admissible c t = true ->
  degree_one_proposal mc idx plus t = Ok t' ->
  table_admissible c t' = true /\
  exists f, generate_markov_basis c draws = Ok (mc_basis mc) /\ In f (mc_basis mc) /\
    forall i j, t' i j = t i j + (if plus then 1 else -1) * bf_value f (i, j).
Proof.
  intros s truth m axes fixed c draws mc idx plus t t' W Hok Hmc HA HP.
  unfold build_mcmc in Hmc.
  destruct (update_proposal_type c DegreeOne) as [p|] eqn:Eu; [|discriminate]. cbn [rbind] in Hmc.
  destruct (distribution_of c) as [d|] eqn:Ed; [|discriminate]. cbn [rbind] in Hmc.
  assert (p = DegreeOne) by (unfold update_proposal_type in Eu; rewrite Ed in Eu; cbn in Eu;
    destruct d; congruence). subst p.
  destruct (generate_markov_basis c draws) as [fs|] eqn:Eg; [|discriminate]. cbn in Hmc.
  inversion Hmc; subst mc; clear Hmc. cbn [mc_basis].
  unfold degree_one_proposal in HP; cbn [mc_basis] in HP.
  destruct fs as [|f0 fs]; [discriminate|]. cbn [pick_basis rbind] in HP.
  set (f := nth (Nat.modulo idx (length (f0 :: fs))) (f0 :: fs) f0) in *.
  assert (Hf : In f (f0 :: fs)) by (apply nth_In, Nat.mod_upper_bound; cbn; lia).
  inversion HP; subst t'; clear HP.
  destruct (C16_markov_move_keeps_constraints s truth m axes fixed c draws (f0 :: fs) f
     (if plus then 1 else -1) t W Hok Eg Hf HA) as [H1 [_ [H2 _]]].
  split; [exact H1|]. exists f. split; [reflexivity|split; [exact Hf|exact H2]].
Qed.
Print Assumptions C16_degree_one_proposal.

Definition ex_free_ct (axes : list ax) (fixed : list cell) : res ct :=
  build_ct (Shape 2 3) ex_table ex_margins axes fixed.

Example C16_nonvacuous : exists c mc t',
  ex_free_ct [A0; A1] [] = Ok c /\ build_mcmc c DegreeOne (fun n => n) = Ok mc /\
  table_admissible c ex_table = true /\
  degree_one_proposal mc 0 true ex_table = Ok t' /\ t' 0%nat 0%nat = 2.
Proof.
  eexists; eexists; eexists. split; [reflexivity|]. split; [reflexivity|].
  split; [reflexivity|]. split; reflexivity.
Qed.

(** ---- Fisher sampler: shape of its moves ---------------------------------- *)

Lemma cell_sort_square : forall i j i' j', (i < i')%nat -> (j < j')%nat ->
  cell_sort (map fst (square_move (i, j) (i', j'))) = [(i, j); (i, j'); (i', j); (i', j')].
Proof.
  intros i j i' j' Hi Hj. unfold square_move, cell_sort. cbn [map fst snd fold_right].
  assert (L1 : forall a b b', (b <= b')%nat -> cell_leb (a, b) (a, b') = true).
  { intros; unfold cell_leb; cbn [fst snd]. rewrite Nat.eqb_refl. assert ((b <=? b')%nat = true) as -> by (apply Nat.leb_le; lia).
    apply orb_true_r. }
  assert (L2 : forall a b b', (b' < b)%nat -> cell_leb (a, b) (a, b') = false).
  { intros; unfold cell_leb; cbn [fst snd]. rewrite Nat.eqb_refl, Nat.ltb_irrefl.
    assert ((b <=? b')%nat = false) as -> by (apply Nat.leb_gt; lia). reflexivity. }
  assert (L3 : forall a a' b b', (a < a')%nat -> cell_leb (a, b) (a', b') = true).
  { intros; unfold cell_leb; cbn [fst snd]. assert ((a <? a')%nat = true) as -> by (apply Nat.ltb_lt; lia). reflexivity. }
  assert (L4 : forall a a' b b', (a' < a)%nat -> cell_leb (a, b) (a', b') = false).
  { intros; unfold cell_leb; cbn [fst snd]. assert ((a <? a')%nat = false) as -> by (apply Nat.ltb_ge; lia).
    assert (Nat.eqb a a' = false) as -> by (apply Nat.eqb_neq; lia). reflexivity. }
  cbn [cell_insert]. rewrite (L3 i i' j' j Hi). cbn [cell_insert].
  rewrite (L4 i' i j' j' Hi), (L2 i' j' j Hj). cbn [cell_insert].
  rewrite (L1 i j j') by lia. reflexivity.
Qed.

Lemma minor_eq : forall i j i' j' v t, (i < i')%nat -> (j < j')%nat ->
  exists t', degree_higher_minor (square_move (i, j) (i', j')) v t = Ok t' /\
  let x := match v with Some v => v | None => 0 end in
  t' i j = x /\ t' i j' = t i j + t i j' - x /\ t' i' j = t i j + t i' j - x /\
  t' i' j' = t i' j' - t i j + x /\
  (forall a b, (a <> i /\ a <> i') \/ (b <> j /\ b <> j') -> t' a b = t a b) /\
  (forall a b, t' a b = t a b + (x - t i j) * bf_value (square_move (i, j) (i', j')) (a, b)).
Proof.
  intros i j i' j' v t Hi Hj. unfold degree_higher_minor. rewrite cell_sort_square by assumption.
  eexists; split; [reflexivity|]. cbv zeta. set (x := match v with Some v => v | None => 0 end).
  cbn [map fst snd]. rewrite !lsum_cons, lsum_nil.
  unfold set_cell, cell_eqb; cbn [fst snd].
  assert (N1 : Nat.eqb i i' = false) by (apply Nat.eqb_neq; lia).
  assert (N2 : Nat.eqb j j' = false) by (apply Nat.eqb_neq; lia).
  assert (N3 : Nat.eqb i' i = false) by (apply Nat.eqb_neq; lia).
  assert (N4 : Nat.eqb j' j = false) by (apply Nat.eqb_neq; lia).
  rewrite !Nat.eqb_refl, ?N1, ?N2, ?N3, ?N4. cbn [andb].
  split; [reflexivity|]. split; [reflexivity|]. split; [reflexivity|]. split; [lia|]. split.
  - intros a b Hab.
    destruct (Nat.eqb_spec a i'), (Nat.eqb_spec b j'), (Nat.eqb_spec a i), (Nat.eqb_spec b j); cbn [andb];
      try reflexivity; lia.
  - intros a b. rewrite square_value by (cbn; lia). cbn [fst snd]. unfold dl, cell_eqb; cbn [fst snd].
    destruct (Nat.eqb_spec a i'), (Nat.eqb_spec b j'), (Nat.eqb_spec a i), (Nat.eqb_spec b j);
      subst; cbn [andb]; try lia.
Qed.

(** Every basis function of a doubly constrained sampler is a minor. *)
Lemma higher_basis : forall s truth m axes fixed c draws mc,
  build_ct s truth m axes fixed = Ok c ->
  build_mcmc c DegreeHigher draws = Ok mc ->
  mc_prop mc = DegreeHigher /\ mc_ct mc = c /\ generate_markov_basis c draws = Ok (mc_basis mc) /\
  In A0 axes /\ In A1 axes.
Proof.
  intros s truth m axes fixed c draws mc Hok Hmc. unfold build_mcmc in Hmc.
  destruct (update_proposal_type c DegreeHigher) as [p|] eqn:Eu; [|discriminate]. cbn [rbind] in Hmc.
  destruct (distribution_of c) as [d|] eqn:Ed; [|discriminate]. cbn [rbind] in Hmc.
  assert (p = DegreeHigher) by (unfold update_proposal_type in Eu; rewrite Ed in Eu; cbn in Eu;
    destruct d; congruence). subst p.
  destruct d; try discriminate.
  destruct (generate_markov_basis c draws) as [fs|] eqn:Eg; [|discriminate]. cbn in Hmc.
  inversion Hmc; subst mc; clear Hmc. cbn. repeat (split; [reflexivity|]).
  unfold distribution_of in Ed. destruct (build_shape _ _ _ _ _ _ Hok) as [_ [_ [_ [E _]]]].
  rewrite E, constrained_axes_2d_eq in Ed. rewrite <- !ax_in_spec.
  destruct (ax_in A0 axes), (ax_in A1 axes), (ax_in A01 axes); cbn in Ed; try discriminate; auto.
Qed.

Lemma higher_move : forall s truth m axes fixed c draws mc idx v t t',
  build_ct s truth m axes fixed = Ok c ->
  build_mcmc c DegreeHigher draws = Ok mc ->
  degree_higher_proposal mc idx v t = Ok t' ->
  exists i j i' j', (i < i')%nat /\ (j < j')%nat /\ (i' < nI s)%nat /\ (j' < nJ s)%nat /\
    In (square_move (i, j) (i', j')) (mc_basis mc) /\
    degree_higher_minor (square_move (i, j) (i', j')) v t = Ok t'.
Proof.
  intros s truth m axes fixed c draws mc idx v t t' Hok Hmc HP.
  destruct (higher_basis _ _ _ _ _ _ _ _ Hok Hmc) as [_ [_ [Hg [H0 H1]]]].
  assert (Hb : ax_in A0 axes && ax_in A1 axes = true) by (rewrite andb_true_iff, !ax_in_spec; tauto).
  assert (Hax : ax_in A0 axes || ax_in A1 axes = true) by (rewrite orb_true_iff, !ax_in_spec; tauto).
  destruct (generate_both s truth m axes fixed c Hok Hax Hb draws) as [fs' [E HF]].
  rewrite Hg in E; inversion E; subst fs'; clear E.
  unfold degree_higher_proposal in HP. destruct (mc_basis mc) as [|f0 fs] eqn:Eb; [discriminate|].
  cbn [pick_basis rbind] in HP.
  set (f := nth (Nat.modulo idx (length (f0 :: fs))) (f0 :: fs) f0) in *.
  assert (Hf : In f (f0 :: fs)) by (apply nth_In, Nat.mod_upper_bound; cbn; lia).
  destruct (HF f Hf) as [[i j] [[i' j'] [Ef [_ [[[HI HJ] _] [_ [_ [L1 L2]]]]]]]].
  cbn [fst snd] in *. exists i, j, i', j'. rewrite <- Ef. repeat split; assumption.
Qed.

(** ---- C17 ---------------------------------------------------------------- *)

Theorem C17_degree_higher_proposal : forall s truth m axes fixed c draws mc idx v t t',
  (forall a, length (m a) = axis_len s a) ->
  build_ct s truth m axes fixed = Ok c ->
  build_mcmc c DegreeHigher draws = Ok mc ->
  degree_higher_proposal mc idx v t = Ok t' ->
  (forall i, (i < nI s)%nat -> zsum (nJ s) (fun j => t' i j) = zsum (nJ s) (fun j => t i j)) /\
  (forall j, (j < nJ s)%nat -> zsum (nI s) (fun i => t' i j) = zsum (nI s) (fun i => t i j)) /\
  (forall i j, In (i, j) fixed -> t' i j = t i j) /\
  exists i j i' j', (i < i')%nat /\ (j < j')%nat /\ (i' < nI s)%nat /\ (j' < nJ s)%nat /\
    (forall a b, (a <> i /\ a <> i') \/ (b <> j /\ b <> j') -> t' a b = t a b) /\
    (* n, N, M of the hypergeometric that is drawn from *)
    let n := t i j + t i j' in
    let N := t i j + t i' j in
    let M := t i j + t i j' + t i' j + t i' j' in
    (forall x, v = Some x -> Z.max 0 (n + N - M) <= x <= Z.min n N ->
       0 <= t' i j /\ 0 <= t' i j' /\ 0 <= t' i' j /\ 0 <= t' i' j') /\
    (v = None -> nonneg_on s t ->
       (0 <= t' i j /\ 0 <= t' i j' /\ 0 <= t' i' j /\ 0 <= t' i' j' <-> t i j <= t i' j')).
Proof.
  intros s truth m axes fixed c draws mc idx v t t' W Hok Hmc HP.
  destruct (higher_basis _ _ _ _ _ _ _ _ Hok Hmc) as [_ [_ [Hg [H0 H1]]]].
  destruct (higher_move _ _ _ _ _ _ _ _ _ _ _ _ Hok Hmc HP)
    as [i [j [i' [j' [L1 [L2 [HI [HJ [Hf HM]]]]]]]]].
  destruct (minor_eq i j i' j' v t L1 L2) as [u [Eu [V1 [V2 [V3 [V4 [V5 V6]]]]]]].
  rewrite HM in Eu; inversion Eu; subst u; clear Eu.
  destruct (C11_moves_preserve_constraints _ _ _ _ _ _ _ _ _ Hok Hg Hf) as [HR [HC [HT [_ [HK _]]]]].
  split; [|split; [|split]].
  - intros a Ha. rewrite (zsum_ext _ _ _ (fun b _ => V6 a b)), zsum_add, zsum_mul, (HR H1 a), Z.mul_0_r, Z.add_0_r. reflexivity.
  - intros b Hb. rewrite (zsum_ext _ _ _ (fun a _ => V6 a b)), zsum_add, zsum_mul, (HC H0 b), Z.mul_0_r, Z.add_0_r. reflexivity.
  - intros a b Hin. rewrite V6.
    assert (bf_value (square_move (i, j) (i', j')) (a, b) = 0) as ->; [|rewrite Z.mul_0_r, Z.add_0_r; reflexivity].
    assert (Hn : ~ In (a, b) (map fst (square_move (i, j) (i', j')))).
    { intros Hk. apply in_map_iff in Hk as [[k x] [E Hk]]; cbn in E; subst.
      destruct (HK _ _ Hk) as [_ [_ [Hnf _]]]; contradiction. }
    cbn in Hn. unfold square_move; cbn [bf_value fst snd].
    rewrite !cell_eqb_neq by (intros E; rewrite E in Hn; tauto). reflexivity.
  - exists i, j, i', j'. split; [exact L1|]. split; [exact L2|]. split; [exact HI|]. split; [exact HJ|].
    split; [exact V5|]. intros n N M. subst n N M. split.
    + intros x -> Hx. lia.
    + intros -> Ht. rewrite V1, V2, V3, V4.
      pose proof (Ht i j ltac:(lia) ltac:(lia)). pose proof (Ht i j' ltac:(lia) ltac:(lia)).
      pose proof (Ht i' j ltac:(lia) ltac:(lia)). lia.
Qed.
Print Assumptions C17_degree_higher_proposal.

(** The fall-back value 0 used when the draw fails can make a cell negative,
    and the Gibbs acceptance of this proposal always accepts it. *)
Theorem C17_fallback_refuted : exists s truth m axes c mc t u,
  build_ct s truth m axes [] = Ok c /\ build_mcmc c DegreeHigher (fun n => n) = Ok mc /\
  table_admissible c t = true /\ table_nonnegative s t = true /\
  table_gibbs_step mc (fun _ _ => 0%R) t (Draw 0 true None [] None) = Ok (Some (u, 1)) /\
  table_nonnegative s u = false.
Proof.
  set (t := fun i j => if Nat.eqb i 0 && Nat.eqb j 0 then 1 else 0 : Z).
  destruct (build_ct (Shape 2 2) t (axis_margin (Shape 2 2) t) [A0; A1] []) as [c|] eqn:Ec; [|discriminate].
  destruct (build_mcmc c DegreeHigher (fun n => n)) as [mc|] eqn:Em.
  2:{ vm_compute in Ec. inversion Ec; subst c. vm_compute in Em. discriminate. }
  exists (Shape 2 2), t, (axis_margin (Shape 2 2) t), [A0; A1], c, mc, t.
  destruct (higher_basis _ _ _ _ _ _ _ _ Ec Em) as [Hp [Hc [Hg _]]].
  assert (Hb : mc_basis mc = [square_move (0, 0)%nat (1, 1)%nat]).
  { clear -Ec Hg. inversion Ec; subst c. vm_compute in Hg. injection Hg as Hg. symmetry; exact Hg. }
  destruct (minor_eq 0 0 1 1 None t ltac:(lia) ltac:(lia)) as [u [Eu [V1 [V2 [V3 [V4 _]]]]]].
  exists u. split; [exact Ec|]. split; [exact Em|].
  split; [inversion Ec; reflexivity|]. split; [reflexivity|]. split.
  - unfold table_gibbs_step, propose, log_acceptance. rewrite Hp. unfold degree_higher_proposal. rewrite Hb.
    cbn [pick_basis length Nat.modulo Nat.divmod snd Nat.sub nth rbind d_val d_idx]. rewrite Eu. cbn [rbind d_logu].
    unfold accepts, Rleb. destruct (Rle_dec 0 0); [reflexivity|lra].
  - destruct (table_nonnegative (Shape 2 2) u) eqn:E; [|reflexivity].
    rewrite table_nonnegative_iff in E. specialize (E 1%nat 1%nat). cbn in E. rewrite V4 in E. cbn in E. lia.
Qed.
Print Assumptions C17_fallback_refuted.

Example C17_nonvacuous : exists c mc t',
  ex_free_ct [A0; A1] [] = Ok c /\ build_mcmc c DegreeHigher (fun n => n) = Ok mc /\
  degree_higher_proposal mc 0 (Some 2) ex_table = Ok t' /\
  Z.max 0 (4 + 3 - 10) <= 2 <= Z.min 4 3 /\ t' 0%nat 0%nat = 2 /\ t' 1%nat 1%nat = 5.
Proof.
  eexists; eexists; eexists. split; [reflexivity|]. split; [reflexivity|].
  split; [reflexivity|]. split; [lia|]. split; reflexivity.
Qed.

(** ---- C18 ---------------------------------------------------------------- *)

Lemma direct_adm : forall c at_ t, direct_sampling_proposal c at_ = Ok (Some t) -> table_admissible c t = true.
Proof.
  intros c at_; induction at_ as [|a at_ IH]; intros t H; [discriminate|].
  cbn in H. destruct (direct_attempt c a) as [u|]; [|discriminate]. cbn in H.
  destruct (table_admissible c u) eqn:E; [inversion H; subst; exact E|apply IH; exact H].
Qed.

Lemma mcmc_cases : forall c p draws mc, build_mcmc c p draws = Ok mc ->
  mc_ct mc = c /\
  match mc_prop mc with
  | DirectSampling => True
  | DegreeOne => p = DegreeOne /\ generate_markov_basis c draws = Ok (mc_basis mc)
  | DegreeHigher => build_mcmc c DegreeHigher draws = Ok mc
  end.
Proof.
  intros c p draws mc Hmc. unfold build_mcmc in *.
  destruct (update_proposal_type c p) as [q|] eqn:Eu; [|discriminate]. cbn [rbind] in Hmc.
  destruct (distribution_of c) as [d|] eqn:Ed; [|discriminate]. cbn [rbind] in Hmc.
  destruct q.
  - inversion Hmc; subst; cbn; auto.
  - destruct (generate_markov_basis c draws) as [fs|] eqn:Eg; [|discriminate]. cbn in Hmc.
    inversion Hmc; subst; cbn. split; [reflexivity|]. split; [|reflexivity].
    unfold update_proposal_type in Eu; rewrite Ed in Eu; cbn in Eu.
    destruct d, p, (ct_fixed c); congruence.
  - destruct d; try discriminate.
    destruct (generate_markov_basis c draws) as [fs|] eqn:Eg; [|discriminate]. cbn in Hmc.
    inversion Hmc; subst; cbn. split; [reflexivity|].
    unfold update_proposal_type. rewrite Ed. reflexivity.
Qed.

Lemma step_adm : forall s truth m axes fixed c p draws mc li t d u acc,
  (forall a, length (m a) = axis_len s a) ->
  build_ct s truth m axes fixed = Ok c -> build_mcmc c p draws = Ok mc ->
  table_admissible c t = true ->
  table_gibbs_step mc li t d = Ok (Some (u, acc)) -> table_admissible c u = true.
Proof.
  intros s truth m axes fixed c p draws mc li t d u acc W Hok Hmc HA HS.
  destruct (mcmc_cases _ _ _ _ Hmc) as [Hc Hcase].
  unfold table_gibbs_step in HS.
  destruct (propose mc t d) as [[new|]|] eqn:Ep; cbn [rbind] in HS; try discriminate.
  destruct (log_acceptance mc new t li) as [la|]; [|discriminate]. cbn [rbind] in HS.
  assert (HN : table_admissible c new = true).
  { unfold propose in Ep. destruct (mc_prop mc) eqn:Epr.
    - rewrite Hc in Ep. apply (direct_adm _ _ _ Ep).
    - destruct Hcase as [-> Hg].
      destruct (degree_one_proposal mc (d_idx d) (d_plus d) t) as [w|] eqn:E1; [|discriminate].
      cbn in Ep; inversion Ep; subst w.
      destruct (C16_degree_one_proposal _ _ _ _ _ _ _ _ _ _ _ _ W Hok Hmc HA E1) as [H _]; exact H.
    - destruct (degree_higher_proposal mc (d_idx d) (d_val d) t) as [w|] eqn:E1; [|discriminate].
      cbn in Ep; inversion Ep; subst w.
      destruct (C17_degree_higher_proposal _ _ _ _ _ _ _ _ _ _ _ _ W Hok Hcase E1) as [HR [HC [HF _]]].
      apply (adm_same s truth m axes fixed c t new W Hok); [|intros; symmetry; apply HF; assumption|exact HA].
      split; [|split].
      + intros _ i Hi; symmetry; apply HR; exact Hi.
      + intros _ j Hj; symmetry; apply HC; exact Hj.
      + unfold total; apply zsum_ext; intros i Hi; symmetry; apply HR; exact Hi. }
  inversion HS as [E]. destruct (accepts la (d_logu d)); inversion E; subst; assumption.
Qed.

Theorem C18_chain_stays_admissible : forall s truth m axes fixed c p draws mc t u,
  (forall a, length (m a) = axis_len s a) ->
  build_ct s truth m axes fixed = Ok c -> build_mcmc c p draws = Ok mc ->
  table_admissible c t = true -> reaches mc t u ->
  table_admissible c u = true /\ (forall i j, In (i, j) fixed -> u i j = truth i j).
Proof.
  intros s truth m axes fixed c p draws mc t u W Hok Hmc HA HR.
  assert (HU : table_admissible c u = true).
  { induction HR as [t|t u v li d acc HR IH HS]; [exact HA|].
    apply (step_adm s truth m axes fixed c p draws mc li u d v acc W Hok Hmc (IH HA) HS). }
  split; [exact HU|].
  destruct (build_shape _ _ _ _ _ _ Hok) as [Es [Et [Em [Ea Ef]]]].
  apply C01_admissible_iff in HU; [|rewrite Em, Es; exact W].
  destruct HU as [_ [_ [_ HU]]]. rewrite Ef, Et in HU. exact HU.
Qed.
Print Assumptions C18_chain_stays_admissible.

Definition five : table := fun _ _ => 5.

Example C18_nonvacuous : exists c mc u,
  build_ct (Shape 3 3) five (axis_margin (Shape 3 3) five) [A0; A1] [(2, 2)%nat] = Ok c /\
  build_mcmc c DirectSampling (fun n => n) = Ok mc /\
  table_admissible c five = true /\ reaches mc five u /\ u 0%nat 0%nat = 2 /\ u 2%nat 2%nat = 5.
Proof.
  destruct (build_ct (Shape 3 3) five (axis_margin (Shape 3 3) five) [A0; A1] [(2, 2)%nat]) as [c|] eqn:Ec;
    [|exfalso; vm_compute in Ec; discriminate].
  destruct (build_mcmc c DirectSampling (fun n => n)) as [mc|] eqn:Em.
  2:{ inversion Ec; subst c. vm_compute in Em. discriminate. }
  assert (Hb : exists l, mc_basis mc = square_move (0, 0)%nat (1, 1)%nat :: l /\ length l = 2%nat /\ mc_prop mc = DegreeHigher).
  { inversion Ec; subst c. vm_compute in Em. inversion Em. eexists; repeat split. }
  destruct Hb as [l [Hb [Hl Hp]]].
  destruct (minor_eq 0 0 1 1 (Some 2) five ltac:(lia) ltac:(lia)) as [u [Eu [V1 [_ [_ [_ [V5 _]]]]]]].
  exists c, mc, u. split; [reflexivity|]. split; [exact Em|].
  split; [inversion Ec; reflexivity|]. split; [|split; [exact V1|rewrite V5 by lia; reflexivity]].
  apply (reach_step mc five five u (fun _ _ => 0%R) (Draw 0 true (Some 2) [] None) 1); [constructor|].
  unfold table_gibbs_step, propose, log_acceptance. rewrite Hp. unfold degree_higher_proposal. rewrite Hb.
  cbn [pick_basis length rbind d_val d_idx]. rewrite Hl.
  cbn [Nat.modulo Nat.divmod snd Nat.sub nth rbind]. rewrite Eu. cbn [rbind d_logu].
  unfold accepts, Rleb. destruct (Rle_dec 0 0); [reflexivity|lra].
Qed.

(** ---- C19 ---------------------------------------------------------------- *)

Lemma zrange_in : forall a b n, In n (zrange a b) <-> a <= n < b.
Proof.
  intros a b n; unfold zrange; rewrite in_map_iff; split.
  - intros [k [<- Hk]]. apply in_seq in Hk. lia.
  - intros H. exists (Z.to_nat (n - a)). split; [lia|apply in_seq; lia].
Qed.

Theorem C19_step_size_support_exact : forall t f k0 k1 k2 k3 e n,
  (e = 1 \/ e = -1) ->
  bf_value f k0 = e -> bf_value f k1 = - e -> bf_value f k2 = - e -> bf_value f k3 = e ->
  (In n (get_table_step_size_support t f k0 k1 k2 k3) <->
   forall k, In k [k0; k1; k2; k3] -> 0 <= t (fst k) (snd k) + n * bf_value f k).
Proof.
  intros t f k0 k1 k2 k3 e n He V0 V1 V2 V3.
  unfold get_table_step_size_support, step_size_support. rewrite V0.
  assert (E : (forall k, In k [k0; k1; k2; k3] -> 0 <= t (fst k) (snd k) + n * bf_value f k) <->
    0 <= t (fst k0) (snd k0) + n * e /\ 0 <= t (fst k1) (snd k1) - n * e /\
    0 <= t (fst k2) (snd k2) - n * e /\ 0 <= t (fst k3) (snd k3) + n * e).
  { split.
    - intros H. pose proof (H k0). pose proof (H k1). pose proof (H k2). pose proof (H k3).
      cbn [In] in *. rewrite V0 in *; rewrite V1 in *; rewrite V2 in *; rewrite V3 in *.
      specialize (H0 ltac:(tauto)); specialize (H1 ltac:(tauto)); specialize (H2 ltac:(tauto)); specialize (H3 ltac:(tauto)).
      lia.
    - intros [H0 [H1 [H2 H3]]] k [<-|[<-|[<-|[<-|[]]]]]; rewrite ?V0, ?V1, ?V2, ?V3; lia. }
  rewrite E. destruct He as [-> | ->]; cbn [Z.ltb Z.compare]; rewrite zrange_in; lia.
Qed.
Print Assumptions C19_step_size_support_exact.

(** For the minors of a generated basis: exactly the steps that keep the whole
    table non-negative. *)
Theorem C19_support_keeps_table_nonnegative : forall s truth m axes fixed c draws fs f t n,
  build_ct s truth m axes fixed = Ok c -> In A0 axes -> In A1 axes ->
  generate_markov_basis c draws = Ok fs -> In f fs -> nonneg_on s t ->
  exists k0 k1 k2 k3, cell_sort (map fst f) = [k0; k1; k2; k3] /\
  (In n (get_table_step_size_support t f k0 k1 k2 k3) <-> nonneg_on s (apply_move f n t)).
Proof.
  intros s truth m axes fixed c draws fs f t n Hok H0 H1 Hgen Hf Ht.
  assert (Hb : ax_in A0 axes && ax_in A1 axes = true) by (rewrite andb_true_iff, !ax_in_spec; tauto).
  assert (Hax : ax_in A0 axes || ax_in A1 axes = true) by (rewrite orb_true_iff, !ax_in_spec; tauto).
  destruct (generate_both s truth m axes fixed c Hok Hax Hb draws) as [fs' [E HF]].
  rewrite Hgen in E; inversion E; subst fs'; clear E.
  destruct (HF f Hf) as [[i j] [[i' j'] [-> [_ [[[HI HJ] _] [_ [_ [L1 L2]]]]]]]].
  cbn [fst snd] in *.
  exists (i, j), (i, j'), (i', j), (i', j'). split; [apply cell_sort_square; assumption|].
  pose proof (square_value (i, j) (i', j') ltac:(cbn; lia) ltac:(cbn; lia)) as V.
  rewrite (C19_step_size_support_exact t _ _ _ _ _ 1 n (or_introl eq_refl));
    try (rewrite V; unfold dl, cell_eqb; cbn [fst snd];
         repeat match goal with |- context [Nat.eqb ?x ?y] => destruct (Nat.eqb_spec x y); try lia end; reflexivity).
  split.
  - intros H a b Ha Hb'. rewrite apply_move_value.
    destruct (in_dec (fun x y : cell => ltac:(repeat decide equality)) (a, b) [(i, j); (i, j'); (i', j); (i', j')]) as [Hin|Hn].
    + apply (H (a, b) Hin).
    + assert (bf_value (square_move (i, j) (i', j')) (a, b) = 0) as ->; [|specialize (Ht a b Ha Hb'); lia].
      rewrite V. cbn [fst snd]. cbn [In] in Hn.
      rewrite !dl_neq by (intros Ex; rewrite Ex in Hn; tauto). reflexivity.
  - intros H k Hk. destruct k as [a b]; cbn [fst snd].
    rewrite <- apply_move_value. cbn in Hk.
    apply H; destruct Hk as [E|[E|[E|[E|[]]]]]; inversion E; lia.
Qed.
Print Assumptions C19_support_keeps_table_nonnegative.

Example C19_nonvacuous :
  get_table_step_size_support ex_table (square_move (0, 0)%nat (1, 1)%nat)
    (0, 0)%nat (0, 1)%nat (1, 0)%nat (1, 1)%nat = [-1; 0; 1; 2].
Proof. reflexivity. Qed.

(** ---- C20 ---------------------------------------------------------------- *)

Theorem C20_metropolis_step : forall s truth m axes fixed c draws mc li t d u acc,
  build_ct s truth m axes fixed = Ok c -> build_mcmc c DegreeOne draws = Ok mc ->
  nonneg_on s t ->
  table_gibbs_step mc li t d = Ok (Some (u, acc)) ->
  nonneg_on s u /\
  ((acc = 1 /\ degree_one_proposal mc (d_idx d) (d_plus d) t = Ok u) \/ (acc = 0 /\ u = t)).
Proof.
  intros s truth m axes fixed c draws mc li t d u acc Hok Hmc Ht HS.
  destruct (mcmc_cases _ _ _ _ Hmc) as [Hc _].
  assert (Hp : mc_prop mc = DegreeOne).
  { unfold build_mcmc in Hmc.
    destruct (update_proposal_type c DegreeOne) as [q|] eqn:Eu; [|discriminate]. cbn [rbind] in Hmc.
    destruct (distribution_of c) as [d'|] eqn:Ed; [|discriminate]. cbn [rbind] in Hmc.
    assert (q = DegreeOne) by (unfold update_proposal_type in Eu; rewrite Ed in Eu; cbn in Eu;
      destruct d'; congruence). subst q.
    destruct (generate_markov_basis c draws); [|discriminate]. cbn in Hmc. inversion Hmc; reflexivity. }
  destruct (build_shape _ _ _ _ _ _ Hok) as [Es _].
  unfold table_gibbs_step, propose, log_acceptance in HS. rewrite Hp in HS.
  destruct (degree_one_proposal mc (d_idx d) (d_plus d) t) as [new|] eqn:E1; [|discriminate].
  cbn [rbind] in HS. unfold metropolis_log_acceptance in HS. rewrite Hc, Es in HS.
  destruct (log_target_measure_difference _ _ _ _ _) as [r|]; [|discriminate]. cbn [rbind] in HS.
  destruct (table_nonnegative s new) eqn:EN.
  - destruct (accepts (Some r) (d_logu d)); injection HS as <- <-.
    + split; [rewrite table_nonnegative_iff in EN; exact EN|]. left; split; reflexivity.
    + split; [exact Ht|]. right; split; reflexivity.
  - cbn in HS. injection HS as <- <-. split; [exact Ht|]. right; split; reflexivity.
Qed.
Print Assumptions C20_metropolis_step.

(** From the all-zero-but-one table a move is accepted, or rejected when it
    would make a cell negative. *)
Definition one_hot : table := fun i j => if Nat.eqb i 0 && Nat.eqb j 1 then 1 else 0.

Example C20_nonvacuous : exists c mc u,
  build_ct (Shape 2 2) one_hot (axis_margin (Shape 2 2) one_hot) [A1] [] = Ok c /\
  build_mcmc c DegreeOne (fun n => n) = Ok mc /\ nonneg_on (Shape 2 2) one_hot /\
  table_gibbs_step mc (fun _ _ => 0%R) one_hot (Draw 0 true None [] None) = Ok (Some (u, 1)) /\
  u 0%nat 0%nat = 1 /\ u 0%nat 1%nat = 0 /\
  table_gibbs_step mc (fun _ _ => 0%R) one_hot (Draw 0 false None [] None) = Ok (Some (one_hot, 0)).
Proof.
  destruct (build_ct (Shape 2 2) one_hot (axis_margin (Shape 2 2) one_hot) [A1] []) as [c|] eqn:Ec; [|discriminate].
  destruct (build_mcmc c DegreeOne (fun n => n)) as [mc|] eqn:Em.
  2:{ inversion Ec; subst c. vm_compute in Em. discriminate. }
  assert (Hb : exists l, mc_basis mc = pair_move ((0, 0), (0, 1))%nat :: l /\ length l = 1%nat /\ mc_prop mc = DegreeOne).
  { inversion Ec; subst c. vm_compute in Em. inversion Em. eexists; repeat split. }
  destruct Hb as [l [Hb [Hl Hp]]].
  destruct (mcmc_cases _ _ _ _ Em) as [Hc _].
  exists c, mc, (apply_move (pair_move ((0, 0), (0, 1))%nat) 1 one_hot).
  split; [reflexivity|]. split; [exact Em|].
  split; [intros i j _ _; unfold one_hot; destruct (_ && _); lia|].
  assert (Hs : ct_shape c = Shape 2 2) by (inversion Ec; reflexivity).
  split; [|split; [reflexivity|split; [reflexivity|]]];
  unfold table_gibbs_step, propose, log_acceptance; rewrite Hp; unfold degree_one_proposal; rewrite Hb;
  cbn [pick_basis length rbind d_val d_idx d_plus]; rewrite Hl;
  cbn [Nat.modulo Nat.divmod snd Nat.sub nth rbind]; unfold metropolis_log_acceptance; rewrite Hc, Hs.
  - change (cells_of_interest (Shape 2 2) (apply_move (pair_move ((0, 0), (0, 1))%nat) 1 one_hot) one_hot)
      with [(0, 0)%nat; (0, 1)%nat].
    change (table_nonnegative (Shape 2 2) (apply_move (pair_move ((0, 0), (0, 1))%nat) 1 one_hot)) with true.
    cbn. unfold Rleb.
    match goal with |- context [Rle_dec ?x ?y] => destruct (Rle_dec x y) as [|N] end; [reflexivity|].
    exfalso; apply N. unfold log_factorial_sum; cbn. lra.
  - change (cells_of_interest (Shape 2 2) (apply_move (pair_move ((0, 0), (0, 1))%nat) (-1) one_hot) one_hot)
      with [(0, 0)%nat; (0, 1)%nat].
    change (table_nonnegative (Shape 2 2) (apply_move (pair_move ((0, 0), (0, 1))%nat) (-1) one_hot)) with false.
    cbn. reflexivity.
Qed.

(** ---- C21 ---------------------------------------------------------------- *)

(** The log target of a table, up to a constant: every cell contributes its
    count times its log intensity minus the log of its factorial. *)
Definition log_target (s : shape) (li : nat -> nat -> R) (t : table) : R :=
  fold_right (fun k acc => IZR (t (fst k) (snd k)) * li (fst k) (snd k)
                           - ln (INR (fact (Z.to_nat (t (fst k) (snd k))))) + acc)%R 0%R (all_cells s).

Lemma measure_raises : forall new prev li cells acc,
  (exists i j, In (i, j) cells /\ new i j < prev i j /\ 2 <= new i j) ->
  exists e, log_target_measure_difference new prev li cells acc = Raise e.
Proof.
  intros new prev li cells; induction cells as [|[a b] cells IH]; intros acc [i [j [Hin [H1 H2]]]]; [destruct Hin|].
  cbn [log_target_measure_difference]. destruct Hin as [E|Hin].
  - inversion E; subst. destruct (Z.ltb_spec (prev i j) (new i j)); [lia|].
    destruct (Z.ltb_spec (new i j) (prev i j)); [|lia].
    destruct (Z.ltb_spec 1 (Z.max (new i j) 1)); [eexists; reflexivity|lia].
  - destruct (prev a b <? new a b); [apply IH; eauto|].
    destruct (new a b <? prev a b); [|apply IH; eauto].
    destruct (1 <? Z.max (new a b) 1); [eexists; reflexivity|apply IH; eauto].
Qed.

Lemma measure_ok : forall new prev li cells acc,
  (forall i j, In (i, j) cells -> new i j < prev i j -> new i j < 2) ->
  exists r, log_target_measure_difference new prev li cells acc = Ok r.
Proof.
  intros new prev li cells; induction cells as [|[a b] cells IH]; intros acc H; [eexists; reflexivity|].
  cbn [log_target_measure_difference].
  assert (H' : forall i j, In (i, j) cells -> new i j < prev i j -> new i j < 2) by (intros; apply H; [right|]; assumption).
  destruct (prev a b <? new a b); [apply IH; exact H'|].
  destruct (Z.ltb_spec (new a b) (prev a b)); [|apply IH; exact H'].
  pose proof (H a b (or_introl eq_refl) H0).
  destruct (Z.ltb_spec 1 (Z.max (new a b) 1)); [lia|apply IH; exact H'].
Qed.

Lemma interest_in : forall s new prev i j, In (i, j) (cells_of_interest s new prev) <->
  (i < nI s)%nat /\ (j < nJ s)%nat /\ new i j <> prev i j.
Proof.
  intros s new prev i j; unfold cells_of_interest; rewrite filter_In, all_cells_in.
  unfold in_shape; cbn. rewrite negb_true_iff, Z.eqb_neq. tauto.
Qed.

(** The Metropolis ratio cannot be evaluated at all as soon as some cell is
    decreased to two or more, and only then. *)
Theorem C21_ratio_fails_iff : forall c new prev li,
  (exists e, metropolis_log_acceptance c new prev li = Raise e) <->
  (exists i j, (i < nI (ct_shape c))%nat /\ (j < nJ (ct_shape c))%nat /\ new i j < prev i j /\ 2 <= new i j).
Proof.
  intros c new prev li; unfold metropolis_log_acceptance; split.
  - intros [e E].
    destruct (existsb (fun k => (new (fst k) (snd k) <? prev (fst k) (snd k)) && (2 <=? new (fst k) (snd k)))
      (all_cells (ct_shape c))) eqn:Ex.
    + apply existsb_exists in Ex as [[i j] [Hin Hb]]. apply all_cells_in in Hin as [Hi Hj].
      cbn [fst snd] in *. exists i, j. lia.
    + exfalso. rewrite existsb_false_iff in Ex.
      destruct (measure_ok new prev li (cells_of_interest (ct_shape c) new prev) 0%R) as [r Hr].
      * intros i j Hin Hlt. apply interest_in in Hin as [Hi [Hj _]].
        specialize (Ex (i, j) ltac:(apply all_cells_in; split; assumption)). cbn [fst snd] in Ex. lia.
      * rewrite Hr in E. discriminate.
  - intros [i [j [Hi [Hj [H1 H2]]]]].
    destruct (measure_raises new prev li (cells_of_interest (ct_shape c) new prev) 0%R) as [e He].
    { exists i, j. split; [apply interest_in; lia|lia]. }
    exists e. rewrite He. reflexivity.
Qed.
Print Assumptions C21_ratio_fails_iff.

Definition cell_term (li : nat -> nat -> R) (t : table) (k : cell) : R :=
  (IZR (t (fst k) (snd k)) * li (fst k) (snd k) - ln (INR (fact (Z.to_nat (t (fst k) (snd k))))))%R.

Lemma lfs_one : log_factorial_sum 1 1 = 0%R.
Proof. unfold log_factorial_sum; cbn. reflexivity. Qed.

Lemma fact01 : forall z, 0 <= z <= 1 -> ln (INR (fact (Z.to_nat z))) = 0%R.
Proof.
  intros z H. assert (z = 0 \/ z = 1) as [-> | ->] by lia; cbn; apply ln_1.
Qed.

Lemma measure_filter : forall new prev li l acc r,
  (forall i j, In (i, j) l -> new i j <> prev i j -> 0 <= new i j <= 1 /\ 0 <= prev i j <= 1) ->
  log_target_measure_difference new prev li
    (filter (fun k => negb (new (fst k) (snd k) =? prev (fst k) (snd k))) l) acc = Ok r ->
  r = (acc + fold_right (fun k a => cell_term li new k - cell_term li prev k + a) 0 l)%R.
Proof.
  intros new prev li l; induction l as [|[i j] l IH]; intros acc r H E.
  - cbn in *. inversion E. ring.
  - cbn [filter fst snd] in E. cbn [fold_right].
    assert (H' : forall a b, In (a, b) l -> new a b <> prev a b -> 0 <= new a b <= 1 /\ 0 <= prev a b <= 1)
      by (intros; apply H; [right|]; assumption).
    destruct (Z.eqb_spec (new i j) (prev i j)) as [Eq|Ne]; cbn [negb] in E.
    + rewrite (IH acc r H' E). unfold cell_term at 3 4; cbn [fst snd]. rewrite Eq. ring.
    + destruct (H i j (or_introl eq_refl) Ne) as [Hn Hp].
      cbn [log_target_measure_difference] in E.
      replace (Z.max (prev i j) 1) with 1 in E by lia. replace (Z.max (new i j) 1) with 1 in E by lia.
      rewrite lfs_one in E. cbn [Z.ltb Z.compare Pos.compare Pos.compare_cont] in E.
      assert (T : (cell_term li new (i, j) - cell_term li prev (i, j)
                  = IZR (new i j - prev i j) * li i j)%R).
      { unfold cell_term; cbn [fst snd]. rewrite !fact01 by assumption. rewrite minus_IZR. ring. }
      rewrite T.
      destruct (prev i j <? new i j); [|destruct (new i j <? prev i j)];
        rewrite (IH _ r H' E); ring.
Qed.

Lemma log_target_diff : forall s li new prev,
  (log_target s li new - log_target s li prev
   = fold_right (fun k a => cell_term li new k - cell_term li prev k + a) 0 (all_cells s))%R.
Proof.
  intros s li new prev; unfold log_target; fold (cell_term li).
  induction (all_cells s) as [|k l IH]; [cbn; ring|].
  cbn [fold_right]. rewrite <- IH. unfold cell_term. ring.
Qed.

(** Only when every changed cell is 0 or 1 before and after is the ratio the
    difference of the log targets. *)
Theorem C21_ratio_partial : forall c new prev li r,
  (forall i j, (i < nI (ct_shape c))%nat -> (j < nJ (ct_shape c))%nat -> new i j <> prev i j ->
     0 <= new i j <= 1 /\ 0 <= prev i j <= 1) ->
  metropolis_log_acceptance c new prev li = Ok (Some r) ->
  r = (log_target (ct_shape c) li new - log_target (ct_shape c) li prev)%R.
Proof.
  intros c new prev li r H E. unfold metropolis_log_acceptance in E.
  destruct (log_target_measure_difference new prev li (cells_of_interest (ct_shape c) new prev) 0%R)
    as [r'|] eqn:Er; [|discriminate]. cbn [rbind] in E.
  destruct (table_nonnegative (ct_shape c) new); [|discriminate]. inversion E; subst r'; clear E.
  unfold cells_of_interest in Er.
  rewrite (measure_filter new prev li (all_cells (ct_shape c)) 0%R r) by
    (try assumption; intros i j Hin; apply all_cells_in in Hin as [Hi Hj]; apply H; assumption).
  rewrite log_target_diff. ring.
Qed.
Print Assumptions C21_ratio_partial.

(** A table where the returned ratio is not the ratio of the targets. *)
Theorem C21_ratio_refuted : exists c new prev li r,
  build_ct (Shape 2 2) prev (axis_margin (Shape 2 2) prev) [A1] [] = Ok c /\
  table_admissible c new = true /\ table_nonnegative (Shape 2 2) new = true /\
  metropolis_log_acceptance c new prev li = Ok (Some r) /\
  r <> (log_target (Shape 2 2) li new - log_target (Shape 2 2) li prev)%R.
Proof.
  set (prev := (fun i j => if Nat.eqb i 0 then 1 else 0) : table).
  set (new := (fun i j => if Nat.eqb i 0 && Nat.eqb j 0 then 2 else 0) : table).
  destruct (build_ct (Shape 2 2) prev (axis_margin (Shape 2 2) prev) [A1] []) as [c|] eqn:Ec; [|discriminate].
  assert (Hs : ct_shape c = Shape 2 2) by (inversion Ec; reflexivity).
  assert (HI : cells_of_interest (Shape 2 2) new prev = [(0, 0)%nat; (0, 1)%nat]) by reflexivity.
  exists c, new, prev, (fun _ _ => 0%R). eexists.
  split; [exact Ec|]. split; [inversion Ec; reflexivity|]. split; [reflexivity|]. split.
  - unfold metropolis_log_acceptance. rewrite Hs, HI. cbn. reflexivity.
  - unfold log_factorial_sum, log_target; cbn.
    change (Pos.to_nat 2) with 2%nat. change (Pos.to_nat 1) with 1%nat. cbn. rewrite ?ln_1.
    assert (0 < ln (1 + 1))%R by (rewrite <- ln_1; apply ln_increasing; lra). change (Pos.to_nat 1) with 1%nat. cbn. rewrite ?ln_1. intros E; lra.
Qed.
Print Assumptions C21_ratio_refuted.

(** What the returned number is for every pair of non-negative tables: the code
    sums log factorials where the target needs logs, so each count n costs
    ln 0! + ln 1! + ... + ln (n-1)! instead of ln n!. *)
Fixpoint summed_log_factorials (n : nat) : R :=
  match n with
  | O => 0%R
  | S n' => (summed_log_factorials n' + ln (INR (fact n')))%R
  end.

Definition effective_log_target (s : shape) (li : nat -> nat -> R) (t : table) : R :=
  fold_right (fun k acc => IZR (t (fst k) (snd k)) * li (fst k) (snd k)
                           - summed_log_factorials (Z.to_nat (t (fst k) (snd k))) + acc)%R 0%R (all_cells s).

Lemma slf_range : forall n a, (0 <= a) ->
  log_factorial_sum a (a + Z.of_nat n)
  = (summed_log_factorials (Z.to_nat (a + Z.of_nat n)) - summed_log_factorials (Z.to_nat a))%R.
Proof.
  unfold log_factorial_sum, zrange.
  intros n. induction n as [|n IH]; intros a Ha.
  - replace (a + Z.of_nat 0 - a) with 0 by lia. replace (a + Z.of_nat 0) with a by lia. cbn. ring.
  - specialize (IH (a + 1) ltac:(lia)).
    replace (a + 1 + Z.of_nat n - (a + 1)) with (Z.of_nat n) in IH by lia.
    replace (a + Z.of_nat (S n) - a) with (Z.of_nat (S n)) by lia.
    rewrite Nat2Z.id in *. cbn [seq map fold_right].
    rewrite <- seq_shift, !map_map. rewrite map_map in IH.
    rewrite (map_ext (fun x => ln (INR (fact (Z.to_nat (a + Z.of_nat (S x))))))
                     (fun x => ln (INR (fact (Z.to_nat (a + 1 + Z.of_nat x))))))
      by (intros x; replace (a + Z.of_nat (S x)) with (a + 1 + Z.of_nat x) by lia; reflexivity).
    rewrite IH.
    replace (Z.to_nat (a + Z.of_nat (S n))) with (Z.to_nat (a + 1 + Z.of_nat n)) by (f_equal; lia).
    replace (Z.to_nat (a + 1)) with (S (Z.to_nat a)) by lia. cbn [summed_log_factorials].
    replace (a + Z.of_nat 0) with a by lia. ring.
Qed.

Lemma slf_max : forall a b, 0 <= a -> a <= b ->
  log_factorial_sum (Z.max a 1) (Z.max b 1)
  = (summed_log_factorials (Z.to_nat b) - summed_log_factorials (Z.to_nat a))%R.
Proof.
  intros a b Ha Hb.
  assert (M : forall z, 0 <= z -> summed_log_factorials (Z.to_nat (Z.max z 1)) = summed_log_factorials (Z.to_nat z)).
  { intros z Hz. destruct (Z.eq_dec z 0) as [->|].
    - change (Z.to_nat (Z.max 0 1)) with 1%nat. change (Z.to_nat 0) with 0%nat. cbn. rewrite ln_1. ring.
    - rewrite Z.max_l by lia. reflexivity. }
  rewrite <- (M b), <- (M a) by lia.
  replace (Z.max b 1) with (Z.max a 1 + Z.of_nat (Z.to_nat (Z.max b 1 - Z.max a 1))) by lia.
  apply slf_range. lia.
Qed.

Definition eff_term (li : nat -> nat -> R) (t : table) (k : cell) : R :=
  (IZR (t (fst k) (snd k)) * li (fst k) (snd k) - summed_log_factorials (Z.to_nat (t (fst k) (snd k))))%R.

Lemma measure_exact : forall new prev li l acc r,
  (forall i j, In (i, j) l -> 0 <= new i j /\ 0 <= prev i j) ->
  log_target_measure_difference new prev li
    (filter (fun k => negb (new (fst k) (snd k) =? prev (fst k) (snd k))) l) acc = Ok r ->
  r = (acc + fold_right (fun k a => eff_term li new k - eff_term li prev k + a) 0 l)%R.
Proof.
  intros new prev li l; induction l as [|[i j] l IH]; intros acc r H E.
  - cbn in *. inversion E. ring.
  - cbn [filter fst snd] in E. cbn [fold_right].
    assert (H' : forall a b, In (a, b) l -> 0 <= new a b /\ 0 <= prev a b) by (intros; apply H; right; assumption).
    destruct (Z.eqb_spec (new i j) (prev i j)) as [Eq|Ne]; cbn [negb] in E.
    + rewrite (IH acc r H' E). unfold eff_term at 3 4; cbn [fst snd]. rewrite Eq. ring.
    + destruct (H i j (or_introl eq_refl)) as [Hn Hp].
      cbn [log_target_measure_difference] in E.
      destruct (Z.ltb_spec (prev i j) (new i j)).
      * rewrite (IH _ r H' E). unfold eff_term at 3 4; cbn [fst snd].
        rewrite slf_max by lia. rewrite minus_IZR. ring.
      * destruct (Z.ltb_spec (new i j) (prev i j)); [|lia].
        destruct (1 <? Z.max (new i j) 1); [discriminate|].
        rewrite (IH _ r H' E). unfold eff_term at 3 4; cbn [fst snd].
        rewrite slf_max by lia. rewrite minus_IZR. ring.
Qed.

Lemma effective_diff : forall s li new prev,
  (effective_log_target s li new - effective_log_target s li prev
   = fold_right (fun k a => eff_term li new k - eff_term li prev k + a) 0 (all_cells s))%R.
Proof.
  intros s li new prev; unfold effective_log_target; fold (eff_term li).
  induction (all_cells s) as [|k l IH]; [cbn; ring|].
  cbn [fold_right]. rewrite <- IH. unfold eff_term. ring.
Qed.

Theorem C21_ratio_exact_partial : forall c new prev li r,
  nonneg_on (ct_shape c) prev ->
  metropolis_log_acceptance c new prev li = Ok (Some r) ->
  r = (effective_log_target (ct_shape c) li new - effective_log_target (ct_shape c) li prev)%R.
Proof.
  intros c new prev li r H E. unfold metropolis_log_acceptance in E.
  destruct (log_target_measure_difference new prev li (cells_of_interest (ct_shape c) new prev) 0%R)
    as [r'|] eqn:Er; [|discriminate]. cbn [rbind] in E.
  destruct (table_nonnegative (ct_shape c) new) eqn:EN; [|discriminate]. inversion E; subst r'; clear E.
  rewrite table_nonnegative_iff in EN.
  unfold cells_of_interest in Er.
  apply measure_exact in Er.
  2:{ intros i j Hin; apply all_cells_in in Hin as [Hi Hj]; split; [apply EN|apply H]; assumption. }
  rewrite Er, effective_diff. ring.
Qed.
Print Assumptions C21_ratio_exact_partial.

(** The acceptance rule of a whole Metropolis step: the proposal is taken
    exactly when it is non-negative and the log of the uniform draw is below
    the ratio (or the ratio is non-negative); log 0 is below everything. *)
Theorem C20_acceptance_rule : forall s truth m axes fixed c draws mc li t d u acc,
  build_ct s truth m axes fixed = Ok c -> build_mcmc c DegreeOne draws = Ok mc ->
  nonneg_on s t ->
  table_gibbs_step mc li t d = Ok (Some (u, acc)) ->
  exists new, degree_one_proposal mc (d_idx d) (d_plus d) t = Ok new /\
  let r := (effective_log_target s li new - effective_log_target s li t)%R in
  (acc = 1 <-> nonneg_on s new /\
     ((0 <= r)%R \/ d_logu d = None \/ exists lu, d_logu d = Some lu /\ (lu < r)%R)).
Proof.
  intros s truth m axes fixed c draws mc li t d u acc Hok Hmc Ht HS.
  destruct (mcmc_cases _ _ _ _ Hmc) as [Hc _].
  assert (Hp : mc_prop mc = DegreeOne).
  { unfold build_mcmc in Hmc.
    destruct (update_proposal_type c DegreeOne) as [q|] eqn:Eu; [|discriminate]. cbn [rbind] in Hmc.
    destruct (distribution_of c) as [d'|] eqn:Ed; [|discriminate]. cbn [rbind] in Hmc.
    assert (q = DegreeOne) by (unfold update_proposal_type in Eu; rewrite Ed in Eu; cbn in Eu;
      destruct d'; congruence). subst q.
    destruct (generate_markov_basis c draws); [|discriminate]. cbn in Hmc. inversion Hmc; reflexivity. }
  destruct (build_shape _ _ _ _ _ _ Hok) as [Es _].
  unfold table_gibbs_step, propose, log_acceptance in HS. rewrite Hp in HS.
  destruct (degree_one_proposal mc (d_idx d) (d_plus d) t) as [new|] eqn:E1; [|discriminate].
  exists new. split; [reflexivity|]. cbn [rbind] in HS. rewrite Hc in HS.
  destruct (metropolis_log_acceptance c new t li) as [la|] eqn:EM; [|discriminate]. cbn [rbind] in HS.
  destruct la as [r0|].
  - assert (HN : nonneg_on s new).
    { unfold metropolis_log_acceptance in EM.
      destruct (log_target_measure_difference _ _ _ _ _); [|discriminate]. cbn [rbind] in EM.
      destruct (table_nonnegative (ct_shape c) new) eqn:EN; [|discriminate].
      rewrite table_nonnegative_iff, Es in EN. exact EN. }
    apply C21_ratio_exact_partial in EM; [|rewrite Es; exact Ht]. rewrite Es in EM. rewrite <- EM. cbn zeta.
    unfold accepts in HS.
    assert (HA : (Rleb 0 r0 || match d_logu d with None => true | Some b => Rltb b r0 end) = true <->
      ((0 <= r0)%R \/ d_logu d = None \/ exists lu, d_logu d = Some lu /\ (lu < r0)%R)).
    { rewrite orb_true_iff. unfold Rleb, Rltb. destruct (Rle_dec 0 r0) as [L|L].
      - split; intros _; left; [exact L|reflexivity].
      - destruct (d_logu d) as [b|].
        + destruct (Rlt_dec b r0) as [L'|L'].
          * split; intros _; right; [right; exists b; split; [reflexivity|exact L']|reflexivity].
          * split; [intros [X|X]; discriminate|].
            intros [X|[X|[lu [X Y]]]]; [contradiction|discriminate|]. injection X as ->. contradiction.
        + split; intros _; right; [left|]; reflexivity. }
    destruct (Rleb 0 r0 || match d_logu d with None => true | Some b => Rltb b r0 end) eqn:EA;
      injection HS as <- <-.
    + split; intros _; [split; [exact HN|apply HA; reflexivity]|reflexivity].
    + split; [discriminate|]. intros [_ X]. apply HA in X. discriminate.
  - assert (HN : ~ nonneg_on s new).
    { unfold metropolis_log_acceptance in EM.
      destruct (log_target_measure_difference _ _ _ _ _); [|discriminate]. cbn [rbind] in EM.
      destruct (table_nonnegative (ct_shape c) new) eqn:EN; [discriminate|].
      rewrite <- Es. intros X. apply table_nonnegative_iff in X. congruence. }
    cbn in HS. injection HS as <- <-. split; [discriminate|]. intros [X _]. contradiction.
Qed.
Print Assumptions C20_acceptance_rule.

Example C21_nonvacuous : exists c r,
  build_ct (Shape 2 2) one_hot (axis_margin (Shape 2 2) one_hot) [A1] [] = Ok c /\
  metropolis_log_acceptance c (apply_move (pair_move ((0, 0), (0, 1))%nat) 1 one_hot) one_hot
    (fun i j => INR (i + j)) = Ok (Some r) /\
  r = (-1)%R.
Proof.
  destruct (build_ct (Shape 2 2) one_hot (axis_margin (Shape 2 2) one_hot) [A1] []) as [c|] eqn:Ec; [|discriminate].
  assert (Hs : ct_shape c = Shape 2 2) by (inversion Ec; reflexivity).
  exists c. eexists. split; [reflexivity|].
  split; [unfold metropolis_log_acceptance; rewrite Hs|].
  - change (cells_of_interest (Shape 2 2) (apply_move (pair_move ((0, 0), (0, 1))%nat) 1 one_hot) one_hot)
      with [(0, 0)%nat; (0, 1)%nat]. cbn. reflexivity.
  - unfold log_factorial_sum; cbn. lra.
Qed.

(** ---- C22 ---------------------------------------------------------------- *)

Lemma assign_other : forall cells vals t i j, ~ In (i, j) cells -> assign_cells cells vals t i j = t i j.
Proof.
  intros cells; induction cells as [|k cells IH]; intros [|v vals] t i j H; try reflexivity.
  cbn. cbn in H. rewrite IH by tauto. unfold set_cell. rewrite cell_eqb_neq by (intros <-; tauto). reflexivity.
Qed.

Lemma assign_map : forall cells vals t, NoDup cells -> length vals = length cells ->
  map (fun k => assign_cells cells vals t (fst k) (snd k)) cells = vals.
Proof.
  intros cells; induction cells as [|k cells IH]; intros [|v vals] t HN HL; try discriminate; [reflexivity|].
  inversion HN as [|? ? Hk HN']; subst. cbn [map assign_cells]. f_equal.
  - rewrite assign_other by (destruct k; exact Hk). unfold set_cell.
    replace (cell_eqb (fst k, snd k) k) with true; [reflexivity|symmetry; apply cell_eqb_spec; destruct k; reflexivity].
  - apply IH; [exact HN'|cbn in HL; lia].
Qed.

Lemma assign_nth : forall cells vals t n d, NoDup cells -> length vals = length cells -> (n < length cells)%nat ->
  assign_cells cells vals t (fst (nth n cells d)) (snd (nth n cells d)) = nth n vals 0.
Proof.
  intros cells vals t n d HN HL Hn.
  rewrite <- (assign_map cells vals t HN HL) at 2.
  rewrite (nth_indep _ 0 ((fun k => assign_cells cells vals t (fst k) (snd k)) d)) by (rewrite map_length; exact Hn).
  rewrite (map_nth (fun k => assign_cells cells vals t (fst k) (snd k))). reflexivity.
Qed.

(** What torch's multinomial sampler returns: one non-negative count per
    category, adding up to the requested number. *)
Definition multinomial_draw (n : Z) (k : nat) (vals : list Z) : Prop :=
  length vals = k /\ lsum vals = n /\ Forall (fun x => 0 <= x) vals.

Theorem C22_multinomial_first_attempt : forall s truth m axes fixed c vals rest,
  (forall a, length (m a) = axis_len s a) ->
  (forall k, In k fixed -> (fst k < nI s)%nat /\ (snd k < nJ s)%nat) -> NoDup fixed ->
  build_ct s truth m axes fixed = Ok c ->
  In A01 axes -> ~ In A0 axes -> ~ In A1 axes ->
  multinomial_draw (nth 0 (ct_resid c A01) 0) (length (ct_free c)) vals ->
  exists t,
  direct_sampling_proposal c (AtMultinomial vals :: rest) = Ok (Some t) /\
  table_admissible c t = true /\
  (forall i j, In (i, j) fixed -> t i j = truth i j) /\
  zsum (nI s) (fun i => zsum (nJ s) (fun j => t i j)) = nth 0 (m A01) 0 /\
  zsum (nI s) (fun i => zsum (nJ s) (fun j => if cell_in (i, j) fixed then 0 else t i j)) = nth 0 (ct_resid c A01) 0 /\
  (forall i j, (i < nI s)%nat -> (j < nJ s)%nat -> ~ In (i, j) fixed -> 0 <= t i j).
Proof.
  intros s truth m axes fixed c vals rest W Hin Hnd Hok H01 H0 H1 [HL [HS HP]].
  destruct (C04_residual_margins _ _ _ _ _ _ W Hin Hnd Hok) as [_ [_ [HT [HF HN]]]].
  destruct (build_shape _ _ _ _ _ _ Hok) as [Es [Et [Em [Ea Ef]]]].
  set (t := sample_free_cells c vals).
  assert (Fix : forall i j, In (i, j) fixed -> t i j = truth i j).
  { intros i j Hk. unfold t, sample_free_cells. rewrite assign_other.
    - unfold fixed_table. rewrite Ef, Et.
      assert (cell_in (i, j) fixed = true) as -> by (apply cell_in_spec; exact Hk). reflexivity.
    - rewrite HF. tauto. }
  assert (Free : zsum (nI s) (fun i => zsum (nJ s) (fun j => if cell_in (i, j) fixed then 0 else t i j))
                 = nth 0 (ct_resid c A01) 0).
  { rewrite <- HS. rewrite <- (assign_map (ct_free c) vals (fixed_table c) HN HL).
    transitivity (cells_sum t (ct_free c)); [|reflexivity].
    rewrite (cells_sum_all s) by
      (try exact HN; intros [a b] Hk; apply HF in Hk; unfold in_shape; cbn [fst snd]; tauto).
    apply zsum_ext; intros i Hi; apply zsum_ext; intros j Hj.
    destruct (cell_in (i, j) fixed) eqn:E1, (cell_in (i, j) (ct_free c)) eqn:E2; try reflexivity.
    - apply cell_in_spec in E1, E2. apply HF in E2. tauto.
    - apply cell_in_false in E1, E2. rewrite HF in E2. tauto. }
  assert (Tot : zsum (nI s) (fun i => zsum (nJ s) (fun j => t i j)) = nth 0 (m A01) 0).
  { transitivity (zsum (nI s) (fun i => zsum (nJ s) (fun j => if cell_in (i, j) fixed then 0 else t i j))
      + zsum (nI s) (fun i => zsum (nJ s) (fun j => if cell_in (i, j) fixed then truth i j else 0))); [|lia].
    rewrite <- zsum_add. apply zsum_ext; intros i Hi. rewrite <- zsum_add. apply zsum_ext; intros j Hj.
    destruct (cell_in (i, j) fixed) eqn:E; [rewrite Fix by (apply cell_in_spec; exact E)|]; lia. }
  assert (Adm : table_admissible c t = true).
  { rewrite C01_admissible_iff by (rewrite Em, Es; exact W). rewrite Es, Em, Ea, Ef, Et.
    destruct (C02_two_way_closure axes) as [K0 [K1 _]].
    split; [intros Ha; apply K1 in Ha; tauto|]. split; [intros Ha; apply K0 in Ha; tauto|].
    split; [intros _; exact Tot|exact Fix]. }
  exists t. split; [cbn [direct_sampling_proposal direct_attempt rbind]; fold t; rewrite Adm; reflexivity|].
  split; [exact Adm|]. split; [exact Fix|]. split; [exact Tot|]. split; [exact Free|].
  intros i j Hi Hj Hn. assert (Hk : In (i, j) (ct_free c)) by (apply HF; tauto).
  rewrite Forall_forall in HP. apply HP.
  rewrite <- (assign_map (ct_free c) vals (fixed_table c) HN HL). apply in_map_iff. exists (i, j).
  split; [reflexivity|exact Hk].
Qed.
Print Assumptions C22_multinomial_first_attempt.

(** Whatever is drawn, for every distribution, a returned table is admissible. *)
Theorem C22_returned_table_admissible : forall s truth m axes fixed c attempts t,
  (forall a, length (m a) = axis_len s a) ->
  build_ct s truth m axes fixed = Ok c ->
  direct_sampling_proposal c attempts = Ok (Some t) ->
  table_admissible c t = true /\ (forall i j, In (i, j) fixed -> t i j = truth i j).
Proof.
  intros s truth m axes fixed c attempts t W Hok H. apply direct_adm in H. split; [exact H|].
  destruct (build_shape _ _ _ _ _ _ Hok) as [Es [Et [Em [Ea Ef]]]].
  apply C01_admissible_iff in H; [|rewrite Em, Es; exact W]. rewrite Ef, Et in H. tauto.
Qed.
Print Assumptions C22_returned_table_admissible.

Example C22_nonvacuous : exists c t,
  build_ct (Shape 2 3) ex_table ex_margins [A01] [(0, 1)%nat] = Ok c /\
  multinomial_draw (nth 0 (ct_resid c A01) 0) (length (ct_free c)) [4; 4; 4; 4; 2] /\
  direct_sampling_proposal c [AtMultinomial [4; 4; 4; 4; 2]] = Ok (Some t) /\ t 0%nat 1%nat = 3 /\ t 1%nat 2%nat = 2.
Proof.
  eexists; eexists. split; [reflexivity|]. split; [|split; [reflexivity|split; reflexivity]].
  split; [reflexivity|]. split; [reflexivity|]. repeat constructor; lia.
Qed.

(** ---- C23 ---------------------------------------------------------------- *)

Lemma nth_list_prod : forall (a b : list nat) n, (n < length a * length b)%nat ->
  nth n (list_prod a b) (0, 0)%nat = (nth (n / length b) a 0, nth (n mod length b) b 0)%nat.
Proof.
  intros a b; induction a as [|x a IH]; intros n H; [cbn in H; lia|].
  cbn [list_prod]. cbn [length] in H.
  assert (Hb : (length b <> 0)%nat) by lia.
  destruct (Nat.lt_ge_cases n (length b)) as [Hn|Hn].
  - rewrite app_nth1 by (rewrite map_length; exact Hn).
    rewrite (nth_indep _ (0, 0)%nat ((fun y => (x, y)) 0%nat)) by (rewrite map_length; exact Hn).
    rewrite (map_nth (fun y => (x, y))), Nat.div_small, Nat.mod_small by exact Hn. reflexivity.
  - rewrite app_nth2 by (rewrite map_length; exact Hn). rewrite map_length, IH by lia.
    replace n with (n - length b + 1 * length b)%nat at 3 4 by lia.
    rewrite Nat.div_add, Nat.mod_add by exact Hb. rewrite Nat.add_1_r. reflexivity.
Qed.

Lemma nth_all_cells : forall s i j, (i < nI s)%nat -> (j < nJ s)%nat ->
  nth (i * nJ s + j) (all_cells s) (0, 0)%nat = (i, j) /\ (i * nJ s + j < length (all_cells s))%nat.
Proof.
  intros s i j Hi Hj.
  assert (B : (i * nJ s + j < nI s * nJ s)%nat) by nia.
  unfold all_cells. rewrite nth_list_prod by (rewrite !seq_length; exact B).
  rewrite !seq_length, prod_length, !seq_length.
  rewrite Nat.div_add_l, Nat.div_small, Nat.add_0_r by lia.
  rewrite Nat.add_comm, Nat.mod_add, Nat.mod_small by lia.
  rewrite !seq_nth by lia. split; [reflexivity|lia].
Qed.

Lemma nth_concat : forall (counts : list (list Z)) w n, (forall l, In l counts -> length l = w) ->
  (n < length counts * w)%nat -> nth n (concat counts) 0 = nth (n mod w) (nth (n / w) counts []) 0.
Proof.
  intros counts w; induction counts as [|l counts IH]; intros n H Hn; [cbn in Hn; lia|].
  cbn [concat]. cbn [length] in Hn. assert (Hw : (w <> 0)%nat) by lia.
  assert (Hl : length l = w) by (apply H; left; reflexivity).
  destruct (Nat.lt_ge_cases n w) as [L|L].
  - rewrite app_nth1 by lia. rewrite Nat.div_small, Nat.mod_small by exact L. reflexivity.
  - rewrite app_nth2 by lia. rewrite Hl, IH by (try (intros; apply H; right; assumption); lia).
    replace n with (n - w + 1 * w)%nat at 3 4 by lia.
    rewrite Nat.div_add, Nat.mod_add by exact Hw. rewrite Nat.add_1_r. reflexivity.
Qed.

Lemma length_concat : forall (counts : list (list Z)) w, (forall l, In l counts -> length l = w) ->
  length (concat counts) = (length counts * w)%nat.
Proof.
  intros counts w H; induction counts as [|l counts IH]; [reflexivity|].
  cbn [concat length]. rewrite app_length, IH by (intros; apply H; right; assumption).
  rewrite (H l (or_introl eq_refl)). lia.
Qed.

(** Without fixed cells the k-th drawn count goes to the k-th cell in row-major
    order, whichever margin is constrained. *)
Lemma product_placement : forall s truth m axes c counts h w, (h * w = nI s * nJ s)%nat ->
  build_ct s truth m axes [] = Ok c ->
  length counts = h -> (forall l, In l counts -> length l = w) ->
  exists t, product_multinomial_attempt c counts = Ok t /\
  forall i j, (i < nI s)%nat -> (j < nJ s)%nat ->
    t i j = nth ((i * nJ s + j) mod w) (nth ((i * nJ s + j) / w) counts []) 0.
Proof.
  intros s truth m axes c counts h w HW Hok HL Hl.
  destruct (build_shape _ _ _ _ _ _ Hok) as [Es [Et [Em [Ea Ef]]]].
  assert (EF : ct_free c = all_cells s).
  { rewrite (build_free _ _ _ _ _ _ Hok). cbn. induction (all_cells s) as [|x l IH]; [reflexivity|cbn; congruence]. }
  unfold product_multinomial_attempt, overwrite_rows, fixed_rows. rewrite Ef. cbn [flat_map forallb existsb].
  eexists; split; [reflexivity|]. intros i j Hi Hj. cbv beta. rewrite EF.
  destruct (nth_all_cells s i j Hi Hj) as [EN LN].
  assert (LC : length (concat counts) = length (all_cells s)).
  { rewrite (length_concat counts w Hl), HL, HW. unfold all_cells. rewrite prod_length, !seq_length. reflexivity. }
  pose proof (assign_nth (all_cells s) (concat counts) (fixed_table c) (i * nJ s + j) (0, 0)%nat
    (all_cells_NoDup s) LC LN) as A.
  rewrite EN in A; cbn [fst snd] in A. rewrite A. apply nth_concat; [exact Hl|rewrite HL; nia].
Qed.

(** Row totals constrained: each row receives its own counts and the first
    attempt succeeds. *)
Theorem C23_rows_no_fixed_cells_partial : forall s truth m axes c counts rest,
  (forall a, length (m a) = axis_len s a) -> nth 0 (m A01) 0 = lsum (m A1) ->
  build_ct s truth m axes [] = Ok c -> In A1 axes -> ~ In A0 axes ->
  length counts = nI s ->
  (forall i, (i < nI s)%nat -> multinomial_draw (nth i (m A1) 0) (nJ s) (nth i counts [])) ->
  exists t, direct_sampling_proposal c (AtProduct counts :: rest) = Ok (Some t) /\
  (forall i j, (i < nI s)%nat -> (j < nJ s)%nat -> t i j = nth j (nth i counts []) 0) /\
  (forall i, (i < nI s)%nat -> zsum (nJ s) (fun j => t i j) = nth i (m A1) 0) /\
  table_admissible c t = true /\ nonneg_on s t.
Proof.
  intros s truth m axes c counts rest W WT Hok H1 H0 HL HD.
  assert (Hl : forall l, In l counts -> length l = nJ s).
  { intros l Hin. apply (In_nth _ _ []) in Hin as [i [Hi <-]]. apply HD; lia. }
  destruct (product_placement s truth m axes c counts (nI s) (nJ s) eq_refl Hok HL Hl) as [t [Ht HV]].
  assert (V : forall i j, (i < nI s)%nat -> (j < nJ s)%nat -> t i j = nth j (nth i counts []) 0).
  { intros i j Hi Hj. rewrite HV by assumption.
    rewrite Nat.div_add_l, Nat.div_small, Nat.add_0_r by lia.
    rewrite Nat.add_comm, Nat.mod_add, Nat.mod_small by lia. reflexivity. }
  assert (R : forall i, (i < nI s)%nat -> zsum (nJ s) (fun j => t i j) = nth i (m A1) 0).
  { intros i Hi. destruct (HD i Hi) as [L [S _]]. rewrite <- S, <- zsum_nth, L.
    apply zsum_ext; intros j Hj; apply V; assumption. }
  assert (A : table_admissible c t = true).
  { destruct (build_shape _ _ _ _ _ _ Hok) as [Es [Et [Em [Ea Ef]]]].
    rewrite C01_admissible_iff by (rewrite Em, Es; exact W). rewrite Es, Em, Ea, Ef, Et.
    destruct (C02_two_way_closure axes) as [K0 [K1 _]].
    split; [intros _; exact R|]. split; [intros Ha; apply K0 in Ha; tauto|].
    split; [|intros i j []]. intros _. rewrite WT, <- zsum_nth, (W A1). cbn [axis_len].
    apply zsum_ext; intros i Hi; apply R; exact Hi. }
  exists t. split; [cbn [direct_sampling_proposal direct_attempt]; rewrite Ht; cbn [rbind]; rewrite A; reflexivity|].
  split; [exact V|]. split; [exact R|]. split; [exact A|].
  intros i j Hi Hj. rewrite V by assumption. destruct (HD i Hi) as [L [_ P]].
  rewrite Forall_forall in P. apply P, nth_In. lia.
Qed.
Print Assumptions C23_rows_no_fixed_cells_partial.

(** Column totals constrained: the counts of column [q] are not written to
    column [q]; the table is filled row by row with the concatenated columns. *)
Theorem C23_columns_are_scrambled : forall s truth m axes c counts,
  build_ct s truth m axes [] = Ok c -> In A0 axes -> ~ In A1 axes ->
  length counts = nJ s -> (forall l, In l counts -> length l = nI s) ->
  exists t, product_multinomial_attempt c counts = Ok t /\
  forall i j, (i < nI s)%nat -> (j < nJ s)%nat ->
    t i j = nth ((i * nJ s + j) mod nI s) (nth ((i * nJ s + j) / nI s) counts []) 0.
Proof.
  intros s truth m axes c counts Hok _ _ HL Hl.
  apply (product_placement s truth m axes c counts (nJ s) (nI s)); try assumption. lia.
Qed.
Print Assumptions C23_columns_are_scrambled.

Theorem C23_columns_refuted : exists s truth m axes c counts t,
  build_ct s truth m axes [] = Ok c /\ In A0 axes /\ length counts = nJ s /\
  (forall j, (j < nJ s)%nat -> multinomial_draw (nth j (m A0) 0) (nI s) (nth j counts [])) /\
  product_multinomial_attempt c counts = Ok t /\
  table_admissible c t = false /\ direct_sampling_proposal c [AtProduct counts] = Ok None.
Proof.
  exists (Shape 2 2), ex_table, (axis_margin (Shape 2 2) ex_table), [A0]. eexists. exists [[3; 0]; [3; 4]]. eexists.
  split; [reflexivity|]. split; [left; reflexivity|]. split; [reflexivity|].
  split; [|split; [reflexivity|split; reflexivity]].
  intros j Hj. cbn in Hj. destruct j as [|[|]]; [| |lia];
    (split; [reflexivity|split; [reflexivity|repeat constructor; lia]]).
Qed.
Print Assumptions C23_columns_refuted.

(** With fixed cells: every row whose number occurs as a row or as a column
    index of a fixed cell is overwritten by the supplied table, and the step
    raises when such a column index is not a row number. *)
Theorem C23_fixed_cells_copy_rows : forall c counts,
  (forall k, In k (ct_fixed c) -> (fst k < nI (ct_shape c))%nat) ->
  ((exists k, In k (ct_fixed c) /\ (nI (ct_shape c) <= snd k)%nat) ->
     product_multinomial_attempt c counts = Raise EIndex) /\
  (forall t k j, product_multinomial_attempt c counts = Ok t -> In k (ct_fixed c) ->
     t (fst k) j = ct_truth c (fst k) j /\ t (snd k) j = ct_truth c (snd k) j).
Proof.
  intros c counts HF.
  assert (IN : forall k, In k (ct_fixed c) -> In (fst k) (fixed_rows c) /\ In (snd k) (fixed_rows c)).
  { intros k Hk; unfold fixed_rows; split; apply in_flat_map; exists k; cbn; auto. }
  split.
  - intros [k [Hk L]]. unfold product_multinomial_attempt, overwrite_rows.
    destruct (forallb _ (fixed_rows c)) eqn:E; [|reflexivity].
    rewrite forallb_forall in E. destruct (IN k Hk) as [_ H2]. specialize (E _ H2). apply Nat.ltb_lt in E. lia.
  - intros t k j Ht Hk. unfold product_multinomial_attempt, overwrite_rows in Ht.
    destruct (forallb _ (fixed_rows c)); [|discriminate]. injection Ht as <-. cbv beta.
    destruct (IN k Hk) as [H1 H2].
    split.
    + assert (existsb (Nat.eqb (fst k)) (fixed_rows c) = true) as ->; [|reflexivity].
      apply existsb_exists; exists (fst k); split; [exact H1|apply Nat.eqb_refl].
    + assert (existsb (Nat.eqb (snd k)) (fixed_rows c) = true) as ->; [|reflexivity].
      apply existsb_exists; exists (snd k); split; [exact H2|apply Nat.eqb_refl].
Qed.
Print Assumptions C23_fixed_cells_copy_rows.

Example C23_nonvacuous : exists c,
  build_ct (Shape 2 3) ex_table ex_margins [A1] [] = Ok c /\
  (forall i, (i < 2)%nat -> multinomial_draw (nth i (ex_margins A1) 0) 3 (nth i [[9; 0; 0]; [4; 4; 4]] [])) /\
  nth 0 (ex_margins A01) 0 = lsum (ex_margins A1) /\
  is_ok (direct_sampling_proposal c [AtProduct [[9; 0; 0]; [4; 4; 4]]]) = true /\
  exists c', build_ct (Shape 2 3) ex_table ex_margins [A1] [(0, 2)%nat] = Ok c' /\
    forall counts, product_multinomial_attempt c' counts = Raise EIndex.
Proof.
  eexists. split; [reflexivity|]. split.
  { intros i Hi. destruct i as [|[|]]; [| |lia];
      (split; [reflexivity|split; [reflexivity|repeat constructor; lia]]). }
  split; [reflexivity|]. split; [reflexivity|]. eexists. split; [reflexivity|]. intros; reflexivity.
Qed.

(** ---- C24 ---------------------------------------------------------------- *)

Theorem C24_proposal_after_update_partial : forall s truth m axes fixed c p,
  build_ct s truth m axes fixed = Ok c ->
  update_proposal_type c p =
  Ok (if ax_in A0 axes && ax_in A1 axes then
        match p, fixed with DirectSampling, _ :: _ => DegreeHigher | _, _ => p end
      else p).
Proof.
  intros s truth m axes fixed c p Hok. unfold update_proposal_type, distribution_of.
  destruct (build_shape _ _ _ _ _ _ Hok) as [_ [_ [_ [Ea Ef]]]].
  rewrite Ea, constrained_axes_2d_eq, Ef.
  destruct (ax_in A0 axes), (ax_in A1 axes), (ax_in A01 axes); cbn; try reflexivity;
    destruct p, fixed; reflexivity.
Qed.
Print Assumptions C24_proposal_after_update_partial.

Theorem C24_switch_refuted : exists s truth m axes fixed c,
  build_ct s truth m axes fixed = Ok c /\ fixed <> [] /\
  distribution_of c = Ok ProductMultinomial /\
  update_proposal_type c DirectSampling = Ok DirectSampling.
Proof.
  exists (Shape 2 3), ex_table, ex_margins, [A1], [(0, 1)%nat]. eexists.
  split; [reflexivity|]. split; [discriminate|]. split; reflexivity.
Qed.
Print Assumptions C24_switch_refuted.


Example C24_nonvacuous : exists c,
  build_ct (Shape 3 3) five (axis_margin (Shape 3 3) five) [A0; A1] [(2, 2)%nat] = Ok c /\
  update_proposal_type c DirectSampling = Ok DegreeHigher /\
  update_proposal_type c DegreeOne = Ok DegreeOne.
Proof. eexists. split; [reflexivity|]. split; reflexivity. Qed.
