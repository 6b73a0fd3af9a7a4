(** C129: long-run behaviour of the degree-higher table sampler. *)
From Coq Require Import List ZArith Lia Bool Arith Reals Lra Relations.
From Verif Require Import Base RealBase Axes Tables TablesProps InitTables InitTablesProps MarkovBasis MarkovBasisProps MarkovWalks TableMCMC ProbUtils TableMCMCProps Kernels KernelsProps Chains.
Import ListNotations.
Local Open Scope R_scope.

(** ---- Specification ------------------------------------------------------ *)

(** Probability that the chain started at [t0] is at [u] after [n] steps; [L] lists
    the tables that meet the constraints. *)
Fixpoint law (mc : mcmc) (li : nat -> nat -> R) (L : list table) (t0 : table) (n : nat) (u : table) : R :=
  match n with
  | O => if table_eqb (ct_shape (mc_ct mc)) t0 u then 1 else 0
  | S n' => lsumf (fun t => law mc li L t0 n' t * higher_prob mc li t u) L
  end.

(** [u] can be reached from [t] by moves of the basis through non-negative tables. *)
Definition joined (mc : mcmc) (t u : table) : Prop :=
  walk (ct_shape (mc_ct mc)) (nonneg_on (ct_shape (mc_ct mc))) (mc_basis mc) t u.

(** [K] lists the tables of [L] that can be reached from [t0]. *)
Definition lists_joined (mc : mcmc) (L : list table) (t0 : table) (K : list table) : Prop :=
  NoDup K /\ forall t, In t K <-> In t L /\ joined mc t0 t.

(** ---- Walks ---------------------------------------------------------------- *)

Lemma same_on_sym : forall s t u, same_on s t u -> same_on s u t.
Proof. intros s t u H i j Hi Hj. symmetry. apply H; assumption. Qed.
Lemma same_on_trans : forall s t u v, same_on s t u -> same_on s u v -> same_on s t v.
Proof. intros s t u v H1 H2 i j Hi Hj. rewrite (H1 i j Hi Hj). apply H2; assumption. Qed.
Lemma nonneg_on_ext : forall s t u, same_on s t u -> nonneg_on s t -> nonneg_on s u.
Proof. intros s t u H Ht i j Hi Hj. rewrite <- (H i j Hi Hj). apply Ht; assumption. Qed.

Section Walks.
  Context (s : shape) (fs : list basis_fn).
  Notation W := (walk s (nonneg_on s) fs).

  Lemma walk_left : forall t u, W t u -> forall t', same_on s t t' -> W t' u.
  Proof.
    intros t u H. induction H as [t u Hg Hs|t u f eps Hg Hf He H IH]; intros t' Ht.
    - apply walk_here; [exact (nonneg_on_ext _ _ _ Ht Hg)|]. exact (same_on_trans _ _ _ _ (same_on_sym _ _ _ Ht) Hs).
    - apply (walk_move s (nonneg_on s) fs t' u f eps); [exact (nonneg_on_ext _ _ _ Ht Hg)|exact Hf|exact He|]. apply IH. intros i j Hi Hj. unfold moved. rewrite (Ht i j Hi Hj). reflexivity.
  Qed.
  Lemma walk_trans : forall t u v, W t u -> W u v -> W t v.
  Proof.
    intros t u v H. induction H as [t u Hg Hs|t u f eps Hg Hf He H IH]; intros Hv.
    - exact (walk_left _ _ Hv _ (same_on_sym _ _ _ Hs)).
    - apply (walk_move s (nonneg_on s) fs t v f eps); auto.
  Qed.
  Lemma walk_end : forall t u, W t u -> nonneg_on s u.
  Proof. intros t u H. induction H as [t u Hg Hs|]; [exact (nonneg_on_ext _ _ _ Hs Hg)|assumption]. Qed.
  Lemma walk_right : forall t u u', W t u -> same_on s u u' -> W t u'.
  Proof. intros t u u' H Hu. apply (walk_trans t u u' H). apply walk_here; [exact (walk_end _ _ H)|exact Hu]. Qed.
  Lemma walk_back : forall t u, W t u -> W u t.
  Proof.
    intros t u H. induction H as [t u Hg Hs|t u f eps Hg Hf He H IH].
    - apply walk_here; [exact (nonneg_on_ext _ _ _ Hs Hg)|exact (same_on_sym _ _ _ Hs)].
    - apply (walk_trans u (moved t f eps) t IH). apply (walk_move s (nonneg_on s) fs _ _ f (- eps)%Z); [exact (walk_end _ _ IH)|exact Hf|lia|].
      apply walk_here; [apply (nonneg_on_ext s t); [|exact Hg]|]; intros i j _ _; unfold moved; lia.
  Qed.
End Walks.

Lemma moved_square : forall i j i' j' e t, (i < i')%nat -> (j < j')%nat ->
  let u := moved t (square_move (i, j) (i', j')) e in
  u i j = (t i j + e)%Z /\ u i j' = (t i j' - e)%Z /\ u i' j = (t i' j - e)%Z /\ u i' j' = (t i' j' + e)%Z /\
  forall a b, ~ In (a, b) (four i j i' j') -> u a b = t a b.
Proof.
  intros i j i' j' e t Hi Hj u. destruct (minor_eq i j i' j' (Some (t i j + e)%Z) t Hi Hj) as [v [_ [V1 [V2 [V3 [V4 [V5 V6]]]]]]]. cbv zeta in *.
  assert (E : forall a b, u a b = v a b) by (intros a b; unfold u, moved; rewrite V6; f_equal; f_equal; lia).
  rewrite !E. split; [lia|]. split; [lia|]. split; [lia|]. split; [lia|]. intros a b Hn. rewrite E. apply V5. cbn in Hn.
  destruct (Nat.eq_dec a i) as [->|]; [destruct (Nat.eq_dec b j) as [->|]; [tauto|destruct (Nat.eq_dec b j') as [->|]; [tauto|auto]]|].
  destruct (Nat.eq_dec a i') as [->|]; [destruct (Nat.eq_dec b j) as [->|]; [tauto|destruct (Nat.eq_dec b j') as [->|]; [tauto|auto]]|auto].
Qed.

Section Linked.
  Context (s : shape) (i j i' j' : nat) (Hi : (i < i')%nat) (Hj : (j < j')%nat) (HI : (i' < nI s)%nat) (HJ : (j' < nJ s)%nat).

  Lemma moved_linked : forall t e, linked s i j i' j' t (moved t (square_move (i, j) (i', j')) e).
  Proof.
    intros t e. destruct (moved_square i j i' j' e t Hi Hj) as [E1 [E2 [E3 [E4 E5]]]]. cbv zeta in *. unfold linked. rewrite E1, E2, E3, E4.
    repeat split; try lia. intros a b _ _ Hn. symmetry. apply E5. exact Hn.
  Qed.
  Lemma linked_ext : forall t u t' u', same_on s t t' -> same_on s u u' -> linked s i j i' j' t u -> linked s i j i' j' t' u'.
  Proof.
    intros t u t' u' Ht Hu [L1 [L2 [L3 L4]]]. unfold linked.
    rewrite <- (Ht i j), <- (Ht i j'), <- (Ht i' j), <- (Ht i' j'), <- (Hu i j), <- (Hu i j'), <- (Hu i' j), <- (Hu i' j') by lia.
    repeat split; try assumption. intros a b Ha Hb Hn. rewrite <- (Ht a b Ha Hb), <- (Hu a b Ha Hb). apply L4; assumption.
  Qed.
  Lemma linked_refl : forall t, linked s i j i' j' t t.
  Proof. intros t. unfold linked. repeat split; lia. Qed.

  Lemma linked_walk : forall fs t u, In (square_move (i, j) (i', j')) fs -> nonneg_on s t -> nonneg_on s u -> linked s i j i' j' t u -> walk s (nonneg_on s) fs t u.
  Proof.
    intros fs t u Hf Ht Hu. remember (Z.to_nat (Z.abs (u i j - t i j))) as n eqn:En. revert t Ht En. induction n as [|n IH]; intros t Ht En [L1 [L2 [L3 L4]]].
    - apply walk_here; [exact Ht|]. intros a b Ha Hb. destruct (in_dec (fun x y : cell => ltac:(repeat decide equality)) (a, b) (four i j i' j')) as [Hin|Hn]; [|apply L4; assumption].
      cbn in Hin. destruct Hin as [H|[H|[H|[H|[]]]]]; inversion H; subst a b; lia.
    - set (e := if (t i j <? u i j)%Z then 1%Z else (-1)%Z). assert (He : (e = 1 /\ t i j < u i j \/ e = -1 /\ u i j < t i j)%Z) by (unfold e; destruct (Z.ltb_spec (t i j) (u i j)); lia).
      destruct (moved_square i j i' j' e t Hi Hj) as [E1 [E2 [E3 [E4 E5]]]]. cbv zeta in *. set (v := moved t (square_move (i, j) (i', j')) e) in *.
      pose proof (Hu i j ltac:(lia) ltac:(lia)). pose proof (Hu i j' ltac:(lia) ltac:(lia)). pose proof (Hu i' j ltac:(lia) ltac:(lia)). pose proof (Hu i' j' ltac:(lia) ltac:(lia)).
      pose proof (Ht i j ltac:(lia) ltac:(lia)). pose proof (Ht i j' ltac:(lia) ltac:(lia)). pose proof (Ht i' j ltac:(lia) ltac:(lia)). pose proof (Ht i' j' ltac:(lia) ltac:(lia)).
      apply (walk_move s (nonneg_on s) fs t u (square_move (i, j) (i', j')) e Ht Hf); [lia|]. fold v. clearbody e v. apply IH.
      + intros a b Ha Hb. destruct (in_dec (fun x y : cell => ltac:(repeat decide equality)) (a, b) (four i j i' j')) as [Hin|Hn].
        * cbn in Hin. destruct Hin as [G|[G|[G|[G|[]]]]]; inversion G; subst a b; lia.
        * rewrite (E5 a b Hn). apply Ht; assumption.
      + lia.
      + unfold linked. rewrite E1, E2, E3, E4. repeat split; try lia. intros a b Ha Hb Hn. rewrite (E5 a b Hn). apply L4; assumption.
  Qed.

  Lemma minor_prob_pos : forall li t u, nonneg_on s u -> linked s i j i' j' t u ->
    safe_cast (exp (log_odds_cross_ratio li (i, j) (i', j'))) = exp (log_odds_cross_ratio li (i, j) (i', j')) -> 0 < minor_prob s li (square_move (i, j) (i', j')) t u.
  Proof.
    intros li t u Hu Hl Hc. rewrite (minor_prob_linked s li i j i' j' Hi Hj HI HJ t u Hl Hu), Hc. destruct (linked_sums s i j i' j' Hi Hj HI HJ t u Hl) as [E1 [E2 E3]]. rewrite <- E3, <- E1, <- E2.
    pose proof (Hu i j ltac:(lia) ltac:(lia)). pose proof (Hu i j' ltac:(lia) ltac:(lia)). pose proof (Hu i' j ltac:(lia) ltac:(lia)). pose proof (Hu i' j' ltac:(lia) ltac:(lia)).
    unfold nchf_pmf. apply Rdiv_lt_0_compat.
    - rewrite nchf_weight_eq by lia. assert (P : forall z, 0 < fz z) by apply fz_pos. unfold Rdiv. repeat apply Rmult_lt_0_compat; auto using exp_pos. apply Rinv_0_lt_compat. repeat apply Rmult_lt_0_compat; auto.
    - apply nchf_total_pos. intros E. assert (Hin : In (u i j) (nchf_support (u i j + u i j' + u i' j + u i' j') (u i j + u i j') (u i j + u i' j))) by (apply nchf_support_in; lia). rewrite E in Hin. destruct Hin.
  Qed.
End Linked.

Lemma rsum_nonneg' : forall n f, (forall k, (k < n)%nat -> 0 <= f k) -> 0 <= rsum n f.
Proof. induction n as [|n IH]; intros f H; [cbn; lra|]. rewrite rsum_S. pose proof (H n ltac:(lia)). assert (0 <= rsum n f) by (apply IH; intros; apply H; lia). lra. Qed.
Lemma rsum_term : forall n f k, (k < n)%nat -> (forall k, (k < n)%nat -> 0 <= f k) -> f k <= rsum n f.
Proof.
  induction n as [|n IH]; intros f k Hk H; [lia|]. rewrite rsum_S. pose proof (H n ltac:(lia)). assert (0 <= rsum n f) by (apply rsum_nonneg'; intros; apply H; lia).
  destruct (Nat.eq_dec k n) as [->|]; [lra|]. assert (f k <= rsum n f) by (apply IH; [lia|]; intros; apply H; lia). lra.
Qed.

Section Sampler.
  Context (s : shape) (truth : table) (m : margins) (axes : list ax) (fixed : list cell) (c : ct) (draws : nat -> nat) (mc : mcmc) (li : nat -> nat -> R)
    (Wm : forall a, length (m a) = axis_len s a) (Hfix : forall k, In k fixed -> in_shape s k)
    (Hok : build_ct s truth m axes fixed = Ok c) (Hmc : build_mcmc c DegreeHigher draws = Ok mc) (Hodds : odds_in_range s li) (Hne : mc_basis mc <> []).

  Lemma sampler_facts : mc_prop mc = DegreeHigher /\ mc_ct mc = c /\ ct_shape c = s /\
    forall f, In f (mc_basis mc) -> exists i j i' j', f = square_move (i, j) (i', j') /\ (i < i')%nat /\ (j < j')%nat /\ (i' < nI s)%nat /\ (j' < nJ s)%nat.
  Proof.
    destruct (higher_basis _ _ _ _ _ _ _ _ Hok Hmc) as [Hp [Hct [Hg [H0 H1]]]]. destruct (build_shape _ _ _ _ _ _ Hok) as [Es _].
    assert (Hb : ax_in A0 axes && ax_in A1 axes = true) by (rewrite andb_true_iff, !ax_in_spec; tauto).
    assert (Hax : ax_in A0 axes || ax_in A1 axes = true) by (rewrite orb_true_iff, !ax_in_spec; tauto).
    destruct (generate_both s truth m axes fixed c Hok Hax Hb draws) as [fs' [E HF]]. rewrite Hg in E; inversion E; subst fs'; clear E.
    split; [exact Hp|]. split; [exact Hct|]. split; [exact Es|]. intros f Hf. destruct (HF f Hf) as [[i j] [[i' j'] [Ef [_ [[[HI HJ] _] [_ [_ [L1 L2]]]]]]]]. cbn [fst snd] in *. exists i, j, i', j'. auto.
  Qed.

  (** Steps of positive probability. *)
  Definition one_step (t u : table) : Prop := exists i j i' j', In (square_move (i, j) (i', j')) (mc_basis mc) /\ (i < i')%nat /\ (j < j')%nat /\ (i' < nI s)%nat /\ (j' < nJ s)%nat /\ linked s i j i' j' t u.

  Lemma higher_terms : forall t u, higher_prob mc li t u = rsum (length (mc_basis mc)) (fun idx => / INR (length (mc_basis mc)) * minor_prob s li (nth idx (mc_basis mc) []) t u).
  Proof. intros t u. destruct sampler_facts as [Hp [Hct [Es _]]]. rewrite higher_prob_minors, Hct, Es by exact Hp. reflexivity. Qed.

  Lemma minor_nonneg : forall t u idx, nonneg_on s u -> (idx < length (mc_basis mc))%nat -> 0 <= / INR (length (mc_basis mc)) * minor_prob s li (nth idx (mc_basis mc) []) t u.
  Proof.
    intros t u idx Hu Hidx. apply Rmult_le_pos; [left; apply Rinv_0_lt_compat, lt_0_INR; lia|].
    destruct sampler_facts as [_ [_ [_ HB]]]. destruct (HB (nth idx (mc_basis mc) []) (nth_In (mc_basis mc) [] Hidx)) as [i [j [i' [j' [-> [L1 [L2 [HI HJ]]]]]]]].
    destruct (linked_dec s i j i' j' L1 L2 HI HJ t u) as [Hl|Hl]; [left; apply minor_prob_pos; auto; apply safe_cast_id, Hodds; assumption|right; symmetry; apply minor_prob_unlinked; assumption].
  Qed.
  Lemma higher_nonneg : forall t u, nonneg_on s u -> 0 <= higher_prob mc li t u.
  Proof. intros t u Hu. rewrite higher_terms. apply rsum_nonneg'. intros idx Hidx. apply minor_nonneg; assumption. Qed.
  Lemma higher_pos : forall t u, nonneg_on s u -> one_step t u -> 0 < higher_prob mc li t u.
  Proof.
    intros t u Hu [i [j [i' [j' [Hf [L1 [L2 [HI [HJ Hl]]]]]]]]]. rewrite higher_terms. destruct (In_nth (mc_basis mc) _ [] Hf) as [idx [Hidx En]].
    eapply Rlt_le_trans; [|apply (rsum_term _ _ idx Hidx)]; [|intros k Hk; apply minor_nonneg; assumption]. cbv beta. rewrite En.
    apply Rmult_lt_0_compat; [apply Rinv_0_lt_compat, lt_0_INR; lia|]. apply minor_prob_pos; auto. apply safe_cast_id, Hodds; assumption.
  Qed.
  Lemma higher_zero : forall t u, ~ one_step t u -> higher_prob mc li t u = 0.
  Proof.
    intros t u Hn. rewrite higher_terms. rewrite (rsum_ext _ _ (fun _ => 0)); [rewrite rsum_const; ring|]. intros idx Hidx. destruct sampler_facts as [_ [_ [_ HB]]]. pose proof (nth_In (mc_basis mc) [] Hidx) as Hin. destruct (HB (nth idx (mc_basis mc) []) Hin) as [i [j [i' [j' [Ef [L1 [L2 [HI HJ]]]]]]]]. rewrite Ef in *.
    rewrite minor_prob_unlinked; [ring|assumption..|]. intros Hl. apply Hn. exists i, j, i', j'. auto 10.
  Qed.
  Lemma one_step_self : forall t, one_step t t.
  Proof.
    intros t. destruct (mc_basis mc) as [|f fs] eqn:Eb; [congruence|]. destruct sampler_facts as [_ [_ [_ HB]]]. destruct (HB f) as [i [j [i' [j' [Ef [L1 [L2 [HI HJ]]]]]]]]; [rewrite Eb; left; reflexivity|].
    exists i, j, i', j'. rewrite Eb, <- Ef. split; [left; reflexivity|]. repeat split; auto; try lia.
  Qed.
  Lemma one_step_walk : forall t u, nonneg_on s t -> nonneg_on s u -> one_step t u -> walk s (nonneg_on s) (mc_basis mc) t u.
  Proof. intros t u Ht Hu [i [j [i' [j' [Hf [L1 [L2 [HI [HJ Hl]]]]]]]]]. apply (linked_walk s i j i' j'); assumption. Qed.
  Lemma one_step_ext : forall t u t' u', same_on s t t' -> same_on s u u' -> one_step t u -> one_step t' u'.
  Proof. intros t u t' u' Ht Hu [i [j [i' [j' [Hf [L1 [L2 [HI [HJ Hl]]]]]]]]]. exists i, j, i', j'. repeat (split; [assumption|]). apply (linked_ext s i j i' j' L1 L2 HI HJ t u); assumption. Qed.

  Lemma step_admissible : forall t u, table_admissible c t = true -> one_step t u -> table_admissible c u = true.
  Proof.
    intros t u Ha [i [j [i' [j' [Hf [L1 [L2 [HI [HJ Hl]]]]]]]]]. destruct sampler_facts as [Hp [Hct [Es _]]]. destruct (In_nth (mc_basis mc) _ [] Hf) as [idx [Hidx Ef]].
    pose proof (proj2 (minor_hits_iff s i j i' j' L1 L2 HI HJ t u (u i j)) (conj eq_refl Hl)) as Hh. unfold minor_hits in Hh.
    destruct (degree_higher_minor _ _ _) as [w|] eqn:Hw; [|discriminate]. apply table_eqb_spec in Hh.
    assert (Hr : reaches mc t w).
    { eapply (reach_step mc t t w li (Draw idx true (Some (u i j)) [] None) 1); [apply reach_here|].
      unfold table_gibbs_step, propose. rewrite Hp. cbn [d_idx d_val]. unfold degree_higher_proposal, pick_basis.
      destruct (mc_basis mc) as [|f0 fs] eqn:Eb; [cbn in Hidx; lia|]. rewrite Nat.mod_small by exact Hidx. cbn [rbind].
      rewrite (nth_indep (f0 :: fs) f0 [] Hidx), Ef, Hw. cbn [rbind]. unfold log_acceptance. rewrite Hp. cbn [rbind].
      unfold accepts. assert (Rleb 0 0 = true) as -> by (apply Rleb_spec; lra). reflexivity. }
    destruct (C18_chain_stays_admissible s truth m axes fixed c DegreeHigher draws mc t w Wm Hok Hmc Ha Hr) as [Hw' _]. rewrite <- Hw'. symmetry.
    apply table_admissible_ext; [rewrite Es; exact Hh|]. rewrite Es, (proj2 (proj2 (proj2 (proj2 (build_shape _ _ _ _ _ _ Hok))))). exact Hfix.
  Qed.

  Context (L : list table) (t0 : table) (HL : lists_tables c L) (Ht0 : table_admissible c t0 = true) (Ht0n : nonneg_on s t0).
  Notation W := (walk s (nonneg_on s) (mc_basis mc)).

  Lemma L_same : forall t u, In t L -> In u L -> same_on s t u -> t = u.
  Proof.
    destruct sampler_facts as [_ [_ [Es _]]]. destruct HL as [_ [HLd _]]. rewrite Es in HLd. clear HL. induction HLd as [|x l Hx Hl IH]; [intros t u []|].
    rewrite Forall_forall in Hx. intros t u [<-|Ht] [<-|Hu] E; [reflexivity|exfalso; exact (Hx u Hu E)|exfalso; apply (Hx t Ht); apply same_on_sym; exact E|apply IH; assumption].
  Qed.
  Lemma L_NoDup : NoDup L.
  Proof.
    destruct sampler_facts as [_ [_ [Es _]]]. destruct HL as [_ [HLd _]]. clear HL. induction HLd as [|x l Hx Hl IH]; constructor; [|exact IH]. intros Hin. rewrite Forall_forall in Hx. apply (Hx x Hin). intros i j _ _. reflexivity.
  Qed.

  (** A walk between listed tables is a path of steps of positive probability. *)
  Lemma walk_path : forall K t u, (forall v, In v K <-> In v L /\ W t0 v) -> W t u -> In t K -> In u K -> clos_refl_trans_1n table (arc K (higher_prob mc li)) t u.
  Proof.
    destruct sampler_facts as [_ [_ [Es HB]]]. destruct HL as [HLa [HLd HLc]]. rewrite Es in *.
    assert (G : forall K t u, (forall v, In v K <-> In v L /\ W t0 v) -> W t u -> forall t', same_on s t t' -> In t' K -> In u K -> clos_refl_trans_1n table (arc K (higher_prob mc li)) t' u).
    { intros K t u HK H. induction H as [t u Hg Hs|t u f eps Hg Hf He H IH]; intros t' Ht Ht' Hu.
      - assert (t' = u) as ->; [|constructor]. apply L_same; [apply HK; exact Ht'|apply HK; exact Hu|]. exact (same_on_trans _ _ _ _ (same_on_sym _ _ _ Ht) Hs).
      - destruct (HB f Hf) as [i [j [i' [j' [Ef [L1 [L2 [HI HJ]]]]]]]]. destruct (proj1 (HK t') Ht') as [HtL HtW]. destruct (HLa t' HtL) as [Hta Htn].
        assert (Hst : one_step t (moved t f eps)) by (exists i, j, i', j'; rewrite <- Ef; repeat (split; [assumption|]); rewrite Ef; apply moved_linked; assumption).
        assert (Hst' : one_step t' (moved t f eps)) by (apply (one_step_ext t (moved t f eps)); [exact Ht|intros a b _ _; reflexivity|exact Hst]).
        assert (Hng : nonneg_on s (moved t f eps)) by exact (walk_good _ _ _ _ _ H).
        destruct (HLc (moved t f eps) (step_admissible t' _ Hta Hst') Hng) as [v [HvL Hv]].
        assert (HvK : In v K).
        { apply HK. split; [exact HvL|]. apply (walk_trans s (mc_basis mc) t0 t' v HtW). apply one_step_walk; [exact Htn|exact (nonneg_on_ext _ _ _ Hv Hng)|]. apply (one_step_ext t' (moved t f eps)); [intros a b _ _; reflexivity|exact Hv|exact Hst']. }
        apply (Relation_Operators.rt1n_trans _ _ t' v u); [|apply IH; assumption]. split; [exact Ht'|]. split; [exact HvK|]. apply higher_pos; [exact (nonneg_on_ext _ _ _ Hv Hng)|].
        apply (one_step_ext t' (moved t f eps)); [intros a b _ _; reflexivity|exact Hv|exact Hst']. }
    intros K t u HK H Ht Hu. apply (G K t u HK H t); auto. intros a b _ _. reflexivity.
  Qed.

  Context (K : list table) (HKn : NoDup K) (HK : forall v, In v K <-> In v L /\ W t0 v).

  Lemma K_nonneg : forall t, In t K -> nonneg_on s t.
  Proof. intros t Ht. apply HK in Ht as [Ht _]. destruct sampler_facts as [_ [_ [Es _]]]. destruct HL as [HLa _]. rewrite Es in HLa. apply HLa. exact Ht. Qed.
  Lemma K_in_dec : forall u, In u L -> In u K \/ ~ In u K.
  Proof.
    intros u Hu. destruct (existsb (table_eqb s u) K) eqn:E.
    - left. apply existsb_exists in E as [v [Hv E]]. apply table_eqb_spec in E. rewrite (L_same u v Hu); [exact Hv|apply HK; exact Hv|exact E].
    - right. intros H. assert (existsb (table_eqb s u) K = true); [|congruence]. apply existsb_exists. exists u. split; [exact H|]. apply table_eqb_spec. intros a b _ _. reflexivity.
  Qed.
  Lemma K_closed : forall t u, In t K -> In u L -> ~ In u K -> higher_prob mc li t u = 0.
  Proof.
    intros t u Ht Hu Hn. apply higher_zero. intros Hs. apply Hn. apply HK. split; [exact Hu|]. destruct (proj1 (HK t) Ht) as [_ HW]. apply (walk_trans s (mc_basis mc) t0 t u HW). apply one_step_walk; [exact (K_nonneg t Ht)| |exact Hs].
    destruct sampler_facts as [_ [_ [Es _]]]. destruct HL as [HLa _]. rewrite Es in HLa. apply HLa. exact Hu.
  Qed.
  Lemma K_incl : incl K L.
  Proof. intros t Ht. apply HK. exact Ht. Qed.
  Lemma K_total : forall t, In t K -> lsumf (higher_prob mc li t) K = 1.
  Proof.
    intros t Ht. destruct (C125_fisher_step s truth m axes fixed c draws mc li Wm Hfix Hok Hmc Hodds) as [_ H]. destruct (H Hne L HL t (K_incl t Ht)) as [HS _].
    rewrite <- HS. symmetry. apply lsumf_support; [exact L_NoDup|exact HKn|exact K_incl|]. intros u Hu Hn. apply K_closed; assumption.
  Qed.

  Lemma start_listed : exists r, In r K /\ same_on s t0 r.
  Proof.
    destruct sampler_facts as [_ [_ [Es _]]]. destruct HL as [_ [_ HLc]]. rewrite Es in HLc. destruct (HLc t0 Ht0 Ht0n) as [r [Hr Hs]]. exists r. split; [|exact Hs]. apply HK. split; [exact Hr|]. apply walk_here; assumption.
  Qed.
  Definition start (u : table) : R := if table_eqb s t0 u then 1 else 0.
  Lemma start_total : lsumf start K = 1.
  Proof.
    destruct sampler_facts as [_ [_ [Es _]]]. destruct start_listed as [r [Hr Hs]]. rewrite <- (lsumf_support _ start K L L_NoDup HKn K_incl).
    - destruct HL as [_ [HLd _]]. rewrite Es in HLd. apply (hits_once s L t0 r HLd (K_incl r Hr) Hs).
    - intros u Hu Hn. unfold start. destruct (table_eqb s t0 u) eqn:E; [|reflexivity]. exfalso. apply Hn. apply table_eqb_spec in E. rewrite <- (L_same r u (K_incl r Hr) Hu); [exact Hr|]. exact (same_on_trans _ _ _ _ (same_on_sym _ _ _ Hs) E).
  Qed.
  Lemma law_outside : forall n u, In u L -> ~ In u K -> law mc li L t0 n u = 0.
  Proof.
    destruct sampler_facts as [_ [Hct [Es _]]]. induction n as [|n IH]; intros u Hu Hn; cbn [law].
    - rewrite Hct, Es. destruct (table_eqb s t0 u) eqn:E; [|reflexivity]. exfalso. apply Hn. destruct start_listed as [r [Hr Hs]]. apply table_eqb_spec in E. rewrite <- (L_same r u (K_incl r Hr) Hu); [exact Hr|]. exact (same_on_trans _ _ _ _ (same_on_sym _ _ _ Hs) E).
    - apply lsumf_zero. intros t Ht. destruct (K_in_dec t Ht) as [Hk|Hk]; [rewrite (K_closed t u Hk Hu Hn); ring|rewrite (IH t Ht Hk); ring].
  Qed.
  Lemma law_inside : forall n u, law mc li L t0 n u = after K (higher_prob mc li) n start u.
  Proof.
    destruct sampler_facts as [_ [Hct [Es _]]]. induction n as [|n IH]; intros u; cbn [law after]; [rewrite Hct, Es; reflexivity|].
    rewrite (lsumf_support _ (fun t => law mc li L t0 n t * higher_prob mc li t u) K L L_NoDup HKn K_incl).
    - apply lsumf_ext. intros t _. rewrite IH. reflexivity.
    - intros t Ht Hk. rewrite (law_outside n t Ht Hk). ring.
  Qed.

  Definition limit_prob (u : table) : R := target s li u / lsumf (target s li) K.
  Lemma limit_total : lsumf limit_prob K = 1.
  Proof.
    unfold limit_prob, Rdiv. rewrite (lsumf_ext _ _ (fun u => / lsumf (target s li) K * target s li u)) by (intros; ring). rewrite lsumf_scal. apply Rinv_l. apply Rgt_not_eq. apply lsumf_pos; [|intros; apply target_pos].
    destruct start_listed as [r [Hr _]]. intros E. rewrite E in Hr. destruct Hr.
  Qed.
  Lemma limit_invariant : forall u, In u K -> lsumf (fun t => limit_prob t * higher_prob mc li t u) K = limit_prob u.
  Proof.
    intros u Hu. destruct (C125_fisher_step s truth m axes fixed c draws mc li Wm Hfix Hok Hmc Hodds) as [HD _]. unfold limit_prob, Rdiv.
    rewrite (lsumf_ext _ _ (fun t => target s li u * / lsumf (target s li) K * higher_prob mc li u t)).
    - rewrite lsumf_scal. transitivity (target s li u * / lsumf (target s li) K * 1); [f_equal; apply K_total; exact Hu|ring].
    - intros t Ht. pose proof (HD t u (K_nonneg t Ht) (K_nonneg u Hu)) as E. transitivity (/ lsumf (target s li) K * (target s li t * higher_prob mc li t u)); [ring|]. rewrite E. ring.
  Qed.

  Lemma sampler_converges : exists k q C, (0 < k)%nat /\ 0 <= q < 1 /\ forall n, lsumf (fun u => Rabs (law mc li L t0 n u - limit_prob u)) K <= q ^ (n / k) * C.
  Proof.
    destruct (chain_converges K (higher_prob mc li)) with (mu := start) (pi := limit_prob) as [k [q [Hk [Hq H]]]].
    - intros x y _ Hy. apply higher_nonneg. exact (K_nonneg y Hy).
    - exact K_total.
    - destruct start_listed as [r [Hr _]]. exists r. split; [exact Hr|]. apply higher_pos; [exact (K_nonneg r Hr)|apply one_step_self].
    - intros x y Hx Hy. apply clos_rt_rtn1, clos_rt1n_rt. apply walk_path; auto. destruct (proj1 (HK x) Hx) as [_ Wx]. destruct (proj1 (HK y) Hy) as [_ Wy]. exact (walk_trans _ _ _ _ _ (walk_back _ _ _ _ Wx) Wy).
    - destruct start_listed as [r [Hr _]]. intros E. rewrite E in Hr. destruct Hr.
    - exact start_total.
    - exact limit_total.
    - exact limit_invariant.
    - exists k, q, (size K (fun y => start y - limit_prob y)). split; [exact Hk|]. split; [exact Hq|]. intros n. unfold size in H. rewrite (lsumf_ext _ _ (fun u => Rabs (after K (higher_prob mc li) n start u - limit_prob u))) by (intros u _; rewrite law_inside; reflexivity). apply H.
  Qed.
End Sampler.

(** ---- C129 ------------------------------------------------------------------ *)

(** From any start table the probabilities converge geometrically to the target
    distribution restricted to the tables the moves reach from the start; the other
    tables are never visited. *)
Theorem C129_limit : forall s truth m axes fixed c draws mc li L K t0,
  (forall a, length (m a) = axis_len s a) -> (forall k, In k fixed -> in_shape s k) ->
  build_ct s truth m axes fixed = Ok c -> build_mcmc c DegreeHigher draws = Ok mc ->
  odds_in_range s li -> mc_basis mc <> [] ->
  lists_tables c L -> table_admissible c t0 = true -> nonneg_on s t0 -> lists_joined mc L t0 K ->
  (forall u, In u K -> Un_cv (fun n => law mc li L t0 n u) (target s li u / lsumf (target s li) K)) /\
  (forall u, In u L -> ~ In u K -> forall n, law mc li L t0 n u = 0) /\
  (exists k q C, (0 < k)%nat /\ 0 <= q < 1 /\
     forall n, lsumf (fun u => Rabs (law mc li L t0 n u - target s li u / lsumf (target s li) K)) K <= q ^ (n / k) * C).
Proof.
  intros s truth m axes fixed c draws mc li L K t0 Wm Hfix Hok Hmc Hodds Hne HL Ht0 Ht0n [HKn HK].
  assert (Es : ct_shape (mc_ct mc) = s) by (destruct (sampler_facts s truth m axes fixed c draws mc Hok Hmc) as [_ [Hct [Es _]]]; rewrite Hct; exact Es).
  assert (HK' : forall v, In v K <-> In v L /\ walk s (nonneg_on s) (mc_basis mc) t0 v) by (unfold joined in HK; rewrite Es in HK; exact HK).
  destruct (sampler_converges s truth m axes fixed c draws mc li Wm Hfix Hok Hmc Hodds Hne L t0 HL Ht0 Ht0n K HKn HK') as [k [q [C [Hk [Hq H]]]]].
  split; [|split; [|exists k, q, C; split; [exact Hk|]; split; [exact Hq|exact H]]].
  - intros u Hu. apply (geometric_limit _ _ k q C Hk Hq). intros n. eapply Rle_trans; [|apply (H n)]. apply (lsumf_term _ (fun u => Rabs (law mc li L t0 n u - limit_prob s li K u)) K u Hu). intros; apply Rabs_pos.
  - intros u Hu Hn n. apply (law_outside s truth m axes fixed c draws mc li Hok Hmc L t0 HL Ht0 Ht0n K HK' n u Hu Hn).
Qed.
Print Assumptions C129_limit.

(** The chain converges to the target over all tables exactly when its moves reach
    every table from the start. *)
Theorem C129_converges_iff_joined : forall s truth m axes fixed c draws mc li L K t0,
  (forall a, length (m a) = axis_len s a) -> (forall k, In k fixed -> in_shape s k) ->
  build_ct s truth m axes fixed = Ok c -> build_mcmc c DegreeHigher draws = Ok mc ->
  odds_in_range s li -> mc_basis mc <> [] ->
  lists_tables c L -> table_admissible c t0 = true -> nonneg_on s t0 -> lists_joined mc L t0 K ->
  ((forall u, In u L -> Un_cv (fun n => law mc li L t0 n u) (target s li u / lsumf (target s li) L)) <->
   (forall u, In u L -> joined mc t0 u)).
Proof.
  intros s truth m axes fixed c draws mc li L K t0 Wm Hfix Hok Hmc Hodds Hne HL Ht0 Ht0n [HKn HK].
  assert (Es : ct_shape (mc_ct mc) = s) by (destruct (sampler_facts s truth m axes fixed c draws mc Hok Hmc) as [_ [Hct [Es _]]]; rewrite Hct; exact Es).
  assert (HK' : forall v, In v K <-> In v L /\ walk s (nonneg_on s) (mc_basis mc) t0 v) by (unfold joined in HK; rewrite Es in HK; exact HK).
  destruct (C129_limit s truth m axes fixed c draws mc li L K t0 Wm Hfix Hok Hmc Hodds Hne HL Ht0 Ht0n (conj HKn HK)) as [H1 [H2 _]]. split.
  - intros H u Hu. apply HK. destruct (K_in_dec s truth m axes fixed c draws mc Hok Hmc L t0 HL K HK' u Hu) as [Hk|Hk]; [exact Hk|exfalso].
    assert (Hz : Un_cv (fun n => law mc li L t0 n u) 0) by (intros eps He; exists 0%nat; intros n _; rewrite (H2 u Hu Hk n); unfold R_dist; rewrite Rminus_0_r, Rabs_R0; exact He).
    pose proof (UL_sequence _ _ _ Hz (H u Hu)) as E. assert (0 < target s li u / lsumf (target s li) L); [|lra]. apply Rdiv_lt_0_compat; [apply target_pos|]. apply lsumf_pos; [intros E'; rewrite E' in Hu; destruct Hu|intros; apply target_pos].
  - intros H u Hu. assert (E : lsumf (target s li) L = lsumf (target s li) K).
    { apply lsumf_support; [exact (L_NoDup s truth m axes fixed c draws mc Hok Hmc L HL)|exact HKn|intros v Hv; apply HK; exact Hv|]. intros v Hv Hn. exfalso. apply Hn. apply HK. split; [exact Hv|apply H; exact Hv]. }
    rewrite E. apply H1. apply HK. split; [exact Hu|apply H; exact Hu].
Qed.
Print Assumptions C129_converges_iff_joined.

Lemma walk_weaken : forall s (g h : table -> Prop) fs t u, (forall v, g v -> h v) -> walk s g fs t u -> walk s h fs t u.
Proof. intros s g h fs t u H W. induction W as [t u Hg Hs|t u f eps Hg Hf He W IH]; [apply walk_here; auto|]. apply (walk_move s h fs t u f eps); auto. Qed.

Lemma admissible_same_margins : forall s truth m axes c t u, (forall a, length (m a) = axis_len s a) -> In A0 axes -> In A1 axes -> build_ct s truth m axes [] = Ok c ->
  table_admissible c t = true -> table_admissible c u = true -> same_margins s [A0; A1] t u.
Proof.
  intros s truth m axes c t u Wm H0 H1 Hok Ht Hu. destruct (build_shape _ _ _ _ _ _ Hok) as [Es [_ [Em [Ea _]]]].
  apply ax_in_spec in H0, H1. assert (Hl : forall a, length (ct_margins c a) = axis_len (ct_shape c) a) by (intros a; rewrite Em, Es; apply Wm).
  apply (C01_admissible_iff c t Hl) in Ht as [T1 [T0 [T01 _]]]. apply (C01_admissible_iff c u Hl) in Hu as [U1 [U0 [U01 _]]]. rewrite Es in *.
  assert (C1 : In A1 (ct_caxes c)) by (rewrite Ea, constrained_axes_2d_eq, H0, H1; destruct (ax_in A01 axes); cbn; tauto). assert (C0 : In A0 (ct_caxes c)) by (rewrite Ea, constrained_axes_2d_eq, H0, H1; destruct (ax_in A01 axes); cbn; tauto).
  split; [|split].
  - intros _ i Hi. unfold row_sum. rewrite (T1 C1 i Hi), (U1 C1 i Hi). reflexivity.
  - intros _ j Hj. unfold col_sum. rewrite (T0 C0 j Hj), (U0 C0 j Hj). reflexivity.
  - unfold total. apply zsum_ext. intros i Hi. unfold row_sum. rewrite (T1 C1 i Hi), (U1 C1 i Hi). reflexivity.
Qed.

(** A basis that connects all tables samples the target from every start table. *)
Theorem C129_connected_basis : forall s truth m axes c draws mc li L t0,
  (forall a, length (m a) = axis_len s a) ->
  build_ct s truth m axes [] = Ok c -> build_mcmc c DegreeHigher draws = Ok mc ->
  odds_in_range s li -> mc_basis mc <> [] -> connects s (mc_basis mc) ->
  lists_tables c L -> table_admissible c t0 = true -> nonneg_on s t0 ->
  forall u, In u L -> Un_cv (fun n => law mc li L t0 n u) (target s li u / lsumf (target s li) L).
Proof.
  intros s truth m axes c draws mc li L t0 Wm Hok Hmc Hodds Hne Hcon HL Ht0 Ht0n.
  destruct (sampler_facts s truth m axes [] c draws mc Hok Hmc) as [_ [Hct [Es _]]]. destruct (higher_basis _ _ _ _ _ _ _ _ Hok Hmc) as [_ [_ [_ [H0 H1]]]].
  assert (HJ : forall u, In u L -> joined mc t0 u).
  { intros u Hu. unfold joined. rewrite Hct, Es. destruct HL as [HLa _]. rewrite Es in HLa. destruct (HLa u Hu) as [Hua Hun].
    eapply walk_weaken; [|apply (Hcon t0 u Ht0n Hun)]; [intros v [Hv _]; exact Hv|]. apply (admissible_same_margins s truth m axes c); assumption. }
  apply (C129_converges_iff_joined s truth m axes [] c draws mc li L L t0); auto; [intros k []|].
  split; [exact (L_NoDup s truth m axes [] c draws mc Hok Hmc L HL)|]. intros t. split; [intros Ht; auto|tauto].
Qed.
Print Assumptions C129_connected_basis.

(** Two-by-two tables: the sampler always converges to the target. *)
Theorem C129_two_by_two : forall s truth m axes c draws mc li L t0,
  nI s = 2%nat -> nJ s = 2%nat -> (forall a, length (m a) = axis_len s a) ->
  build_ct s truth m axes [] = Ok c -> build_mcmc c DegreeHigher draws = Ok mc -> odds_in_range s li ->
  lists_tables c L -> table_admissible c t0 = true -> nonneg_on s t0 ->
  forall u, In u L -> Un_cv (fun n => law mc li L t0 n u) (target s li u / lsumf (target s li) L).
Proof.
  intros s truth m axes c draws mc li L t0 EI EJ Wm Hok Hmc Hodds HL Ht0 Ht0n. destruct (higher_basis _ _ _ _ _ _ _ _ Hok Hmc) as [_ [_ [Hg [H0 H1]]]].
  assert (Hcon : connects s (mc_basis mc)) by (apply (C13_connects_iff_two_by_two s truth m axes c draws); auto; lia).
  apply (C129_connected_basis s truth m axes c draws mc li L t0); auto.
  intros Eb. rewrite Eb in Hcon. assert (N1 : nonneg_on s unit_diag) by (intros i j _ _; unfold unit_diag; destruct (Nat.eqb i j); lia).
  assert (N2 : nonneg_on s unit_anti) by (intros i j _ _; unfold unit_anti; destruct (Nat.eqb i j); lia).
  assert (Hm : same_margins s [A0; A1] unit_diag unit_anti).
  { unfold same_margins, total, row_sum, col_sum. rewrite EI, EJ. split; [|split; [|reflexivity]]; intros _ k Hk; destruct k as [|[|k]]; try lia; reflexivity. }
  pose proof (Hcon unit_diag unit_anti N1 N2 Hm) as W. inversion W as [t u _ Hs E1 E2|t u f eps _ [] ]. specialize (Hs 0%nat 0%nat ltac:(lia) ltac:(lia)). discriminate.
Qed.
Print Assumptions C129_two_by_two.

Example C129_nonvacuous : exists c mc, unit_ct = Ok c /\ build_mcmc c DegreeHigher (fun n => n) = Ok mc /\ mc_basis mc <> [] /\
  odds_in_range (Shape 2 2) (fun i j => INR (i * j)) /\ lists_tables c [unit_diag; unit_anti] /\ connects (Shape 2 2) (mc_basis mc) /\
  lists_joined mc [unit_diag; unit_anti] unit_diag [unit_diag; unit_anti].
Proof.
  destruct C125_nonvacuous as [c [mc [Hc [Hmc [Hne [Ho [HL _]]]]]]]. exists c, mc. split; [exact Hc|]. split; [exact Hmc|]. split; [exact Hne|]. split; [exact Ho|]. split; [exact HL|].
  destruct (unit_mcmc c Hc) as [mc' [Hmc' [Hb [_ Hct]]]]. rewrite Hmc in Hmc'. inversion Hmc'; subst mc'.
  assert (Hcon : connects (Shape 2 2) (mc_basis mc)).
  { rewrite Hb. apply C13_all_minors_connect. intros i j i' j' L1 L2 L3 L4. cbn in L3, L4. assert (i = 0 /\ i' = 1 /\ j = 0 /\ j' = 1)%nat as [-> [-> [-> ->]]] by lia. left. reflexivity. }
  split; [exact Hcon|]. split.
  - constructor; [intros [E|[]]; apply (f_equal (fun t => t 0%nat 0%nat)) in E; discriminate|constructor; [intros []|constructor]].
  - intros t. split; [|tauto]. intros Ht. split; [exact Ht|]. unfold joined. rewrite Hct. assert (Es : ct_shape c = Shape 2 2) by (inversion Hc; reflexivity). rewrite Es.
    eapply walk_weaken; [|apply Hcon]; [intros v [Hv _]; exact Hv| | |].
    + intros i j _ _; unfold unit_diag; destruct (Nat.eqb i j); lia.
    + destruct Ht as [<-|[<-|[]]]; intros i j _ _; unfold unit_diag, unit_anti; destruct (Nat.eqb i j); lia.
    + unfold same_margins, total, row_sum, col_sum. destruct Ht as [<-|[<-|[]]]; (split; [|split; [|reflexivity]]; intros _ k Hk; cbn in Hk; destruct k as [|[|k]]; try lia; reflexivity).
Qed.

(** Larger tables: two rows, three columns, one item in each row and in the first two columns. The
    generated basis misses the move between the two tables: the chain stays at its
    start table for ever. *)
Definition wide_diag : table := fun i j => if Nat.eqb i j then 1%Z else 0%Z.
Definition wide_anti : table := fun i j => if (Nat.eqb i 0 && Nat.eqb j 1 || Nat.eqb i 1 && Nat.eqb j 0)%bool then 1%Z else 0%Z.
Definition wide_ct : res ct := build_ct (Shape 2 3) wide_diag (axis_margin (Shape 2 3) wide_diag) [A0; A1] [].

Lemma wide_lists : forall c, wide_ct = Ok c -> lists_tables c [wide_diag; wide_anti].
Proof.
  intros c Hc. inversion Hc; subst c; clear Hc. cbn [ct_shape]. split; [|split].
  - intros t [<-|[<-|[]]]; (split; [reflexivity|]); intros i j _ _; unfold wide_diag, wide_anti; [destruct (Nat.eqb i j); lia|destruct (_ || _)%bool; lia].
  - constructor; [constructor; [|constructor]|constructor; [constructor|constructor]]. intros H. specialize (H 0%nat 0%nat ltac:(cbn; lia) ltac:(cbn; lia)). discriminate.
  - intros v Ha Hn. cbn in Hn.
    unfold table_admissible in Ha. apply andb_true_iff in Ha as [Ha _].
    unfold table_margins_admissible, constrained_margins_stat in Ha. cbn [ct_caxes ct_shape ct_margins flat_map] in Ha.
    let ax := eval vm_compute in (constrained_axes_2d [A0; A1]) in change (constrained_axes_2d [A0; A1]) with ax in Ha.
    cbn [flat_map] in Ha. apply zlist_eqb_spec in Ha. unfold axis_margin, total, row_sum, col_sum in Ha. cbn in Ha. injection Ha as Z0 Z1 Z2 Z3 Z4 Z5.
    pose proof (Hn 0 0 ltac:(cbn; lia) ltac:(cbn; lia))%nat. pose proof (Hn 0 1 ltac:(cbn; lia) ltac:(cbn; lia))%nat. pose proof (Hn 0 2 ltac:(cbn; lia) ltac:(cbn; lia))%nat. pose proof (Hn 1 0 ltac:(cbn; lia) ltac:(cbn; lia))%nat. pose proof (Hn 1 1 ltac:(cbn; lia) ltac:(cbn; lia))%nat. pose proof (Hn 1 2 ltac:(cbn; lia) ltac:(cbn; lia))%nat.
    destruct (Z.eq_dec (v 0%nat 0%nat) 1) as [E|E]; [exists wide_diag|exists wide_anti]; (split; [cbn; auto|]); intros i j Hi Hj; cbn in Hi, Hj;
      destruct i as [|[|i]]; destruct j as [|[|[|j]]]; try lia; cbn; lia.
Qed.

Theorem C129_all_margins_refuted : forall c mc li, wide_ct = Ok c -> build_mcmc c DegreeHigher (fun _ => 1%nat) = Ok mc -> odds_in_range (Shape 2 3) li ->
  lists_tables c [wide_diag; wide_anti] /\ (forall n, law mc li [wide_diag; wide_anti] wide_diag n wide_anti = 0) /\
  ~ Un_cv (fun n => law mc li [wide_diag; wide_anti] wide_diag n wide_anti) (target (Shape 2 3) li wide_anti / lsumf (target (Shape 2 3) li) [wide_diag; wide_anti]).
Proof.
  intros c mc li Hc Hmc Ho. pose proof (wide_lists c Hc) as HL.
  assert (Hb : mc_basis mc = [square_move (0, 0) (1, 2); square_move (0, 1) (1, 2)]%nat /\ mc_ct mc = c /\ ct_shape c = Shape 2 3).
  { inversion Hc; subst c. vm_compute in Hmc. inversion Hmc; subst mc. split; [reflexivity|]. split; reflexivity. }
  destruct Hb as [Hb [Hct Es]].
  assert (HW : forall t u, walk (Shape 2 3) (nonneg_on (Shape 2 3)) (mc_basis mc) t u -> same_on (Shape 2 3) wide_diag t -> same_on (Shape 2 3) wide_diag u).
  { intros t u H. induction H as [t u Hg Hs|t u f eps Hg Hf He H IH]; intros Ht; [exact (same_on_trans _ _ _ _ Ht Hs)|]. exfalso. apply walk_good in H.
    pose proof (H 0%nat 2%nat ltac:(cbn; lia) ltac:(cbn; lia)) as G0. pose proof (H 1%nat 2%nat ltac:(cbn; lia) ltac:(cbn; lia)) as G1. unfold moved in G0, G1.
    rewrite <- (Ht 0%nat 2%nat ltac:(cbn; lia) ltac:(cbn; lia)) in G0. rewrite <- (Ht 1%nat 2%nat ltac:(cbn; lia) ltac:(cbn; lia)) in G1. rewrite Hb in Hf.
    destruct Hf as [<-|[<-|[]]]; cbn in G0, G1; destruct He as [-> | ->]; cbn in G0, G1; lia. }
  assert (HK : lists_joined mc [wide_diag; wide_anti] wide_diag [wide_diag]).
  { split; [repeat constructor; intros []|]. intros t. unfold joined. rewrite Hct, Es. split.
    - intros [<-|[]]. split; [left; reflexivity|]. apply walk_here; [|intros i j _ _; reflexivity]. intros i j _ _; unfold wide_diag; destruct (Nat.eqb i j); lia.
    - intros [[<-|[<-|[]]] H]; [left; reflexivity|]. apply HW in H; [|intros i j _ _; reflexivity]. specialize (H 0%nat 0%nat ltac:(cbn; lia) ltac:(cbn; lia)). discriminate. }
  assert (Hz : forall n, law mc li [wide_diag; wide_anti] wide_diag n wide_anti = 0).
  { destruct (C129_limit (Shape 2 3) wide_diag (axis_margin (Shape 2 3) wide_diag) [A0; A1] [] c (fun _ => 1%nat) mc li [wide_diag; wide_anti] [wide_diag] wide_diag) as [_ [H _]]; auto.
    - intros a. destruct a; reflexivity.
    - intros k [].
    - rewrite Hb. discriminate.
    - inversion Hc. reflexivity.
    - intros i j _ _; unfold wide_diag; destruct (Nat.eqb i j); lia.
    - apply H; [right; left; reflexivity|]. intros [E|[]]. apply (f_equal (fun t => t 0%nat 0%nat)) in E. discriminate. }
  split; [exact HL|]. split; [exact Hz|]. intros H.
  assert (H0 : Un_cv (fun n => law mc li [wide_diag; wide_anti] wide_diag n wide_anti) 0) by (intros eps He; exists 0%nat; intros n _; rewrite (Hz n); unfold R_dist; rewrite Rminus_0_r, Rabs_R0; exact He).
  pose proof (UL_sequence _ _ _ H0 H) as E. assert (0 < target (Shape 2 3) li wide_anti / lsumf (target (Shape 2 3) li) [wide_diag; wide_anti]); [|lra].
  apply Rdiv_lt_0_compat; [apply target_pos|]. apply lsumf_pos; [discriminate|intros; apply target_pos].
Qed.
Print Assumptions C129_all_margins_refuted.
