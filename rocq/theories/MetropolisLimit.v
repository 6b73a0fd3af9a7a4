(** C200: long-run behaviour of the degree-one table sampler. *)
From Coq Require Import List ZArith Lia Bool Arith Reals Lra Relations.
From Verif Require Import Base RealBase Axes Tables TablesProps InitTables MarkovBasis MarkovBasisProps MarkovWalks TableMCMC ProbUtils TableMCMCProps Kernels KernelsProps Chains KernelsLimit.
Import ListNotations.
Local Open Scope R_scope.

(** ---- Specification ------------------------------------------------------ *)

(** Probability that the degree-one chain started at [t0] is at [u] after [n]
    steps; [L] lists the tables that meet the constraints. *)
Fixpoint metropolis_law (mc : mcmc) (li : nat -> nat -> R) (L : list table) (t0 : table) (n : nat) (u : table) : R :=
  match n with
  | O => if table_eqb (ct_shape (mc_ct mc)) t0 u then 1 else 0
  | S n' => lsumf (fun t => metropolis_law mc li L t0 n' t * metropolis_prob mc li t u) L
  end.

(** ---- Listed tables --------------------------------------------------------- *)

Lemma listed_same : forall s (L : list table), ForallOrdPairs (fun t u => ~ same_on s t u) L -> forall t u, In t L -> In u L -> same_on s t u -> t = u.
Proof.
  intros s L H. induction H as [|x l Hx Hl IH]; [intros t u []|].
  rewrite Forall_forall in Hx. intros t u [<-|Ht] [<-|Hu] E; [reflexivity|exfalso; exact (Hx u Hu E)|exfalso; apply (Hx t Ht); apply same_on_sym; exact E|apply IH; assumption].
Qed.
Lemma listed_NoDup : forall s (L : list table), ForallOrdPairs (fun t u => ~ same_on s t u) L -> NoDup L.
Proof.
  intros s L H. induction H as [|x l Hx Hl IH]; constructor; [|exact IH]. intros Hin. rewrite Forall_forall in Hx. apply (Hx x Hin). intros i j _ _. reflexivity.
Qed.

Lemma accept_nonneg : forall la, 0 <= accept_prob la <= 1.
Proof. intros [a|]; cbn [accept_prob]; [|lra]. pose proof (exp_pos a). unfold Rmin. destruct (Rle_dec 1 (exp a)); lra. Qed.
Lemma accept_pos : forall r, 0 < accept_prob (Some r).
Proof. intros r. cbn [accept_prob]. pose proof (exp_pos r). unfold Rmin. destruct (Rle_dec 1 (exp r)); lra. Qed.

Section Metropolis.
  Context (s : shape) (truth : table) (m : margins) (axes : list ax) (fixed : list cell) (c : ct) (draws : nat -> nat) (mc : mcmc) (li : nat -> nat -> R)
    (Wm : forall a, length (m a) = axis_len s a) (Hfix : forall k, In k fixed -> in_shape s k)
    (Hok : build_ct s truth m axes fixed = Ok c) (Hmc : build_mcmc c DegreeOne draws = Ok mc) (Hne : mc_basis mc <> []).
  Context (L : list table) (HL : lists_tables c L) (H2 : forall t, In t L -> entries_at_most s 2 t).

  Lemma metropolis_facts : mc_ct mc = c /\ generate_markov_basis c draws = Ok (mc_basis mc) /\ ct_shape c = s /\ ct_fixed c = fixed.
  Proof.
    unfold build_mcmc in Hmc. destruct (update_proposal_type c DegreeOne) as [p|] eqn:Eu; [|discriminate]. cbn [rbind] in Hmc.
    destruct (distribution_of c) as [d|] eqn:Ed; [|discriminate]. cbn [rbind] in Hmc.
    assert (p = DegreeOne) by (unfold update_proposal_type in Eu; rewrite Ed in Eu; cbn in Eu; destruct d; congruence). subst p.
    destruct (generate_markov_basis c draws) as [fs|]; [|discriminate]. cbn in Hmc. inversion Hmc. destruct (build_shape _ _ _ _ _ _ Hok) as [Es [_ [_ [_ Ef]]]]. auto.
  Qed.

  Lemma one_term_value : forall f e t, nonneg_on s t -> entries_at_most s 2 t -> exists la, metropolis_log_acceptance c (apply_move f e t) t li = Ok la /\
    (nonneg_on s (apply_move f e t) <-> la <> None).
  Proof.
    intros f e t Hn Ht. destruct metropolis_facts as [_ [_ [Es _]]].
    destruct (metropolis_log_acceptance c (apply_move f e t) t li) as [la|er] eqn:E.
    - exists la. split; [reflexivity|]. unfold metropolis_log_acceptance in E. destruct (log_target_measure_difference _ _ _ _ _); [|discriminate]. cbn [rbind] in E. rewrite Es in E.
      destruct (table_nonnegative s (apply_move f e t)) eqn:En; inversion E; subst la.
      + split; [discriminate|intros _]. exact (proj1 (table_nonnegative_iff s _) En).
      + split; [|congruence]. intros Hv. pose proof (proj2 (table_nonnegative_iff s _) Hv). congruence.
    - exfalso. destruct (proj1 (C21_ratio_fails_iff c _ t li) (ex_intro _ er E)) as [i [j [Hi [Hj [G1 G2]]]]]. rewrite Es in Hi, Hj. specialize (Ht i j Hi Hj). lia.
  Qed.

  Lemma one_term_nonneg : forall f e t u, 0 <= one_term c li f e t u.
  Proof.
    intros f e t u. unfold one_term. destruct (metropolis_log_acceptance _ _ _ _) as [la|]; [|lra].
    pose proof (accept_nonneg la). destruct (table_eqb _ _ u), (table_eqb _ t u); lra.
  Qed.
  Lemma prob_nonneg : forall t u, 0 <= metropolis_prob mc li t u.
  Proof.
    intros t u. rewrite metropolis_prob_terms. destruct metropolis_facts as [-> _]. apply rsum_nonneg'. intros k Hk. apply Rmult_le_pos.
    - left. apply Rinv_0_lt_compat, lt_0_INR. lia.
    - pose proof (one_term_nonneg (nth k (mc_basis mc) []) 1 t u). pose proof (one_term_nonneg (nth k (mc_basis mc) []) (-1) t u). lra.
  Qed.
  Lemma prob_pos : forall f e t u, In f (mc_basis mc) -> e = 1%Z \/ e = (-1)%Z -> 0 < one_term c li f e t u -> 0 < metropolis_prob mc li t u.
  Proof.
    intros f e t u Hf He Hp. rewrite metropolis_prob_terms. destruct metropolis_facts as [-> _]. destruct (@In_nth basis_fn (mc_basis mc) f [] Hf) as [k [Hk Ek]].
    assert (P : forall k, (k < length (mc_basis mc))%nat -> 0 <= / INR (length (mc_basis mc)) * (/ 2 * one_term c li (nth k (mc_basis mc) []) 1 t u + / 2 * one_term c li (nth k (mc_basis mc) []) (-1) t u)).
    { intros k' Hk'. apply Rmult_le_pos; [left; apply Rinv_0_lt_compat, lt_0_INR; lia|].
      pose proof (one_term_nonneg (nth k' (mc_basis mc) []) 1 t u). pose proof (one_term_nonneg (nth k' (mc_basis mc) []) (-1) t u). lra. }
    assert (HN : 0 < INR (length (mc_basis mc))) by (apply lt_0_INR; destruct (mc_basis mc); [destruct Hf|cbn; lia]).
    refine (Rlt_le_trans _ _ _ _ (rsum_term _ (fun idx => / INR (length (mc_basis mc)) * (/ 2 * one_term c li (nth idx (mc_basis mc) []) 1 t u + / 2 * one_term c li (nth idx (mc_basis mc) []) (-1) t u)) k Hk P)). cbv beta. apply Rmult_lt_0_compat; [apply Rinv_0_lt_compat; exact HN|]. rewrite Ek.
    pose proof (one_term_nonneg f 1 t u). pose proof (one_term_nonneg f (-1) t u). destruct He as [->| ->]; lra.
  Qed.
  Lemma prob_zero : forall t u, (forall f e, In f (mc_basis mc) -> e = 1%Z \/ e = (-1)%Z -> one_term c li f e t u = 0) -> metropolis_prob mc li t u = 0.
  Proof.
    intros t u H. rewrite metropolis_prob_terms. destruct metropolis_facts as [-> _].
    rewrite (rsum_ext _ _ (fun _ => 0)); [rewrite rsum_const; ring|]. intros k Hk. assert (Hf : In (nth k (mc_basis mc) []) (mc_basis mc)) by (apply nth_In; exact Hk).
    rewrite !H by auto. ring.
  Qed.

  Lemma move_listed : forall f e t, In f (mc_basis mc) -> In t L -> nonneg_on s (apply_move f e t) -> exists v, In v L /\ same_on s (apply_move f e t) v.
  Proof.
    intros f e t Hf Ht Hn. destruct metropolis_facts as [_ [Hg [Es _]]]. destruct HL as [HLa [_ HLc]]. rewrite Es in *. destruct (HLa t Ht) as [Hta _].
    apply HLc; [|exact Hn]. apply (C16_markov_move_keeps_constraints s truth m axes fixed c draws (mc_basis mc) f e t Wm Hok Hg Hf Hta).
  Qed.

  Lemma apply_moved : forall f e t, same_on s (apply_move f e t) (moved t f e).
  Proof. intros f e t i j _ _. apply apply_move_value. Qed.

  (** A proposal that is not negative is reached with positive probability. *)
  Lemma move_pos : forall f e t u, In f (mc_basis mc) -> e = 1%Z \/ e = (-1)%Z -> In t L -> nonneg_on s (apply_move f e t) -> same_on s (apply_move f e t) u -> 0 < metropolis_prob mc li t u.
  Proof.
    intros f e t u Hf He Ht Hn Hs. destruct metropolis_facts as [_ [Hg [Es _]]]. apply (prob_pos f e t u Hf He).
    assert (Htn : nonneg_on s t) by (destruct HL as [HLa _]; rewrite Es in HLa; apply HLa; exact Ht).
    destruct (one_term_value f e t Htn (H2 t Ht)) as [la [E Hla]]. unfold one_term. rewrite E. destruct la as [r|]; [|exfalso; apply (proj1 Hla Hn); reflexivity].
    rewrite Es. apply table_eqb_spec in Hs. rewrite Hs. pose proof (accept_pos r). pose proof (accept_nonneg (Some r)). destruct (table_eqb s t u); lra.
  Qed.

  Context (t0 : table) (Ht0 : table_admissible c t0 = true) (Ht0n : nonneg_on s t0).
  Notation W := (walk s (nonneg_on s) (mc_basis mc)).
  Context (K : list table) (HKn : NoDup K) (HK : forall v, In v K <-> In v L /\ W t0 v).

  Lemma MK_incl : incl K L.
  Proof. intros t Ht. apply HK. exact Ht. Qed.
  Lemma ML_same : forall t u, In t L -> In u L -> same_on s t u -> t = u.
  Proof. destruct metropolis_facts as [_ [_ [Es _]]]. destruct HL as [_ [HLd _]]. rewrite Es in HLd. apply (listed_same s L HLd). Qed.
  Lemma ML_NoDup : NoDup L.
  Proof. destruct HL as [_ [HLd _]]. apply (listed_NoDup _ L HLd). Qed.
  Lemma ML_nonneg : forall t, In t L -> nonneg_on s t.
  Proof. intros t Ht. destruct metropolis_facts as [_ [_ [Es _]]]. destruct HL as [HLa _]. rewrite Es in HLa. apply HLa. exact Ht. Qed.
  Lemma MK_dec : forall u, In u L -> In u K \/ ~ In u K.
  Proof.
    intros u Hu. destruct (existsb (table_eqb s u) K) eqn:E.
    - left. apply existsb_exists in E as [v [Hv E]]. apply table_eqb_spec in E. rewrite (ML_same u v Hu); [exact Hv|apply HK; exact Hv|exact E].
    - right. intros H. assert (existsb (table_eqb s u) K = true); [|congruence]. apply existsb_exists. exists u. split; [exact H|]. apply table_eqb_spec. intros a b _ _. reflexivity.
  Qed.
  (** Moves of listed reached tables stay among them. *)
  Lemma move_in_K : forall f e t v, In f (mc_basis mc) -> e = 1%Z \/ e = (-1)%Z -> In t K -> In v L -> same_on s (apply_move f e t) v -> In v K.
  Proof.
    intros f e t v Hf He Ht Hv Hs. apply HK. split; [exact Hv|]. destruct (proj1 (HK t) Ht) as [HtL HtW]. apply (walk_trans s (mc_basis mc) t0 t v HtW).
    assert (Hs' : same_on s (moved t f e) v) by (apply (same_on_trans s _ (apply_move f e t)); [apply same_on_sym, apply_moved|exact Hs]).
    apply (walk_move s (nonneg_on s) (mc_basis mc) t v f e); [exact (ML_nonneg t HtL)|exact Hf|exact He|].
    apply walk_here; [exact (nonneg_on_ext _ _ _ (same_on_sym _ _ _ Hs') (ML_nonneg v Hv))|exact Hs'].
  Qed.
  Lemma MK_closed : forall t u, In t K -> In u L -> ~ In u K -> metropolis_prob mc li t u = 0.
  Proof.
    intros t u Ht Hu Hn. destruct metropolis_facts as [_ [_ [Es _]]]. apply prob_zero. intros f e Hf He. unfold one_term. destruct (metropolis_log_acceptance _ _ _ _) as [la|]; [|reflexivity]. rewrite Es.
    destruct (table_eqb s t u) eqn:E1.
    - exfalso. apply Hn. apply table_eqb_spec in E1. rewrite <- (ML_same t u (MK_incl t Ht) Hu E1). exact Ht.
    - destruct (table_eqb s (apply_move f e t) u) eqn:E2; [|ring]. exfalso. apply Hn. apply table_eqb_spec in E2. exact (move_in_K f e t u Hf He Ht Hu E2).
  Qed.
  Lemma MK_total : forall t, In t K -> lsumf (metropolis_prob mc li t) K = 1.
  Proof.
    intros t Ht. destruct (C126_metropolis_step_partial s truth m axes fixed c draws mc li Wm Hfix Hok Hmc) as [_ H]. destruct (H Hne L HL H2 t (MK_incl t Ht)) as [HS _].
    rewrite <- HS. symmetry. apply lsumf_support; [exact ML_NoDup|exact HKn|exact MK_incl|]. intros u Hu Hn. apply MK_closed; assumption.
  Qed.
  Lemma Mstart_listed : exists r, In r K /\ same_on s t0 r.
  Proof.
    destruct metropolis_facts as [_ [_ [Es _]]]. destruct HL as [_ [_ HLc]]. rewrite Es in HLc. destruct (HLc t0 Ht0 Ht0n) as [r [Hr Hs]]. exists r. split; [|exact Hs]. apply HK. split; [exact Hr|]. apply walk_here; assumption.
  Qed.

  (** A walk between listed tables is a path of steps of positive probability. *)
  Lemma Mwalk_path : forall t u, W t u -> In t K -> In u K -> clos_refl_trans_1n table (arc K (metropolis_prob mc li)) t u.
  Proof.
    assert (G : forall t u, W t u -> forall t', same_on s t t' -> In t' K -> In u K -> clos_refl_trans_1n table (arc K (metropolis_prob mc li)) t' u).
    { intros t u H. induction H as [t u Hg Hs|t u f eps Hg Hf He H IH]; intros t' Ht Ht' Hu.
      - assert (t' = u) as ->; [|constructor]. apply ML_same; [apply MK_incl; exact Ht'|apply MK_incl; exact Hu|]. exact (same_on_trans _ _ _ _ (same_on_sym _ _ _ Ht) Hs).
      - assert (Hm : same_on s (apply_move f eps t') (moved t f eps)).
        { intros i j Hi Hj. rewrite apply_move_value. unfold moved. rewrite (Ht i j Hi Hj). reflexivity. }
        assert (Hng : nonneg_on s (apply_move f eps t')) by (apply (nonneg_on_ext s (moved t f eps)); [apply same_on_sym; exact Hm|exact (walk_good _ _ _ _ _ H)]).
        destruct (move_listed f eps t' Hf (MK_incl t' Ht') Hng) as [v [HvL Hv]].
        assert (HvK : In v K) by exact (move_in_K f eps t' v Hf He Ht' HvL Hv).
        apply (Relation_Operators.rt1n_trans _ _ t' v u).
        + split; [exact Ht'|]. split; [exact HvK|]. apply (move_pos f eps t' v Hf He (MK_incl t' Ht') Hng Hv).
        + apply IH; [exact (same_on_trans _ _ _ _ (same_on_sym _ _ _ Hm) Hv)|exact HvK|exact Hu]. }
    intros t u H Ht Hu. apply (G t u H t); auto. intros a b _ _. reflexivity.
  Qed.

  (** Some reached table is kept with positive probability: repeating a move ends
      at a negative table. *)
  Lemma holding : exists x, In x K /\ 0 < metropolis_prob mc li x x.
  Proof.
    destruct metropolis_facts as [Hct [Hg [Es Ef]]]. destruct (mc_basis mc) as [|f fs] eqn:Eb; [congruence|]. rewrite <- Eb in *.
    assert (Hf : In f (mc_basis mc)) by (rewrite Eb; left; reflexivity).
    destruct (C11_moves_preserve_constraints _ _ _ _ _ _ _ _ _ Hok Hg Hf) as [_ [_ [_ [_ [Hc Hfn]]]]].
    destruct f as [|[k v] f']; [congruence|]. set (f := (k, v) :: f') in *. destruct (Hc k v (or_introl eq_refl)) as [HI [HJ [_ [Hv Hv1]]]].
    destruct Mstart_listed as [r [Hr _]].
    assert (G : forall n x, In x K -> Z.to_nat (x (fst k) (snd k)) = n -> exists x, In x K /\ 0 < metropolis_prob mc li x x).
    { induction n as [n IH] using lt_wf_ind. intros x Hx Hn. assert (Hxn : nonneg_on s x) by (apply ML_nonneg, MK_incl; exact Hx).
      assert (He : (- v = 1 \/ - v = -1)%Z) by lia.
      destruct (one_term_value f (- v) x Hxn (H2 x (MK_incl x Hx))) as [la [E Hla]].
      destruct (table_nonnegative s (apply_move f (- v) x)) eqn:En.
      - assert (Hng : nonneg_on s (apply_move f (- v) x)) by exact (proj1 (table_nonnegative_iff s _) En).
        destruct (move_listed f (- v) x Hf (MK_incl x Hx) Hng) as [w [HwL Hw]].
        assert (HwK : In w K) by exact (move_in_K f (- v) x w Hf He Hx HwL Hw).
        pose proof (Hw (fst k) (snd k) HI HJ) as Ew. rewrite apply_move_value in Ew. rewrite <- surjective_pairing, Hv in Ew.
        pose proof (Hng (fst k) (snd k) HI HJ) as Nw. rewrite apply_move_value, <- surjective_pairing, Hv in Nw. 
        apply (IH (Z.to_nat (w (fst k) (snd k)))) with (x := w); [|exact HwK|reflexivity]. rewrite <- Ew, <- Hn. assert ((- v * v = -1)%Z) by (destruct Hv1 as [->| ->]; reflexivity). lia.
      - exists x. split; [exact Hx|]. apply (prob_pos f (- v) x x Hf He). unfold one_term. rewrite E. destruct la as [q|].
        + exfalso. assert (Hng : nonneg_on s (apply_move f (- v) x)) by (apply Hla; discriminate). pose proof (proj2 (table_nonnegative_iff s _) Hng). congruence.
        + cbn [accept_prob]. assert (T : table_eqb (ct_shape c) x x = true) by (apply table_eqb_spec; intros i j _ _; reflexivity). rewrite T. lra. }
    exact (G _ r Hr eq_refl).
  Qed.

  Lemma Mstart_total : lsumf (start s t0) K = 1.
  Proof.
    destruct metropolis_facts as [_ [_ [Es _]]]. destruct Mstart_listed as [r [Hr Hs]]. rewrite <- (lsumf_support _ (start s t0) K L ML_NoDup HKn MK_incl).
    - destruct HL as [_ [HLd _]]. rewrite Es in HLd. apply (hits_once s L t0 r HLd (MK_incl r Hr) Hs).
    - intros u Hu Hn. unfold start. destruct (table_eqb s t0 u) eqn:E; [|reflexivity]. exfalso. apply Hn. apply table_eqb_spec in E. rewrite <- (ML_same r u (MK_incl r Hr) Hu); [exact Hr|]. exact (same_on_trans _ _ _ _ (same_on_sym _ _ _ Hs) E).
  Qed.
  Lemma Mlaw_outside : forall n u, In u L -> ~ In u K -> metropolis_law mc li L t0 n u = 0.
  Proof.
    destruct metropolis_facts as [Hct [_ [Es _]]]. induction n as [|n IH]; intros u Hu Hn; cbn [metropolis_law].
    - rewrite Hct, Es. destruct (table_eqb s t0 u) eqn:E; [|reflexivity]. exfalso. apply Hn. destruct Mstart_listed as [r [Hr Hs]]. apply table_eqb_spec in E. rewrite <- (ML_same r u (MK_incl r Hr) Hu); [exact Hr|]. exact (same_on_trans _ _ _ _ (same_on_sym _ _ _ Hs) E).
    - apply lsumf_zero. intros t Ht. destruct (MK_dec t Ht) as [Hk|Hk]; [rewrite (MK_closed t u Hk Hu Hn); ring|rewrite (IH t Ht Hk); ring].
  Qed.
  Lemma Mlaw_inside : forall n u, metropolis_law mc li L t0 n u = after K (metropolis_prob mc li) n (start s t0) u.
  Proof.
    destruct metropolis_facts as [Hct [_ [Es _]]]. induction n as [|n IH]; intros u; cbn [metropolis_law after]; [rewrite Hct, Es; reflexivity|].
    rewrite (lsumf_support _ (fun t => metropolis_law mc li L t0 n t * metropolis_prob mc li t u) K L ML_NoDup HKn MK_incl).
    - apply lsumf_ext. intros t _. rewrite IH. reflexivity.
    - intros t Ht Hk. rewrite (Mlaw_outside n t Ht Hk). ring.
  Qed.

  Definition metropolis_limit (u : table) : R := effective_target s li u / lsumf (effective_target s li) K.
  Lemma effective_pos : forall u, 0 < effective_target s li u.
  Proof. intros u. apply exp_pos. Qed.
  Lemma Mlimit_total : lsumf metropolis_limit K = 1.
  Proof.
    unfold metropolis_limit, Rdiv. rewrite (lsumf_ext _ _ (fun u => / lsumf (effective_target s li) K * effective_target s li u)) by (intros; ring). rewrite lsumf_scal. apply Rinv_l. apply Rgt_not_eq. apply lsumf_pos; [|intros; apply effective_pos].
    destruct Mstart_listed as [r [Hr _]]. intros E. rewrite E in Hr. destruct Hr.
  Qed.
  Lemma Mlimit_invariant : forall u, In u K -> lsumf (fun t => metropolis_limit t * metropolis_prob mc li t u) K = metropolis_limit u.
  Proof.
    intros u Hu. destruct (C126_metropolis_step_partial s truth m axes fixed c draws mc li Wm Hfix Hok Hmc) as [HD _]. unfold metropolis_limit, Rdiv.
    rewrite (lsumf_ext _ _ (fun t => effective_target s li u * / lsumf (effective_target s li) K * metropolis_prob mc li u t)).
    - rewrite lsumf_scal. transitivity (effective_target s li u * / lsumf (effective_target s li) K * 1); [f_equal; apply MK_total; exact Hu|ring].
    - intros t Ht. assert (Hgt : gentle s t u).
      { intros i j Hi Hj Hd. pose proof (H2 t (MK_incl t Ht) i j Hi Hj). pose proof (H2 u (MK_incl u Hu) i j Hi Hj). lia. }
      pose proof (HD t u (ML_nonneg t (MK_incl t Ht)) (ML_nonneg u (MK_incl u Hu)) Hgt) as E. transitivity (/ lsumf (effective_target s li) K * (effective_target s li t * metropolis_prob mc li t u)); [ring|]. rewrite E. ring.
  Qed.

  Lemma metropolis_converges : exists k q C, (0 < k)%nat /\ 0 <= q < 1 /\ forall n, lsumf (fun u => Rabs (metropolis_law mc li L t0 n u - metropolis_limit u)) K <= q ^ (n / k) * C.
  Proof.
    destruct (chain_converges K (metropolis_prob mc li)) with (mu := start s t0) (pi := metropolis_limit) as [k [q [Hk [Hq H]]]].
    - intros x y _ _. apply prob_nonneg.
    - exact MK_total.
    - exact holding.
    - intros x y Hx Hy. apply clos_rt_rtn1, clos_rt1n_rt. apply Mwalk_path; auto. destruct (proj1 (HK x) Hx) as [_ Wx]. destruct (proj1 (HK y) Hy) as [_ Wy]. exact (walk_trans _ _ _ _ _ (walk_back _ _ _ _ Wx) Wy).
    - destruct Mstart_listed as [r [Hr _]]. intros E. rewrite E in Hr. destruct Hr.
    - exact Mstart_total.
    - exact Mlimit_total.
    - exact Mlimit_invariant.
    - exists k, q, (size K (fun y => start s t0 y - metropolis_limit y)). split; [exact Hk|]. split; [exact Hq|]. intros n. unfold size in H. rewrite (lsumf_ext _ _ (fun u => Rabs (after K (metropolis_prob mc li) n (start s t0) u - metropolis_limit u))) by (intros u _; rewrite Mlaw_inside; reflexivity). apply H.
  Qed.
End Metropolis.

(** ---- C200 ------------------------------------------------------------------ *)

(** When no table that meets the constraints has a count above two, the chain never
    fails, and from any start table its probabilities converge geometrically to the
    distribution its acceptance ratio belongs to, restricted to the tables the moves
    reach; the others are never visited. *)
Theorem C200_limit_partial : forall s truth m axes fixed c draws mc li L K t0,
  (forall a, length (m a) = axis_len s a) -> (forall k, In k fixed -> in_shape s k) ->
  build_ct s truth m axes fixed = Ok c -> build_mcmc c DegreeOne draws = Ok mc -> mc_basis mc <> [] ->
  lists_tables c L -> (forall t, In t L -> entries_at_most s 2 t) ->
  table_admissible c t0 = true -> nonneg_on s t0 -> lists_joined mc L t0 K ->
  (forall u, In u K -> Un_cv (fun n => metropolis_law mc li L t0 n u) (effective_target s li u / lsumf (effective_target s li) K)) /\
  (forall u, In u L -> ~ In u K -> forall n, metropolis_law mc li L t0 n u = 0) /\
  (exists k q C, (0 < k)%nat /\ 0 <= q < 1 /\
     forall n, lsumf (fun u => Rabs (metropolis_law mc li L t0 n u - effective_target s li u / lsumf (effective_target s li) K)) K <= q ^ (n / k) * C).
Proof.
  intros s truth m axes fixed c draws mc li L K t0 Wm Hfix Hok Hmc Hne HL H2 Ht0 Ht0n [HKn HK].
  assert (Es : ct_shape (mc_ct mc) = s) by (destruct (metropolis_facts s truth m axes fixed c draws mc Hok Hmc) as [Hct [_ [Es _]]]; rewrite Hct; exact Es).
  assert (HK' : forall v, In v K <-> In v L /\ walk s (nonneg_on s) (mc_basis mc) t0 v) by (unfold joined in HK; rewrite Es in HK; exact HK).
  destruct (metropolis_converges s truth m axes fixed c draws mc li Wm Hfix Hok Hmc Hne L HL H2 t0 Ht0 Ht0n K HKn HK') as [k [q [C [Hk [Hq H]]]]].
  split; [|split; [|exists k, q, C; split; [exact Hk|]; split; [exact Hq|exact H]]].
  - intros u Hu. apply (geometric_limit _ _ k q C Hk Hq). intros n. eapply Rle_trans; [|apply (H n)]. apply (lsumf_term _ (fun u => Rabs (metropolis_law mc li L t0 n u - metropolis_limit s li K u)) K u Hu). intros; apply Rabs_pos.
  - intros u Hu Hn n. apply (Mlaw_outside s truth m axes fixed c draws mc li Hok Hmc L HL t0 Ht0 Ht0n K HK' n u Hu Hn).
Qed.
Print Assumptions C200_limit_partial.

Lemma effective_binary_target : forall s li t, nonneg_on s t -> entries_at_most s 1 t -> effective_target s li t = target s li t.
Proof. intros s li t Hn H1. unfold target, effective_target. rewrite effective_binary by assumption. reflexivity. Qed.

Lemma admissible_agree : forall s truth m axes fixed c t u, (forall a, length (m a) = axis_len s a) -> In A0 axes \/ In A1 axes ->
  build_ct s truth m axes fixed = Ok c -> table_admissible c t = true -> table_admissible c u = true ->
  same_margins s axes t u /\ (forall i j, In (i, j) fixed -> t i j = u i j).
Proof.
  intros s truth m axes fixed c t u Wm Hax Hok Ht Hu. destruct (build_shape _ _ _ _ _ _ Hok) as [Es [_ [Em [Ea Ef]]]].
  assert (Hl : forall a, length (ct_margins c a) = axis_len (ct_shape c) a) by (intros a; rewrite Em, Es; apply Wm).
  apply (C01_admissible_iff c t Hl) in Ht as [T1 [T0 [T01 TF]]]. apply (C01_admissible_iff c u Hl) in Hu as [U1 [U0 [U01 UF]]]. rewrite Es, Ef in *. rewrite Ea in *.
  destruct (C02_two_way_closure axes) as [K0 [K1 K01]]. split; [split; [|split]|].
  - intros HA i Hi. apply K1 in HA. unfold row_sum. rewrite (T1 HA i Hi), (U1 HA i Hi). reflexivity.
  - intros HA j Hj. apply K0 in HA. unfold col_sum. rewrite (T0 HA j Hj), (U0 HA j Hj). reflexivity.
  - assert (HA : In A01 (constrained_axes_2d axes)) by (apply K01; tauto). unfold total, row_sum. rewrite (T01 HA), (U01 HA). reflexivity.
  - intros i j Hin. rewrite (TF i j Hin), (UF i j Hin). reflexivity.
Qed.

(** Counts of zero and one with one margin fixed, for instance every origin sending
    one item: from every start table the chain converges geometrically to the target
    distribution over all tables that meet the constraints, with any fixed cells. *)
Theorem C200_binary_one_margin_partial : forall s truth m axes fixed c draws mc li L t0,
  (forall a, length (m a) = axis_len s a) -> (forall k, In k fixed -> in_shape s k) ->
  (In A1 axes /\ ~ In A0 axes \/ In A0 axes /\ ~ In A1 axes) ->
  build_ct s truth m axes fixed = Ok c -> build_mcmc c DegreeOne draws = Ok mc -> mc_basis mc <> [] ->
  lists_tables c L -> (forall t, In t L -> entries_at_most s 1 t) ->
  table_admissible c t0 = true -> nonneg_on s t0 ->
  (forall u, In u L -> Un_cv (fun n => metropolis_law mc li L t0 n u) (target s li u / lsumf (target s li) L)) /\
  (exists k q C, (0 < k)%nat /\ 0 <= q < 1 /\
     forall n, lsumf (fun u => Rabs (metropolis_law mc li L t0 n u - target s li u / lsumf (target s li) L)) L <= q ^ (n / k) * C).
Proof.
  intros s truth m axes fixed c draws mc li L t0 Wm Hfix Hone Hok Hmc Hne HL H1 Ht0 Ht0n.
  destruct (metropolis_facts s truth m axes fixed c draws mc Hok Hmc) as [Hct [Hg [Es _]]].
  assert (HLa : forall t, In t L -> table_admissible c t = true /\ nonneg_on s t) by (destruct HL as [HLa _]; rewrite Es in HLa; exact HLa).
  assert (HJ : lists_joined mc L t0 L).
  { split; [destruct HL as [_ [HLd _]]; apply (listed_NoDup _ L HLd)|]. intros u. split; [|tauto]. intros Hu. split; [exact Hu|]. unfold joined. rewrite Hct, Es.
    destruct (HLa u Hu) as [Hua Hun]. destruct (admissible_agree s truth m axes fixed c t0 u Wm ltac:(tauto) Hok Ht0 Hua) as [HM HF].
    eapply walk_weaken; [|apply (C12_one_margin_basis_connects s truth m axes fixed c draws (mc_basis mc) t0 u Hok Hone Hg Ht0n Hun HM HF)]. intros v Hv. apply Hv. }
  assert (E : forall u, In u L -> effective_target s li u = target s li u) by (intros u Hu; apply effective_binary_target; [apply HLa; exact Hu|apply H1; exact Hu]).
  assert (ES : lsumf (effective_target s li) L = lsumf (target s li) L) by (apply lsumf_ext; exact E).
  destruct (C200_limit_partial s truth m axes fixed c draws mc li L L t0 Wm Hfix Hok Hmc Hne HL ltac:(intros t Ht i j Hi Hj; specialize (H1 t Ht i j Hi Hj); lia) Ht0 Ht0n HJ) as [A [_ [k [q [C [Hk [Hq B]]]]]]].
  rewrite ES in A, B. split.
  - intros u Hu. rewrite <- (E u Hu). apply A. exact Hu.
  - exists k, q, C. split; [exact Hk|]. split; [exact Hq|]. intros n. rewrite <- (lsumf_ext _ (fun u => Rabs (metropolis_law mc li L t0 n u - effective_target s li u / lsumf (target s li) L))); [apply B|].
    intros u Hu. rewrite (E u Hu). reflexivity.
Qed.
Print Assumptions C200_binary_one_margin_partial.

(** Two items in one row: the chain converges, but to the wrong probability, one
    third instead of one quarter for the table with both items in the first cell. *)
Theorem C200_wrong_limit_refuted : forall c mc t0, pair_ct = Ok c -> build_mcmc c DegreeOne (fun n => n) = Ok mc -> In t0 pair_tables ->
  lists_tables c pair_tables /\
  target (Shape 2 2) (fun _ _ => 0) (pair_table 2 0) / lsumf (target (Shape 2 2) (fun _ _ => 0)) pair_tables = / 4 /\
  Un_cv (fun n => metropolis_law mc (fun _ _ => 0) pair_tables t0 n (pair_table 2 0)) (/ 3).
Proof.
  intros c mc t0 Hc Hmc Hin. pose proof (pair_lists c Hc) as HL. split; [exact HL|].
  destruct pair_target as [T1 [T2 T3]]. split; [unfold pair_tables; cbn [lsumf]; rewrite T1, T2, T3; lra|].
  assert (Es : ct_shape c = Shape 2 2) by (inversion Hc; reflexivity).
  assert (HLa : forall t, In t pair_tables -> table_admissible c t = true /\ nonneg_on (Shape 2 2) t) by (destruct HL as [HLa _]; rewrite Es in HLa; exact HLa).
  destruct (metropolis_facts (Shape 2 2) (pair_table 1 1) (axis_margin (Shape 2 2) (pair_table 1 1)) [A1] [] c (fun n => n) mc Hc Hmc) as [Hct [Hg _]].
  assert (Wm : forall a, length (axis_margin (Shape 2 2) (pair_table 1 1) a) = axis_len (Shape 2 2) a) by (intros []; reflexivity).
  assert (HJ : lists_joined mc pair_tables t0 pair_tables).
  { split; [destruct HL as [_ [HLd _]]; apply (listed_NoDup _ _ HLd)|]. intros u. split; [|tauto]. intros Hu. split; [exact Hu|]. unfold joined. rewrite Hct, Es.
    destruct (HLa t0 Hin) as [Ht0 Ht0n]. destruct (HLa u Hu) as [Hua Hun]. destruct (admissible_agree (Shape 2 2) (pair_table 1 1) (axis_margin (Shape 2 2) (pair_table 1 1)) [A1] [] c t0 u Wm ltac:(cbn; tauto) Hc Ht0 Hua) as [HM HF].
    eapply walk_weaken; [|apply (C12_one_margin_basis_connects (Shape 2 2) (pair_table 1 1) (axis_margin (Shape 2 2) (pair_table 1 1)) [A1] [] c (fun n => n) (mc_basis mc) t0 u Hc ltac:(left; split; [left; reflexivity|intros [H|[]]; discriminate]) Hg Ht0n Hun HM HF)]. intros v Hv. apply Hv. }
  destruct (pair_mcmc c Hc) as [mc' [Hmc' [Hb _]]]. rewrite Hmc in Hmc'. inversion Hmc'; subst mc'.
  destruct (C200_limit_partial (Shape 2 2) (pair_table 1 1) (axis_margin (Shape 2 2) (pair_table 1 1)) [A1] [] c (fun n => n) mc (fun _ _ => 0) pair_tables pair_tables t0 Wm ltac:(intros k []) Hc Hmc ltac:(rewrite Hb; discriminate) HL
    ltac:(intros t [<-|[<-|[<-|[]]]] i j _ _; destruct i as [|i]; destruct j as [|[|j]]; cbn; lia) (proj1 (HLa t0 Hin)) (proj2 (HLa t0 Hin)) HJ) as [A _].
  pose proof (A (pair_table 2 0) (or_introl eq_refl)) as B.
  assert (E : effective_target (Shape 2 2) (fun _ _ => 0) (pair_table 2 0) / lsumf (effective_target (Shape 2 2) (fun _ _ => 0)) pair_tables = / 3).
  { unfold pair_tables. cbn [lsumf]. rewrite !pair_effective by (cbn; auto). lra. }
  rewrite <- E. exact B.
Qed.
Print Assumptions C200_wrong_limit_refuted.

Example C200_nonvacuous : exists c mc,
  build_ct (Shape 2 2) (pair_table 1 0) (axis_margin (Shape 2 2) (pair_table 1 0)) [A1] [] = Ok c /\ build_mcmc c DegreeOne (fun n => n) = Ok mc /\ mc_basis mc <> [] /\
  lists_tables c [pair_table 1 0; pair_table 0 1] /\ (forall t, In t [pair_table 1 0; pair_table 0 1] -> entries_at_most (Shape 2 2) 1 t) /\
  table_admissible c (pair_table 0 1) = true /\ nonneg_on (Shape 2 2) (pair_table 0 1) /\
  (In A1 [A1] /\ ~ In A0 [A1] \/ In A0 [A1] /\ ~ In A1 [A1]).
Proof.
  destruct C126_binary_nonvacuous as [c [mc [Hc [Hm [Hb [HL H1]]]]]]. exists c, mc. split; [exact Hc|]. split; [exact Hm|]. split; [exact Hb|]. split; [exact HL|]. split; [exact H1|].
  assert (Es : ct_shape c = Shape 2 2) by (inversion Hc; reflexivity).
  pose proof HL as [HLa _]. destruct (HLa (pair_table 0 1) ltac:(cbn; auto)) as [Ha Hn]. rewrite Es in Hn. split; [exact Ha|]. split; [exact Hn|]. left. split; [left; reflexivity|]. intros [H|[]]; discriminate.
Qed.
