(** Properties C113-C116: groups of sweep parameters, slices by coordinate value,
    loading the arrays of a run, rows of a summary. *)
From Coq Require Import List ZArith Lia Bool Arith String.
From Verif Require Import Base PyMonad CommandLine CommandLineProps Collections CollectionsProps Summaries.
Import ListNotations.
Local Open Scope string_scope.
Local Open Scope nat_scope.
Local Open Scope list_scope.

(** ---- C113 -------------------------------------------------------------------- *)

Lemma insert_name_in : forall x l v, In v (insert_name x l) <-> v = x \/ In v l.
Proof.
  intros x. induction l as [|y l IH]; intros v; [cbn; intuition congruence|]. cbn [insert_name]. destruct (String.eqb x y) eqn:E.
  - apply String.eqb_eq in E. subst y. cbn. intuition congruence.
  - destruct (String.ltb x y); cbn [In]; [intuition congruence|]. rewrite IH. intuition congruence.
Qed.
Lemma sorted_set_in : forall l v, In v (sorted_set l) <-> In v l.
Proof. unfold sorted_set. induction l as [|x l IH]; intros v; [reflexivity|]. cbn [fold_right In]. rewrite insert_name_in, IH. intuition congruence. Qed.

Lemma smem_false : forall x l, smem x l = false <-> ~ In x l.
Proof. intros x l. rewrite <- smem_spec. destruct (smem x l); split; intros H; congruence. Qed.

Lemma sget_some_in : forall A (c : list (string * A)) n l, sget n c = Some l -> In (n, l) c.
Proof.
  induction c as [|[m x] c IH]; intros n l H; [discriminate|]. cbn [sget] in H. destruct (String.eqb n m) eqn:E.
  - apply String.eqb_eq in E. injection H as ->. subst. left; reflexivity.
  - right. apply IH, H.
Qed.

(** A variable of the sweep: isolated, or swept together with a target. *)
Definition swept_var (isolated : list string) (coupled : list (string * list string)) (v : string) : Prop :=
  In v isolated \/ exists t vs, In (t, vs) coupled /\ In v vs.

(** Every swept variable is either grouped or combined and not both; a variable
    asked for, or that is not a core coordinate, is grouped if it is isolated,
    and if it is the target of a coupled sweep all variables of that sweep are
    grouped with it; nothing else is grouped. *)
Theorem C113_groups_partial : forall core isolated coupled group_by ns sh,
  NoDup (map fst coupled) -> get_group_id core isolated coupled group_by = (ns, sh) ->
  (forall v, swept_var isolated coupled v -> (In v ns /\ ~ In v sh) \/ (~ In v ns /\ In v sh)) /\
  (forall v, In v sh -> swept_var isolated coupled v) /\
  (forall v, In v isolated -> In v group_by \/ ~ In v core -> In v ns) /\
  (forall t vs, In (t, vs) coupled -> In t group_by \/ ~ In t core -> In t ns /\ forall v, In v vs -> In v ns) /\
  (forall v, In v ns -> exists t, (In t group_by \/ ~ In t core) /\
     ((v = t /\ In t isolated) \/ exists vs, In (t, vs) coupled /\ (v = t \/ In v vs))).
Proof.
  intros core isolated coupled group_by ns sh HN E. unfold get_group_id in E. injection E as <- <-.
  set (ns := nonshared core isolated coupled group_by).
  assert (Hadd : forall t v, In v (added isolated coupled t) <-> (v = t /\ In t isolated) \/ exists vs, In (t, vs) coupled /\ (v = t \/ In v vs)).
  { intros t v. unfold added, target_of. rewrite !in_app_iff. split.
    - intros [H|[H|H]].
      + destruct (smem t isolated) eqn:F; [|destruct H]. destruct H as [<-|[]]. left. split; [reflexivity|apply smem_spec; exact F].
      + destruct (sget t coupled) as [vs|] eqn:F; [|destruct H]. right. exists vs. split; [apply sget_some_in; exact F|].
        destruct H as [<-|H]; [left; reflexivity|right; exact H].
      + assert (H' : exists vs, sget t coupled = Some vs /\ In v (flat_map (fun v => [t; v]) vs)).
        { destruct (smem t isolated).
          - destruct (sget t coupled) as [vs|]; [eauto|destruct H].
          - destruct (sget t coupled) as [[|w ws]|] eqn:F; [destruct H| |destruct H]. rewrite F in H. eauto. }
        destruct H' as [vs [F H']]. right. exists vs. split; [apply sget_some_in; exact F|].
        apply in_flat_map in H' as [w [Hw [<-|[<-|[]]]]]; [left; reflexivity|right; exact Hw].
    - intros [[-> H]|[vs [Hin H]]].
      + left. apply smem_spec in H. rewrite H. left; reflexivity.
      + right; left. rewrite (sget_in _ coupled t vs HN Hin). destruct H as [->|H]; [left; reflexivity|right; exact H]. }
  assert (Hns : forall v, In v ns <-> exists t, (In t group_by \/ (~ In t core /\ (In t isolated \/ In t (map fst coupled)))) /\ In v (added isolated coupled t)).
  { intros v. unfold ns, nonshared. rewrite in_flat_map. split; intros [t [Ht Hv]]; exists t; split; try exact Hv.
    - apply in_app_or in Ht as [Ht|Ht]; [left; exact Ht|]. apply filter_In in Ht as [Ht Hc]. right.
      split; [apply smem_false, negb_true_iff; exact Hc|apply in_app_or; exact Ht].
    - apply in_or_app. destruct Ht as [Ht|[Hc Ht]]; [left; exact Ht|right]. apply filter_In. split; [apply in_or_app; exact Ht|].
      apply negb_true_iff, smem_false. exact Hc. }
  assert (Hsh : forall v, In v (sorted_set (filter (fun d => negb (smem d ns)) isolated ++ filter (fun d => negb (smem d ns)) (flat_map snd coupled)))
    <-> swept_var isolated coupled v /\ ~ In v ns).
  { intros v. rewrite sorted_set_in, in_app_iff, !filter_In, !negb_true_iff, !smem_false. unfold swept_var. split.
    - intros [[H1 H2]|[H1 H2]]; [auto|]. split; [|exact H2]. apply in_flat_map in H1 as [[t vs] [H3 H4]]. right. exists t, vs. auto.
    - intros [[H1|[t [vs [H1 H3]]]] H2]; [auto|]. right. split; [|exact H2]. apply in_flat_map. exists (t, vs). auto. }
  split; [|split; [|split; [|split]]].
  - intros v Hv. rewrite Hsh, sorted_set_in. destruct (smem v ns) eqn:F.
    + apply smem_spec in F. left. split; [exact F|]. intros [_ H]. contradiction.
    + apply smem_false in F. right. auto.
  - intros v Hv. apply Hsh in Hv. apply Hv.
  - intros v Hv Hc. rewrite sorted_set_in. apply Hns. exists v. split; [|apply Hadd; auto].
    destruct Hc as [Hc|Hc]; auto.
  - intros t vs Hin Hc. assert (Ht : In t (map fst coupled)) by (apply in_map_iff; exists (t, vs); auto).
    assert (HT : In t group_by \/ (~ In t core /\ (In t isolated \/ In t (map fst coupled)))) by (destruct Hc; auto). split.
    + rewrite sorted_set_in. apply Hns. exists t. split; [exact HT|]. apply Hadd. right. exists vs. auto.
    + intros v Hv. rewrite sorted_set_in. apply Hns. exists t. split; [exact HT|]. apply Hadd. right. exists vs. auto.
  - intros v Hv. rewrite sorted_set_in in Hv. apply Hns in Hv as [t [Ht Hv]]. exists t. split; [destruct Ht as [Ht|[Ht _]]; auto|]. apply Hadd. exact Hv.
Qed.
Print Assumptions C113_groups_partial.

(** CORE_COORDINATES_DTYPES *)
Definition core_coords : list string := ["iter"; "time"; "origin"; "destination"; "seed"; "alpha_range"; "beta_range"].

Example C113_nonvacuous :
  get_group_id core_coords ["sigma"; "seed"] [("cost_matrix", ["cost_matrix"; "ground_truth_table"])] [] =
    (["cost_matrix"; "ground_truth_table"; "sigma"], ["seed"]) /\
  get_group_id core_coords ["sigma"; "seed"] [("cost_matrix", ["cost_matrix"; "ground_truth_table"])] ["seed"] =
    (["cost_matrix"; "ground_truth_table"; "seed"; "sigma"], []).
Proof. split; reflexivity. Qed.

(** Asking to group by a variable swept together with a target of another name
    changes nothing. *)
Theorem C113_group_by_coupled_refuted : forall core isolated coupled group_by v,
  ~ In v isolated -> ~ In v (map fst coupled) ->
  get_group_id core isolated coupled (v :: group_by) = get_group_id core isolated coupled group_by.
Proof.
  intros core isolated coupled group_by v H1 H2. unfold get_group_id, nonshared. cbn [app flat_map].
  assert (added isolated coupled v = []) as ->; [|reflexivity].
  unfold added, target_of. apply smem_false in H1. rewrite H1, (sget_notin _ coupled v H2). reflexivity.
Qed.
Print Assumptions C113_group_by_coupled_refuted.

(** So with a core target a variable that is asked for is combined. *)
Example C113_coupled_nonvacuous :
  get_group_id core_coords [] [("seed", ["seed"; "sigma"])] ["sigma"] = ([], ["seed"; "sigma"]).
Proof. reflexivity. Qed.

(** ---- C114 -------------------------------------------------------------------- *)

Section Slices.
  Context {V : Type}.

  (** The cell lies in the array. *)
  Definition cell_of (a : larr V) (g : labelling) : Prop := forall d ls, In (d, ls) (l_dims a) -> In (g d) ls.
  (** A slice's truth depends on its dimensions only. *)
  Definition local (s : slice) : Prop := forall g h, (forall d, In d (s_dims s) -> g d = h d) -> s_test s g = s_test s h.

  Lemma labellings_in : forall ds g, NoDup (map fst ds) -> (forall d ls, In (d, ls) ds -> In (g d) ls) ->
    exists h, In h (labellings ds) /\ forall d, In d (map fst ds) -> h d = g d.
  Proof.
    induction ds as [|[d ls] ds IH]; intros g HN H; [exists (fun _ => ""); split; [left; reflexivity|intros d []]|].
    cbn [map fst] in HN. inversion HN as [|? ? Hd HN']; subst.
    destruct (IH g HN') as [h [Hh Eh]]; [intros; apply H; right; assumption|].
    exists (fun x => if String.eqb x d then g d else h x). split.
    - cbn [labellings]. apply in_flat_map. exists (g d). split; [apply H; left; reflexivity|]. apply in_map_iff. exists h. auto.
    - intros x [<-|Hx]; cbn [fst]; [rewrite String.eqb_refl; reflexivity|]. destruct (String.eqb x d) eqn:E; [apply String.eqb_eq in E; subst; reflexivity|apply Eh, Hx].
  Qed.

  Lemma labellings_sound : forall ds h, NoDup (map fst ds) -> In h (labellings ds) -> forall d ls, In (d, ls) ds -> In (h d) ls.
  Proof.
    induction ds as [|[d ls] ds IH]; intros h HN Hh d' ls' Hin; [destruct Hin|]. cbn [map fst] in HN. inversion HN as [|? ? Hd HN']; subst.
    cbn [labellings] in Hh. apply in_flat_map in Hh as [l [Hl Hh]]. apply in_map_iff in Hh as [e [<- He]].
    destruct Hin as [E|Hin].
    - injection E as <- <-. rewrite String.eqb_refl. exact Hl.
    - assert (d' <> d) by (intros ->; apply Hd, in_map_iff; exists (d, ls'); auto). apply String.eqb_neq in H. rewrite H. eapply IH; eassumption.
  Qed.

  Definition good_dims (a : larr V) : Prop := NoDup (map fst (l_dims a)).

  Lemma where_dims : forall s (a : larr V), map fst (l_dims (where_drop s a)) = map fst (l_dims a).
  Proof. intros s a. cbn [where_drop l_dims]. rewrite map_map. apply map_ext. intros [d ls]. cbn [fst]. destruct (smem d (s_dims s)); reflexivity. Qed.

  Lemma own_NoDup : forall (a : larr V) f, good_dims a -> NoDup (map fst (filter f (l_dims a))).
  Proof.
    intros a f H. unfold good_dims in H. induction (l_dims a) as [|e l IH]; [constructor|]. cbn [map] in H. inversion H as [|? ? He HN]; subst.
    cbn [filter]. destruct (f e); [|auto]. cbn [map]. constructor; [|auto]. intros Hin. apply He. apply in_map_iff in Hin as [e' [E Hin]].
    apply filter_In in Hin as [Hin _]. apply in_map_iff. exists e'. auto.
  Qed.

  (** A label is kept when the slice holds at some cell with that label. *)
  Lemma where_label : forall s (a : larr V) d ls, good_dims a -> local s -> evaluable s a = true -> In (d, ls) (l_dims a) ->
    (forall d' ls', In (d', ls') (l_dims a) -> ls' <> []) ->
    exists ls', In (d, ls') (l_dims (where_drop s a)) /\
      forall l, In l ls' <-> In l ls /\ (In d (s_dims s) -> exists g, cell_of a g /\ g d = l /\ s_test s g = true).
  Proof.
    intros s a d ls HG HL HE Hin Hne. destruct (smem d (s_dims s)) eqn:E.
    - set (own := filter (fun e => smem (fst e) (s_dims s)) (l_dims a)).
      exists (filter (fun l => existsb (fun g => String.eqb (g d) l && s_test s g) (labellings own)) ls). split.
      + cbn [where_drop l_dims]. apply in_map_iff. exists (d, ls). cbn [fst snd]. rewrite E. auto.
      + intros l. rewrite filter_In, existsb_exists. split; intros [Hl H]; (split; [exact Hl|]).
        * intros _. destruct H as [h [Hh Hb]]. apply andb_true_iff in Hb as [Hb1 Hb2]. apply String.eqb_eq in Hb1.
          (* extend h to all dimensions *)
          set (g := fun x => if smem x (s_dims s) then h x else match sget x (l_dims a) with Some (y :: _) => y | _ => "" end).
          exists g. split; [|split].
          -- intros d' ls' Hin'. unfold g. destruct (smem d' (s_dims s)) eqn:F.
             ++ eapply labellings_sound; [apply own_NoDup; exact HG|exact Hh|]. apply filter_In. auto.
             ++ rewrite (sget_in _ (l_dims a) d' ls' HG Hin'). specialize (Hne d' ls' Hin'). destruct ls' as [|y ls']; [congruence|left; reflexivity].
          -- unfold g. rewrite E. exact Hb1.
          -- rewrite (HL g h); [exact Hb2|]. intros x Hx. unfold g. apply smem_spec in Hx. rewrite Hx. reflexivity.
        * apply smem_spec in E. destruct (H E) as [g [Hg [Eg Tg]]].
          destruct (labellings_in own g) as [h [Hh Eh]]; [apply own_NoDup; exact HG| |].
          { intros d' ls' Hin'. apply filter_In in Hin' as [Hin' _]. apply Hg. exact Hin'. }
          exists h. split; [exact Hh|]. apply andb_true_iff.
          assert (Hall : forall x, In x (s_dims s) -> h x = g x).
          { intros x Hx. apply Eh. unfold evaluable in HE. rewrite forallb_forall in HE. specialize (HE x Hx). apply smem_spec, in_map_iff in HE as [[x' lx] [Ex Hx']].
            cbn in Ex. subst x'. apply in_map_iff. exists (x, lx). split; [reflexivity|]. apply filter_In. split; [exact Hx'|apply smem_spec; exact Hx]. }
          split; [apply String.eqb_eq; rewrite (Hall d E); exact Eg|rewrite (HL h g Hall); exact Tg].
    - exists ls. split.
      + cbn [where_drop l_dims]. apply in_map_iff. exists (d, ls). cbn [fst snd]. rewrite E. auto.
      + intros l. apply smem_false in E. split; [intros Hl; split; [exact Hl|intros H; contradiction]|intros [Hl _]; exact Hl].
  Qed.

  Lemma is_empty_false : forall a : larr V, is_empty a = false -> forall d ls, In (d, ls) (l_dims a) -> ls <> [].
  Proof.
    intros a H d ls Hin ->. unfold is_empty in H. assert (existsb (fun e : string * list string => match snd e with [] => true | _ => false end) (l_dims a) = true).
    { apply existsb_exists. exists (d, []). auto. } congruence.
  Qed.

  Lemma where_cells : forall s (a : larr V) g, good_dims a -> local s -> evaluable s a = true -> is_empty a = false ->
    (cell_of a g -> s_test s g = true -> cell_of (where_drop s a) g) /\ (cell_of (where_drop s a) g -> cell_of a g).
  Proof.
    intros s a g HG HL HE Hne. pose proof (is_empty_false a Hne) as Hne'.
    assert (HG' : good_dims (where_drop s a)) by (unfold good_dims; rewrite where_dims; exact HG). split.
    - intros Hg Tg d ls Hin.
      assert (Hd : In d (map fst (l_dims a))) by (rewrite <- (where_dims s a); apply in_map_iff; exists (d, ls); auto).
      apply in_map_iff in Hd as [[d' ls0] [E Hd]]. cbn in E. subst d'.
      destruct (where_label s a d ls0 HG HL HE Hd Hne') as [ls' [Hin' Hl]].
      rewrite (NoDup_fst_eq _ _ d ls ls' HG' Hin Hin'). apply Hl. split; [apply Hg; exact Hd|]. intros _. exists g. auto.
    - intros Hg d ls0 Hd. destruct (where_label s a d ls0 HG HL HE Hd Hne') as [ls' [Hin' Hl]]. specialize (Hg d ls' Hin'). apply Hl in Hg. apply Hg.
  Qed.
End Slices.

(** A cell satisfies the slices that can be evaluated on the array. *)
Definition satisfies {V} (ss : list slice) (a : larr V) (g : labelling) : Prop :=
  forall s, In s ss -> (forall d, In d (s_dims s) -> In d (map fst (l_dims a))) -> s_test s g = true.

Lemma evaluable_spec : forall V s (a : larr V), evaluable s a = true <-> forall d, In d (s_dims s) -> In d (map fst (l_dims a)).
Proof.
  intros V s a. unfold evaluable. rewrite forallb_forall. split; intros H d Hd; apply smem_spec, H, Hd.
Qed.

Lemma evaluable_where : forall V s t (a : larr V), evaluable s (where_drop t a) = evaluable s a.
Proof. intros. unfold evaluable. rewrite where_dims. reflexivity. Qed.

Lemma slice_cells : forall V ss (a : larr V), good_dims a -> Forall local ss -> is_empty a = false ->
  match slice_by_value ss a with
  | Ok b => (forall g, cell_of b g -> cell_of a g) /\
            (forall g, cell_of a g -> satisfies ss a g -> cell_of b g) /\
            (forall g, satisfies ss a g -> l_val b g = l_val a g) /\
            (forall g, ~ satisfies ss a g -> l_val b g = None) /\ map fst (l_dims b) = map fst (l_dims a)
  | Raise _ => forall g, cell_of a g -> ~ satisfies ss a g
  end.
Proof.
  intros V ss. induction ss as [|s ss IH]; intros a HG HL HE.
  - cbn [slice_by_value]. split; [auto|]. split; [auto|]. split; [auto|]. split; [|reflexivity]. intros g H. exfalso. apply H. intros s [].
  - inversion HL as [|? ? HL1 HL2]; subst. cbn [slice_by_value]. destruct (evaluable s a) eqn:E.
    + assert (Hsat : forall g, satisfies (s :: ss) a g <-> s_test s g = true /\ satisfies ss (where_drop s a) g).
      { intros g. unfold satisfies. rewrite where_dims. split.
        - intros H. split; [apply H; [left; reflexivity|apply evaluable_spec; exact E]|intros s' Hs'; apply H; right; exact Hs'].
        - intros [H1 H2] s' [<-|Hs']; [intros _; exact H1|apply H2; exact Hs']. }
      assert (HG' : good_dims (where_drop s a)) by (unfold good_dims; rewrite where_dims; exact HG).
      destruct (is_empty (where_drop s a)) eqn:F.
      * intros g Hg Hs. apply Hsat in Hs as [Hs _]. apply (where_cells s a g HG HL1 E HE) in Hg; [|exact Hs].
        unfold is_empty in F. apply existsb_exists in F as [[d ls] [Hin Hls]]. cbn [snd] in Hls. destruct ls; [|discriminate]. exact (Hg d [] Hin).
      * specialize (IH (where_drop s a) HG' HL2 F). destruct (slice_by_value ss (where_drop s a)) as [b|e].
        -- destruct IH as [H1 [H2 [H3 [H4 H5]]]]. split; [|split; [|split; [|split]]].
           ++ intros g Hg. apply (where_cells s a g HG HL1 E HE). apply H1, Hg.
           ++ intros g Hg Hs. apply Hsat in Hs as [Hs1 Hs2]. apply H2; [apply (where_cells s a g HG HL1 E HE); assumption|exact Hs2].
           ++ intros g Hs. apply Hsat in Hs as [Hs1 Hs2]. rewrite H3 by exact Hs2. cbn [where_drop l_val]. rewrite Hs1. reflexivity.
           ++ intros g Hs. destruct (s_test s g) eqn:Ts.
              ** apply H4. intros H. apply Hs, Hsat. auto.
              ** destruct (forallb (fun s' => negb (evaluable s' (where_drop s a)) || s_test s' g) ss) eqn:Fs.
                 { rewrite H3; [cbn [where_drop l_val]; rewrite Ts; reflexivity|]. intros s' Hs' He. rewrite forallb_forall in Fs. specialize (Fs s' Hs').
                   apply evaluable_spec in He. rewrite He in Fs. exact Fs. }
                 { apply H4. intros H. apply not_true_iff_false in Fs. apply Fs. apply forallb_forall. intros s' Hs'.
                   destruct (evaluable s' (where_drop s a)) eqn:Es; [|reflexivity]. apply H; [exact Hs'|apply evaluable_spec; exact Es]. }
           ++ rewrite H5. apply where_dims.
        -- intros g Hg Hs. apply Hsat in Hs as [Hs1 Hs2]. apply (IH g); [apply (where_cells s a g HG HL1 E HE); assumption|exact Hs2].
    + assert (Hsat : forall g, satisfies (s :: ss) a g <-> satisfies ss a g).
      { intros g. unfold satisfies. split; [intros H s' Hs'; apply H; right; exact Hs'|]. intros H s' [<-|Hs']; [|apply H; exact Hs'].
        intros He. apply evaluable_spec in He. congruence. }
      specialize (IH a HG HL2 HE). destruct (slice_by_value ss a) as [b|e].
      * destruct IH as [H1 [H2 [H3 [H4 H5]]]]. split; [exact H1|]. split; [intros g Hg Hs; apply H2; [exact Hg|apply Hsat; exact Hs]|].
        split; [intros g Hs; apply H3, Hsat, Hs|]. split; [intros g Hs; apply H4; intros H; apply Hs, Hsat, H|exact H5].
      * intros g Hg Hs. apply (IH g Hg). apply Hsat, Hs.
Qed.

(** Slicing keeps every cell that satisfies all the slices mentioning coordinates
    of the array, with its value, adds none and leaves no other value; when the
    array is left out, no cell satisfies the slices. *)
Theorem C114_slices_partial : forall V ss (a : larr V), NoDup (map fst (l_dims a)) -> Forall local ss ->
  (forall d ls, In (d, ls) (l_dims a) -> ls <> []) ->
  match slice_coordinates ss a with
  | Some b => (forall g, cell_of a g -> satisfies ss a g -> cell_of b g /\ l_val b g = l_val a g) /\
              (forall g, cell_of b g -> cell_of a g /\ (~ satisfies ss a g -> l_val b g = None))
  | None => forall g, cell_of a g -> ~ satisfies ss a g
  end.
Proof.
  intros V ss a HG HL HE.
  assert (HE' : is_empty a = false).
  { unfold is_empty. destruct (existsb (fun e : string * list string => match snd e with [] => true | _ => false end) (l_dims a)) eqn:F; [|reflexivity].
    apply existsb_exists in F as [[d ls] [Hin Hls]]. cbn [snd] in Hls. destruct ls; [exfalso; apply (HE d [] Hin); reflexivity|discriminate]. }
  pose proof (slice_cells V ss a HG HL HE') as H. unfold slice_coordinates. destruct (slice_by_value ss a) as [b|e]; [|exact H].
  destruct H as [H1 [H2 [H3 [H4 _]]]]. split.
  - intros g Hg Hs. split; [apply H2; assumption|apply H3; exact Hs].
  - intros g Hg. split; [apply H1; exact Hg|apply H4].
Qed.
Print Assumptions C114_slices_partial.

(** When every slice mentions a single dimension the array kept is exactly the
    product of the labels satisfying the slices. *)
Theorem C114_one_dimension_exact : forall V ss (a : larr V), NoDup (map fst (l_dims a)) -> Forall local ss ->
  (forall d ls, In (d, ls) (l_dims a) -> ls <> []) -> (forall s, In s ss -> exists d, s_dims s = [d]) ->
  match slice_coordinates ss a with
  | Some b => forall g, cell_of b g <-> cell_of a g /\ satisfies ss a g
  | None => forall g, cell_of a g -> ~ satisfies ss a g
  end.
Proof.
  intros V ss a HG HL HE H1.
  pose proof (C114_slices_partial V ss a HG HL HE) as HS. destruct (slice_coordinates ss a) as [b|] eqn:Eb; [|exact HS].
  destruct HS as [HA HB]. intros g. split; [|intros [Hg Hs]; apply HA; assumption].
  intros Hg. split; [apply HB; exact Hg|]. clear HA HB. unfold slice_coordinates in Eb.
  destruct (slice_by_value ss a) as [b'|] eqn:Eb'; [|discriminate]. injection Eb as ->. revert a b HG HE Eb' Hg.
  induction ss as [|s ss IH]; intros a b HG HE Eb Hg; [intros s []|].
  inversion HL as [|? ? HL1 HL2]; subst. cbn [slice_by_value] in Eb. destruct (evaluable s a) eqn:E.
  - destruct (is_empty (where_drop s a)) eqn:F; [discriminate|].
    assert (HG' : good_dims (where_drop s a)) by (unfold good_dims; rewrite where_dims; exact HG).
    assert (Hs2 : satisfies ss (where_drop s a) g).
    { apply (IH HL2 (fun s' Hs' => H1 s' (or_intror Hs')) (where_drop s a) b HG' (is_empty_false _ F) Eb Hg). }
    assert (Hc : cell_of (where_drop s a) g).
    { pose proof (slice_cells V ss (where_drop s a) HG' HL2 F) as HC. rewrite Eb in HC. apply HC, Hg. }
    intros s' [<-|Hs'] He.
    + destruct (H1 s (or_introl eq_refl)) as [d Ed]. specialize (He d). rewrite Ed in He. specialize (He (or_introl eq_refl)).
      apply in_map_iff in He as [[d' ls] [Ed' Hd]]. cbn in Ed'. subst d'.
      destruct (where_label s a d ls HG HL1 E Hd HE) as [ls' [Hin Hl]]. destruct (proj1 (Hl (g d)) (Hc d ls' Hin)) as [_ Hc'].
      destruct Hc' as [h [_ [Eh Th]]]; [rewrite Ed; left; reflexivity|]. rewrite (HL1 g h); [exact Th|]. intros x Hx. rewrite Ed in Hx. destruct Hx as [<-|[]]. symmetry; exact Eh.
    + apply Hs2; [exact Hs'|]. intros x Hx. rewrite where_dims. apply He, Hx.
  - intros s' [<-|Hs'] He; [apply evaluable_spec in He; congruence|].
    apply (IH HL2 (fun s' Hs' => H1 s' (or_intror Hs')) a b HG HE Eb Hg); assumption.
Qed.
Print Assumptions C114_one_dimension_exact.

Definition eq_slice (d v : string) : slice := Slice [d] (fun g => String.eqb (g d) v).
Definition ex_larr : larr Z := Larr [("sigma", ["0.1"; "0.2"]); ("iter", ["1"; "2"])] (fun g => Some (if String.eqb (g "sigma") "0.1" then 1 else 2)%Z).

Example C114_nonvacuous :
  local (eq_slice "sigma" "0.2") /\
  option_map l_dims (slice_coordinates [eq_slice "sigma" "0.2"; eq_slice "theta" "1"] ex_larr) = Some [("sigma", ["0.2"]); ("iter", ["1"; "2"])] /\
  slice_coordinates [eq_slice "sigma" "0.2"; eq_slice "sigma" "0.1"] ex_larr = None.
Proof. split; [intros g h H; cbn; rewrite (H "sigma" (or_introl eq_refl)); reflexivity|]. split; reflexivity. Qed.

(** Slices over two dimensions can leave an array without a single value that
    is not reported as empty; and slices are dropped without notice when they
    mention a coordinate that is not a setting, or when nothing is swept. *)
Theorem C114_empty_refuted :
  exists (s1 s2 : slice) (a : larr Z) b, local s1 /\ local s2 /\
  (forall g, cell_of a g -> ~ satisfies [s1; s2] a g) /\
  slice_coordinates [s1; s2] a = Some b /\ (exists g, cell_of b g) /\ forall g, cell_of b g -> l_val b g = None.
Proof.
  exists (Slice ["sigma"; "iter"] (fun g => Bool.eqb (String.eqb (g "sigma") "0.1") (String.eqb (g "iter") "1"))),
         (Slice ["sigma"; "iter"] (fun g => negb (Bool.eqb (String.eqb (g "sigma") "0.1") (String.eqb (g "iter") "1")))), ex_larr.
  eexists. split; [intros g h H; cbn; rewrite (H "sigma"), (H "iter") by (cbn; auto); reflexivity|].
  split; [intros g h H; cbn; rewrite (H "sigma"), (H "iter") by (cbn; auto); reflexivity|]. split.
  - intros g _ Hs.
    assert (H1 := Hs _ (or_introl eq_refl)). assert (H2 := Hs _ (or_intror (or_introl eq_refl))). cbn in H1, H2.
    rewrite H1 in H2 by (intros d [<-|[<-|[]]]; auto). discriminate H2. intros d [<-|[<-|[]]]; auto.
  - split; [reflexivity|]. split.
    + exists (fun d => if String.eqb d "sigma" then "0.1" else "1"). intros d ls [E|[E|[]]]; injection E as <- <-; cbn; auto.
    + intros g _. cbn. destruct (Bool.eqb _ _); reflexivity.
Qed.
Print Assumptions C114_empty_refuted.

Theorem C114_dropped_refuted : forall (sweepable : string -> bool) s ss,
  slicing_conditions false sweepable ss = [] /\
  (forall d, In d (s_dims s) -> sweepable d = false -> slicing_conditions true sweepable (s :: ss) = slicing_conditions true sweepable ss).
Proof.
  intros sweepable s ss. split; [reflexivity|]. intros d Hd Hs. unfold slicing_conditions. cbn [filter].
  destruct (forallb sweepable (s_dims s)) eqn:E; [|reflexivity]. rewrite forallb_forall in E. rewrite (E d Hd) in Hs. discriminate.
Qed.
Print Assumptions C114_dropped_refuted.

(** ---- C115 -------------------------------------------------------------------- *)

Section Loading.
  Variable iterable : string -> bool.
  Variable dims_of : string -> list string.
  Variable ext : string -> nat.

  Lemma set_coords_eq : forall ds g, (forall k n, sget k g = Some n -> n = ext k) ->
    exists g', set_coords ds (map ext ds) g = Ok g' /\ (forall k n, sget k g' = Some n -> n = ext k) /\
      forall k, In k ds \/ sget k g <> None -> sget k g' = Some (ext k).
  Proof.
    induction ds as [|d ds IH]; intros g Hg.
    - exists g. split; [reflexivity|]. split; [exact Hg|]. intros k [[]|Hk]. destruct (sget k g) as [n|] eqn:E; [|congruence]. rewrite (Hg k n E). reflexivity.
    - cbn [map set_coords]. destruct (IH (sset d (ext d) g)) as [g' [E [H1 H2]]].
      + intros k n Hk. destruct (String.eqb k d) eqn:Ed.
        * apply String.eqb_eq in Ed. subst. rewrite sget_sset_eq in Hk. congruence.
        * apply String.eqb_neq in Ed. rewrite sget_sset_ne in Hk by exact Ed. apply Hg, Hk.
      + exists g'. split; [exact E|]. split; [exact H1|]. intros k Hk. apply H2.
        destruct (String.eqb k d) eqn:Ed; [apply String.eqb_eq in Ed; subst; right; rewrite sget_sset_eq; discriminate|].
        apply String.eqb_neq in Ed. destruct Hk as [[<-|Hk]|Hk]; [congruence|left; exact Hk|right; rewrite sget_sset_ne by exact Ed; exact Hk].
  Qed.

  Lemma read_file_eq : forall names f g acc,
    (forall d, In d f -> In (d_name d) names -> d_shape d = map ext (global_dims iterable dims_of (d_name d))) ->
    (forall k n, sget k g = Some n -> n = ext k) ->
    (forall d, In d acc -> forall k, In k (global_dims iterable dims_of (d_name d)) -> sget k g = Some (ext k)) ->
    exists g', read_file iterable dims_of names f g acc = Ok (g', acc ++ filter (fun d => smem (d_name d) names) f) /\
      forall d, In d (acc ++ filter (fun d => smem (d_name d) names) f) -> forall k, In k (global_dims iterable dims_of (d_name d)) -> sget k g' = Some (ext k).
  Proof.
    intros names. induction f as [|d f IH]; intros g acc Hf Hg Ha.
    - cbn [read_file filter]. rewrite app_nil_r. exists g. auto.
    - cbn [read_file filter]. destruct (smem (d_name d) names) eqn:E.
      + rewrite (Hf d (or_introl eq_refl)) by (apply smem_spec; exact E).
        destruct (set_coords_eq (global_dims iterable dims_of (d_name d)) g Hg) as [g1 [E1 [H1 H2]]]. rewrite E1. cbn [rbind].
        destruct (IH g1 (acc ++ [d])) as [g' [E2 H3]]; [intros; apply Hf; [right|]; assumption|exact H1| |].
        * intros x Hx k Hk. apply H2. apply in_app_or in Hx as [Hx|[<-|[]]]; [right; rewrite (Ha x Hx k Hk); discriminate|left; exact Hk].
        * rewrite <- app_assoc in E2, H3. cbn [app] in E2, H3. exists g'. auto.
      + apply IH; [intros; apply Hf; [right|]; assumption|exact Hg|exact Ha].
  Qed.

  Lemma product_app : forall a b, product (a ++ b) = product a * product b.
  Proof. unfold product. induction a as [|x a IH]; intros b; cbn [app fold_right]; [lia|]. rewrite IH. lia. Qed.
  Lemma product_ones : forall A (l : list A), product (map (fun _ => 1) l) = 1.
  Proof. unfold product. induction l as [|x l IH]; [reflexivity|]. cbn [map fold_right]. rewrite IH. reflexivity. Qed.

  Lemma label_all_eq : forall sweep g ds,
    (forall d, In d ds -> List.length (d_rows d) = product (map ext (global_dims iterable dims_of (d_name d)))) ->
    (forall d, In d ds -> forall k, In k (global_dims iterable dims_of (d_name d)) -> sget k g = Some (ext k)) ->
    label_all iterable dims_of sweep g ds = Ok (map (fun d => (d_name d,
      (map (fun k => (k, 1)) (filter (fun k => negb (String.eqb k (d_name d))) sweep) ++
       map (fun k => (k, ext k)) (global_dims iterable dims_of (d_name d)), d_rows d))) ds).
  Proof.
    intros sweep g. induction ds as [|d ds IH]; intros H1 H2; [reflexivity|]. cbn [label_all map].
    assert (Eg : (fix get (l : list string) : res (list (string * nat)) :=
                  match l with
                  | [] => Ok []
                  | k :: l' => match sget k g with
                               | Some n => do t <- get l' ; Ok ((k, n) :: t)
                               | None => Raise EKey
                               end
                  end) (global_dims iterable dims_of (d_name d)) = Ok (map (fun k => (k, ext k)) (global_dims iterable dims_of (d_name d)))).
    { specialize (H2 d (or_introl eq_refl)). revert H2. generalize (global_dims iterable dims_of (d_name d)) as l.
      induction l as [|k l IHl]; intros H2; [reflexivity|]. cbn [map]. rewrite (H2 k (or_introl eq_refl)).
      rewrite IHl by (intros k' Hk'; apply H2; right; exact Hk'). reflexivity. }
    rewrite Eg. cbn [rbind]. rewrite map_app, product_app, !map_map. cbn [snd]. rewrite product_ones, Nat.mul_1_l.
    rewrite (H1 d (or_introl eq_refl)), Nat.eqb_refl. rewrite IH; [reflexivity| |]; intros d' Hd'; [apply H1|apply H2]; right; exact Hd'.
  Qed.
End Loading.

(** When the datasets of a run agree on the length of every dimension they share,
    each sample asked for is loaded with its own content, one coordinate per
    sweep parameter and the coordinates 1..n of its own dimensions. *)
Theorem C115_load_partial : forall iterable dims_of ext f sweep names,
  (forall d, In d f -> In (d_name d) names ->
     d_shape d = map ext (global_dims iterable dims_of (d_name d)) /\ List.length (d_rows d) = product (d_shape d)) ->
  load_run iterable dims_of (Some f) sweep names =
    Ok (map (fun d => (d_name d,
          (map (fun k => (k, 1)) (filter (fun k => negb (String.eqb k (d_name d))) sweep) ++
           combine (global_dims iterable dims_of (d_name d)) (d_shape d), d_rows d)))
        (filter (fun d => smem (d_name d) names) f)).
Proof.
  intros iterable dims_of ext f sweep names H. unfold load_run.
  destruct (read_file_eq iterable dims_of ext names f [] []) as [g [E HG]].
  - intros d Hd Hn. apply (H d Hd Hn).
  - intros k n Hk. discriminate.
  - intros d [].
  - rewrite E. cbn [app] in *. rewrite (label_all_eq iterable dims_of ext sweep g); [|intros d Hd|exact HG].
    + f_equal. apply map_ext_in. intros d Hd. apply filter_In in Hd as [Hd Hn]. apply smem_spec in Hn. destruct (H d Hd Hn) as [-> _].
      assert (Hc : forall l : list string, map (fun k => (k, ext k)) l = combine l (map ext l)).
      { induction l as [|x l IHl]; [reflexivity|]. cbn [map combine]. rewrite IHl. reflexivity. }
      rewrite Hc. reflexivity.
    + apply filter_In in Hd as [Hd Hn]. apply smem_spec in Hn. destruct (H d Hd Hn) as [E1 E2]. rewrite E2, E1. reflexivity.
Qed.
Print Assumptions C115_load_partial.

Example C115_nonvacuous :
  load_run (fun _ => true) (fun n => if String.eqb n "table" then ["origin"] else [])
    (Some [Dataset "sign" [2] [1; -1]%Z; Dataset "table" [2; 3] [1; 2; 3; 4; 5; 6]%Z; Dataset "theta" [2] [7; 8]%Z]) ["sigma"; "sign"] ["table"; "sign"] =
  Ok [("sign", ([("sigma", 1); ("iter", 2)], [1; -1]%Z)); ("table", ([("sigma", 1); ("sign", 1); ("iter", 2); ("origin", 3)], [1; 2; 3; 4; 5; 6]%Z))].
Proof. reflexivity. Qed.

(** A run stopped between the writes of one step has datasets of n and n+1 rows;
    asking for two of different lengths fails, whichever they are. *)
Theorem C115_interrupted_refuted : forall f sweep names a b,
  (forall d, In d f -> d_shape d = [List.length (d_rows d)]) ->
  In a f -> In b f -> In (d_name a) names -> In (d_name b) names ->
  List.length (d_rows a) <> List.length (d_rows b) ->
  load_run (fun _ => true) (fun _ => []) (Some f) sweep names = Raise EValue.
Proof.
  intros f sweep names a b Hf Ha Hb Na Nb Hne. unfold load_run.
  assert (HR : forall l g acc, (forall d, In d l -> d_shape d = [List.length (d_rows d)]) ->
    (acc <> [] -> exists n, g = [("iter", n)]) -> (acc = [] -> g = []) ->
    exists g', read_file (fun _ => true) (fun _ => []) names l g acc = Ok (g', acc ++ filter (fun d => smem (d_name d) names) l) /\
      (acc ++ filter (fun d => smem (d_name d) names) l <> [] -> exists n, g' = [("iter", n)])).
  { induction l as [|d l IH]; intros g acc Hl H1 H2; cbn [read_file filter]; [rewrite app_nil_r; exists g; auto|].
    destruct (smem (d_name d) names).
    - unfold global_dims. cbn [app set_coords]. rewrite (Hl d (or_introl eq_refl)). cbn [set_coords rbind].
      assert (Hs : exists n, sset "iter" (List.length (d_rows d)) g = [("iter", n)]).
      { destruct acc as [|x acc]; [rewrite H2 by reflexivity; eexists; reflexivity|]. destruct H1 as [n ->]; [discriminate|]. eexists; reflexivity. }
      destruct (IH (sset "iter" (List.length (d_rows d)) g) (acc ++ [d])) as [g' [E H3]].
      + intros x Hx. apply Hl; right; exact Hx.
      + intros _. exact Hs.
      + intros E. destruct acc; discriminate.
      + rewrite <- app_assoc in E, H3. exists g'. auto.
    - apply IH; [intros x Hx; apply Hl; right; exact Hx|exact H1|exact H2]. }
  destruct (HR f [] [] Hf) as [g [E HG]]; [congruence|reflexivity|]. rewrite E. cbn [app] in *.
  set (ds := filter (fun d => smem (d_name d) names) f) in *.
  assert (Ia : In a ds) by (apply filter_In; split; [exact Ha|apply smem_spec; exact Na]).
  assert (Ib : In b ds) by (apply filter_In; split; [exact Hb|apply smem_spec; exact Nb]).
  destruct HG as [n ->]; [intros E0; rewrite E0 in Ia; destruct Ia|]. clearbody ds. clear E HR.
  assert (Hbad : exists d, In d ds /\ List.length (d_rows d) <> n).
  { destruct (Nat.eq_dec (List.length (d_rows a)) n); [exists b|exists a]; split; try assumption. lia. }
  clear Ia Ib. destruct Hbad as [d [Hd Hn]]. induction ds as [|x ds IH]; [destruct Hd|]. cbn [label_all]. unfold global_dims. cbn [app].
  change (sget "iter" [("iter", n)]) with (Some n). cbn [rbind]. rewrite map_app, product_app, map_map. cbn [snd map]. rewrite product_ones. cbn [product fold_right].
  destruct (Nat.eqb (1 * (n * 1)) (List.length (d_rows x))) eqn:Ex; [|reflexivity].
  destruct Hd as [->|Hd]; [apply Nat.eqb_eq in Ex; exfalso; lia|]. rewrite IH by exact Hd. reflexivity.
Qed.
Print Assumptions C115_interrupted_refuted.

Example C115_interrupted_nonvacuous :
  load_run (fun _ => true) (fun _ => []) (Some [Dataset "sign" [3] [1; 1; 1]%Z; Dataset "theta" [2] [7; 8]%Z]) [] ["sign"; "theta"] = Raise EValue /\
  load_run (fun _ => true) (fun _ => []) (Some [Dataset "sign" [3] [1; 1; 1]%Z; Dataset "theta" [2] [7; 8]%Z]) [] ["theta"] =
    Ok [("theta", ([("iter", 2)], [7; 8]%Z))].
Proof. split; reflexivity. Qed.

(** ---- C116 -------------------------------------------------------------------- *)

Lemma fold_sset_get : forall (sweep : list (string * string)) (r : row) k, ~ In k (map fst sweep) ->
  sget k (fold_left (fun r e => sset (fst e) (DText (snd e)) r) sweep r) = sget k r.
Proof.
  induction sweep as [|[m v] sweep IH]; intros r k H; [reflexivity|]. cbn [fold_left fst snd map] in *. rewrite IH by (intros Hin; apply H; right; exact Hin).
  apply sget_sset_ne. intros ->. apply H. left; reflexivity.
Qed.

Lemma fold_sset_in : forall (sweep : list (string * string)) (r : row) k v, NoDup (map fst sweep) -> In (k, v) sweep ->
  sget k (fold_left (fun r e => sset (fst e) (DText (snd e)) r) sweep r) = Some (DText v).
Proof.
  induction sweep as [|[m w] sweep IH]; intros r k v HN Hin; [destruct Hin|]. cbn [fold_left fst snd map] in *. inversion HN as [|? ? Hm HN']; subst.
  destruct Hin as [E|Hin]; [|apply IH; assumption]. injection E as -> ->. rewrite fold_sset_get by exact Hm. apply sget_sset_eq.
Qed.

Lemma sget_app_last : forall A (c : list (string * A)) k v, ~ In k (map fst c) -> sset k v c = c ++ [(k, v)].
Proof.
  induction c as [|[m x] c IH]; intros k v H; [reflexivity|]. cbn [sset app]. destruct (String.eqb k m) eqn:E.
  - apply String.eqb_eq in E. subst. exfalso. apply H. left; reflexivity.
  - rewrite IH; [reflexivity|]. intros Hin. apply H. right; exact Hin.
Qed.

Lemma sset_middle : forall A (c1 c2 : list (string * A)) k v w, ~ In k (map fst c1) -> sset k w (c1 ++ (k, v) :: c2) = c1 ++ (k, w) :: c2.
Proof.
  induction c1 as [|[m x] c1 IH]; intros c2 k v w H; cbn [app sset]; [rewrite String.eqb_refl; reflexivity|]. destruct (String.eqb k m) eqn:E.
  - apply String.eqb_eq in E. subst. exfalso. apply H. left; reflexivity.
  - rewrite IH; [reflexivity|]. intros Hin. apply H. right; exact Hin.
Qed.
Lemma sget_middle : forall A (c1 c2 : list (string * A)) k v, ~ In k (map fst c1) -> sget k (c1 ++ (k, v) :: c2) = Some v.
Proof.
  induction c1 as [|[m x] c1 IH]; intros c2 k v H; cbn [app sget]; [rewrite String.eqb_refl; reflexivity|]. destruct (String.eqb k m) eqn:E.
  - apply String.eqb_eq in E. subst. exfalso. apply H. left; reflexivity.
  - apply IH. intros Hin. apply H. right; exact Hin.
Qed.

Section Summary.
  (** The sweep configurations, in order. *)
  Variable sweeps : list (list (string * string)).
  (** How a configuration is written. *)
  Definition ident (s : list (string * string)) : string := sweep_id "" s.
  (** A name that is not a sweep parameter. *)
  Definition fresh (n : string) : Prop := n <> "" /\ forall s, In s sweeps -> ~ In n (map fst s).
  Hypothesis Hids : NoDup (map ident sweeps).
  Hypothesis Hkeys : forall s, In s sweeps -> NoDup (map fst s) /\ ~ In "" (map fst s).

  Lemma ident_eq : forall n s, fresh n -> In s sweeps -> sweep_id n s = ident s.
  Proof.
    intros n s [_ Hn] Hs. unfold ident, sweep_id. f_equal. f_equal. apply filter_ext_in. intros [k v] Hin. cbn [fst].
    assert (k <> n) by (intros ->; apply (Hn s Hs), in_map_iff; exists (n, v); auto).
    assert (k <> "") by (intros ->; apply (proj2 (Hkeys s Hs)), in_map_iff; exists ("", v); auto).
    apply String.eqb_neq in H, H0. rewrite H, H0. reflexivity.
  Qed.

  (** Rows of the state, one per configuration. *)
  Definition rows_of (rs : list row) : list (string * row) := combine (map ident sweeps) rs.

  Lemma rows_keys : forall (ss : list (list (string * string))) (rs : list row), List.length rs = List.length ss -> map fst (combine (map ident ss) rs) = map ident ss.
  Proof. induction ss as [|s ss IH]; intros [|r rs] H; try discriminate; [reflexivity|]. cbn [map combine fst]. f_equal. apply IH. cbn in H. lia. Qed.

  Lemma add_sweeps_update : forall name expr ss ds pre rs, fresh name -> (forall s, In s ss -> In s sweeps) ->
    NoDup (map fst pre ++ map ident ss) -> List.length ds = List.length ss -> List.length rs = List.length ss ->
    fold_left (add_sweep_row name expr) (combine ss ds) (pre ++ combine (map ident ss) rs) =
      pre ++ combine (map ident ss) (map (fun p => sset name (snd p) (fst p)) (combine rs ds)).
  Proof.
    intros name expr. induction ss as [|s ss IH]; intros ds pre rs HF Hin HN Hd Hr.
    - destruct ds, rs; try discriminate. reflexivity.
    - destruct ds as [|d ds], rs as [|r rs]; try discriminate. cbn [combine map fold_left].
      unfold add_sweep_row at 2. cbn [fst snd]. rewrite (ident_eq name s HF (Hin s (or_introl eq_refl))).
      assert (Hpre : ~ In (ident s) (map fst pre)).
      { intros H. clear -HN H. cbn [map] in HN. apply NoDup_remove_2 in HN. apply HN. apply in_or_app. left; exact H. }
      rewrite sget_middle by exact Hpre. rewrite sset_middle by exact Hpre.
      change (pre ++ (ident s, sset name d r) :: combine (map ident ss) rs) with (pre ++ [(ident s, sset name d r)] ++ combine (map ident ss) rs).
      rewrite app_assoc, IH; [rewrite <- app_assoc; reflexivity|exact HF|intros x Hx; apply Hin; right; exact Hx| |cbn in Hd; lia|cbn in Hr; lia].
      rewrite map_app. cbn [map fst]. rewrite <- app_assoc. exact HN.
  Qed.

  Lemma add_sweeps_new : forall name expr ss ds pre, fresh name -> (forall s, In s ss -> In s sweeps) ->
    NoDup (map fst pre ++ map ident ss) -> List.length ds = List.length ss ->
    fold_left (add_sweep_row name expr) (combine ss ds) pre =
      pre ++ combine (map ident ss) (map (fun p => new_row name expr (snd p) (fst p)) (combine ss ds)).
  Proof.
    intros name expr. induction ss as [|s ss IH]; intros ds pre HF Hin HN Hd.
    - destruct ds; try discriminate. cbn. rewrite app_nil_r. reflexivity.
    - destruct ds as [|d ds]; try discriminate. cbn [combine map fold_left].
      unfold add_sweep_row at 2. cbn [fst snd]. rewrite (ident_eq name s HF (Hin s (or_introl eq_refl))).
      assert (Hpre : ~ In (ident s) (map fst pre)).
      { intros H. clear -HN H. cbn [map] in HN. apply NoDup_remove_2 in HN. apply HN. apply in_or_app. left; exact H. }
      rewrite sget_notin by exact Hpre. rewrite sget_app_last by exact Hpre.
      rewrite IH; [rewrite <- app_assoc; reflexivity|exact HF|intros x Hx; apply Hin; right; exact Hx| |cbn in Hd; lia].
      rewrite map_app. cbn [map fst]. rewrite <- app_assoc. exact HN.
  Qed.

  Lemma add_to_rows_eq : forall name d (st : list (string * row)), (forall e, In e st -> sget name (snd e) = None) ->
    add_to_rows name d st = Ok (map (fun e => (fst e, sset name d (snd e))) st).
  Proof.
    intros name d. induction st as [|[id r] st IH]; intros H; [reflexivity|]. cbn [add_to_rows map fst snd].
    pose proof (H (id, r) (or_introl eq_refl)) as H0. cbn [snd] in H0. rewrite H0. cbn [rbind]. rewrite IH by (intros e He; apply H; right; exact He). reflexivity.
  Qed.

  (** What the row of configuration i should hold for a metric. *)
  Definition wanted (ev : evaluation) (i : nat) : option dat :=
    match ev with
    | OverSweeps rs => option_map snd (nth_error rs i)
    | PlainArray d => Some d
    | NotArray d => Some d
    | Failed => None
    end.
  (** An evaluation over all the configurations, or over none. *)
  Definition regular_ev (ev : evaluation) : Prop := match ev with OverSweeps rs => map fst rs = sweeps | _ => True end.
  Definition over_sweeps (ev : evaluation) : Prop := match ev with OverSweeps _ => True | _ => False end.

  Lemma combine_fst_snd : forall A B (l : list (A * B)), l = combine (map fst l) (map snd l).
  Proof. induction l as [|[a b] l IH]; [reflexivity|]. cbn [map combine fst snd]. f_equal. exact IH. Qed.

  (** State after some metrics: for every name seen, the wanted value. *)
  Definition holds (done_ : list (string * evaluation)) (rs : list row) : Prop :=
    List.length rs = List.length sweeps /\
    forall i (r : row), nth_error rs i = Some r ->
      (forall n ev, In (n, ev) done_ -> sget n r = wanted ev i) /\
      (forall s k v, nth_error sweeps i = Some s -> In (k, v) s -> sget k r = Some (DText v)).

  Lemma nth_error_combine : forall A B (l : list A) (l' : list B) i, nth_error (combine l l') i =
    match nth_error l i, nth_error l' i with Some a, Some b => Some (a, b) | _, _ => None end.
  Proof. induction l as [|a l IH]; intros [|b l'] [|i]; cbn; try reflexivity; [destruct (nth_error l i); reflexivity|apply IH]. Qed.

  (** Names and expressions to evaluate, and the values found for them; the
      evaluator sees the earlier evaluations that did not fail. *)
  Fixpoint outcomes (eval : list (string * evaluation) -> string -> evaluation) (todo : list (string * string))
      (done_ : list (string * evaluation)) : list (string * evaluation) :=
    match todo with
    | [] => []
    | (n, e) :: r =>
      let ev := eval done_ e in
      (n, ev) :: outcomes eval r (match ev with Failed => done_ | _ => sset n ev done_ end)
    end.

  Lemma summary_loop : forall experiment eval todo done_ last rs,
    NoDup (map fst todo) -> (forall n, In n (map fst todo) -> fresh n /\ ~ In n (map fst done_)) ->
    (forall n ev, In (n, ev) (outcomes eval todo done_) -> regular_ev ev) ->
    List.length rs = List.length sweeps ->
    (forall (r : row) n, In r rs -> In n (map fst todo) -> sget n r = None) ->
    0 < List.length sweeps ->
    exists rs', evaluate_all true experiment eval todo done_ last (rows_of rs) = Ok (rows_of rs') /\
      List.length rs' = List.length sweeps /\
      forall i (r r' : row), nth_error rs i = Some r -> nth_error rs' i = Some r' ->
        (forall n ev, In (n, ev) (outcomes eval todo done_) -> sget n r' = wanted ev i) /\
        (forall k, ~ In k (map fst todo) -> sget k r' = sget k r).
  Proof.
    intros experiment eval todo. induction todo as [|[n e] todo IH]; intros done_ last rs HN HF HR HL HA Hpos.
    - exists rs. split; [reflexivity|]. split; [exact HL|]. intros i r r' Hr Hr'. rewrite Hr in Hr'. injection Hr' as <-. split; [intros n ev []|reflexivity].
    - cbn [map fst] in HN. inversion HN as [|? ? Hn HN']; subst. cbn [evaluate_all outcomes] in *.
      destruct (HF n (or_introl eq_refl)) as [Hfr Hnd]. rewrite (sget_notin _ done_ n Hnd).
      (* one step *)
      assert (Step : forall ev, eval done_ e = ev -> ev <> Failed ->
        exists rs1, record_metric true experiment n e ev (rows_of rs) = Ok (rows_of rs1) /\ List.length rs1 = List.length sweeps /\
          forall i (r r1 : row), nth_error rs i = Some r -> nth_error rs1 i = Some r1 -> exists d, wanted ev i = Some d /\ r1 = sset n d r).
      { intros ev Eev Hnf. assert (Hreg : regular_ev ev) by (apply (HR n); left; rewrite Eev; reflexivity).
        assert (Plain : forall d, add_to_rows n d (rows_of rs) = Ok (rows_of (map (sset n d) rs))).
        { intros d. rewrite add_to_rows_eq.
          - f_equal. unfold rows_of. clear. generalize (map ident sweeps) as ks. induction rs as [|r rs IHr]; intros [|k ks]; try reflexivity.
            cbn [combine map fst snd]. f_equal. apply IHr.
          - intros [id r] Hin. apply in_combine_r in Hin. cbn [snd]. apply HA; [exact Hin|left; reflexivity]. }
        assert (Hlen : Nat.leb (List.length (rows_of (map (sset n (DNum 0)) rs))) 0 = false).
        { unfold rows_of. rewrite combine_length, !map_length, HL. apply Nat.leb_gt. lia. }
        destruct ev as [rows|d|d|]; [| | |congruence].
        - cbn [record_metric]. cbn [regular_ev] in Hreg. rewrite (combine_fst_snd _ _ rows), Hreg.
          exists (map (fun p => sset n (snd p) (fst p)) (combine rs (map snd rows))). split; [|split].
          + f_equal. unfold rows_of. apply (add_sweeps_update n e sweeps (map snd rows) [] rs); auto.
            rewrite map_length, <- Hreg, map_length. reflexivity.
          + rewrite map_length, combine_length, map_length, HL. rewrite <- Hreg, map_length. lia.
          + intros i r r1 Hr Hr1. rewrite nth_error_map, nth_error_combine, Hr, nth_error_map in Hr1.
            destruct (nth_error rows i) as [[s d]|] eqn:Ei; [|discriminate]. cbn in Hr1. injection Hr1 as <-. exists d. split; [|reflexivity].
            cbn [wanted]. rewrite nth_error_combine, nth_error_map.
            assert (Es : nth_error sweeps i = Some s) by (rewrite <- Hreg, nth_error_map, Ei; reflexivity). rewrite Es, Ei. reflexivity.
        - cbn [record_metric negb andb]. rewrite Plain. cbn [rbind]. exists (map (sset n d) rs). split; [reflexivity|]. split; [rewrite map_length; exact HL|].
          intros i r r1 Hr Hr1. rewrite nth_error_map, Hr in Hr1. injection Hr1 as <-. exists d. auto.
        - cbn [record_metric negb orb]. rewrite Plain. cbn [rbind].
          assert (Hl2 : Nat.leb (List.length (rows_of (map (sset n d) rs))) 0 = false).
          { unfold rows_of. rewrite combine_length, !map_length, HL. apply Nat.leb_gt. lia. }
          rewrite Hl2. exists (map (sset n d) rs). split; [reflexivity|]. split; [rewrite map_length; exact HL|].
          intros i r r1 Hr Hr1. rewrite nth_error_map, Hr in Hr1. injection Hr1 as <-. exists d. auto. }
      assert (Fail : eval done_ e = Failed \/ eval done_ e <> Failed) by (destruct (eval done_ e); [right|right|right|left]; congruence).
      destruct Fail as [Ef|Ef].
      + rewrite Ef in *. destruct (IH done_ last rs HN') as [rs' [E1 [E2 E3]]]; auto.
        * intros m Hm. apply HF. right; exact Hm.
        * intros m ev Hin. apply (HR m). right; exact Hin.
        * intros r m Hr Hm. apply HA; [exact Hr|right; exact Hm].
        * exists rs'. split; [exact E1|]. split; [exact E2|]. intros i r r' Hr Hr'. destruct (E3 i r r' Hr Hr') as [H1 H2]. split.
          -- intros m ev [Em|Hin]; [|apply H1; exact Hin]. injection Em as <- <-. cbn [wanted]. rewrite H2 by exact Hn. apply HA; [eapply nth_error_In; exact Hr|left; reflexivity].
          -- intros k Hk. apply H2. intros Hin. apply Hk. right; exact Hin.
      + destruct (Step (eval done_ e) eq_refl Ef) as [rs1 [S1 [S2 S3]]].
        set (done1 := sset n (eval done_ e) done_).
        assert (Eout : match eval done_ e with Failed => done_ | _ => sset n (eval done_ e) done_ end = done1).
        { unfold done1. destruct (eval done_ e); try reflexivity. congruence. }
        rewrite Eout in *.
        assert (Hk1 : forall m, In m (map fst done1) -> m = n \/ In m (map fst done_)).
        { intros m. unfold done1. rewrite (sget_app_last _ done_ n _ Hnd), map_app. intros H. apply in_app_or in H as [H|[<-|[]]]; auto. }
        destruct (IH done1 (eval done_ e) rs1 HN') as [rs' [E1 [E2 E3]]].
        * intros m Hm. destruct (HF m (or_intror Hm)) as [F1 F2]. split; [exact F1|].
          intros H. apply Hk1 in H as [->|H]; [apply Hn; exact Hm|contradiction].
        * intros m ev Hin. apply (HR m). right; exact Hin.
        * exact S2.
        * intros r1 m Hr1 Hm. apply In_nth_error in Hr1 as [i Hi].
          destruct (nth_error rs i) as [r|] eqn:Er; [|apply nth_error_None in Er; assert (i < List.length rs1) by (apply nth_error_Some; congruence); lia].
          destruct (S3 i r r1 Er Hi) as [d [_ ->]]. rewrite sget_sset_ne by (intros ->; apply Hn; exact Hm). apply HA; [eapply nth_error_In; exact Er|right; exact Hm].
        * exact Hpos.
        * exists rs'. split.
          { etransitivity; [|exact E1]. unfold done1. destruct (eval done_ e); try (cbn zeta; rewrite S1; reflexivity). congruence. }
          split; [exact E2|]. intros i r r' Hr Hr'.
          assert (Hi1 : exists r1, nth_error rs1 i = Some r1).
          { destruct (nth_error rs1 i) as [r1|] eqn:Er; [eauto|]. apply nth_error_None in Er. assert (i < List.length rs) by (apply nth_error_Some; congruence). lia. }
          destruct Hi1 as [r1 Hr1]. destruct (S3 i r r1 Hr Hr1) as [d [Hw ->]]. destruct (E3 i _ r' Hr1 Hr') as [H1 H2]. split.
          -- intros m ev [Em|Hin]; [|apply H1; unfold done1; destruct (eval done_ e); try exact Hin; congruence]. injection Em as <- <-. rewrite H2 by exact Hn. rewrite sget_sset_eq. symmetry; exact Hw.
          -- intros k Hk. rewrite H2 by (intros Hin; apply Hk; right; exact Hin). apply sget_sset_ne. intros ->. apply Hk. left; reflexivity.
  Qed.
End Summary.

Lemma skip_failing : forall swept experiment eval failing todo last st,
  (forall n e, In (n, e) failing -> eval [] e = Failed) ->
  evaluate_all swept experiment eval (failing ++ todo) [] last st = evaluate_all swept experiment eval todo [] last st.
Proof.
  intros swept experiment eval failing todo last st. induction failing as [|[n e] failing IH]; intros H; [reflexivity|].
  cbn [app evaluate_all sget]. rewrite (H n e (or_introl eq_refl)). apply IH. intros m e' Hin. apply (H m e'). right; exact Hin.
Qed.

Lemma outcomes_failing : forall eval failing todo,
  (forall n e, In (n, e) failing -> eval [] e = Failed) ->
  outcomes eval (failing ++ todo) [] = map (fun p => (fst p, Failed)) failing ++ outcomes eval todo [].
Proof.
  intros eval failing todo. induction failing as [|[n e] failing IH]; intros H; [reflexivity|].
  cbn [app outcomes map fst]. rewrite (H n e (or_introl eq_refl)). f_equal. apply IH. intros m e' Hin. apply (H m e'). right; exact Hin.
Qed.

(** The summary of swept outputs has one row per configuration, with its
    parameters and the value of every metric for it (no value for metrics that
    fail), provided metric names are distinct, not those of parameters, and the
    first metric that succeeds is computed over the configurations. *)
Theorem C116_rows_partial : forall sweeps experiment eval failing n0 e0 rows rest,
  let todo := failing ++ (n0, e0) :: rest in
  sweeps <> [] -> NoDup (map ident sweeps) ->
  (forall s, In s sweeps -> NoDup (map fst s) /\ ~ In "" (map fst s)) ->
  NoDup (map fst todo) -> (forall n, In n (map fst todo) -> fresh sweeps n /\ n <> (n0 ++ "_expression")%string) ->
  (forall n e, In (n, e) failing -> eval [] e = Failed) -> eval [] e0 = OverSweeps rows ->
  (forall n ev, In (n, ev) (outcomes eval todo []) -> regular_ev sweeps ev) ->
  exists rs, evaluate_expressions true experiment eval todo = Ok rs /\ List.length rs = List.length sweeps /\
    forall i s r, nth_error sweeps i = Some s -> nth_error rs i = Some r ->
      (forall n ev, In (n, ev) (outcomes eval todo []) -> sget n r = wanted ev i) /\
      (forall k v, In (k, v) s -> sget k r = Some (DText v)).
Proof.
  intros sweeps experiment eval failing n0 e0 rows rest todo Hne Hids Hkeys HN HF Hfail H0 HR.
  unfold evaluate_expressions.
  assert (Et : evaluate_all true experiment eval todo [] Failed [] = evaluate_all true experiment eval ((n0, e0) :: rest) [] Failed []) by (unfold todo; apply skip_failing; exact Hfail).
  rewrite Et; clear Et. cbn [evaluate_all sget]. rewrite H0. cbn [record_metric rbind].
  assert (Hout : outcomes eval todo [] = map (fun p => (fst p, Failed)) failing ++ (n0, OverSweeps rows) :: outcomes eval rest [(n0, OverSweeps rows)]).
  { unfold todo. rewrite outcomes_failing by exact Hfail. cbn [outcomes]. rewrite H0. reflexivity. }
  assert (Hreg : map fst rows = sweeps) by (apply (HR n0 (OverSweeps rows)); rewrite Hout; apply in_or_app; right; left; reflexivity).
  assert (Hn0 : In n0 (map fst todo)) by (unfold todo; rewrite map_app; apply in_or_app; right; left; reflexivity).
  assert (Hrest : forall m, In m (map fst rest) -> In m (map fst todo)) by (intros m Hm; unfold todo; rewrite map_app; apply in_or_app; right; right; exact Hm).
  assert (HNr : NoDup (n0 :: map fst rest) /\ forall m, In m (map fst failing) -> ~ In m (n0 :: map fst rest)).
  { unfold todo in HN. rewrite map_app in HN. cbn [map fst] in HN. clear -HN. revert HN. generalize (n0 :: map fst rest) as b. generalize (map fst failing) as a.
    induction a as [|x a IH]; intros b HN; [split; [exact HN|intros m []]|]. cbn [app] in HN. inversion HN as [|? ? Hx HN']; subst.
    destruct (IH b HN') as [H1 H2]. split; [exact H1|]. intros m [<-|Hm]; [intros Hin; apply Hx, in_or_app; right; exact Hin|apply H2; exact Hm]. }
  destruct HNr as [HNr HNf]. inversion HNr as [|? ? Hn0r HNr']; subst x l.
  set (rs0 := map (fun p : list (string * string) * dat => new_row n0 e0 (snd p) (fst p)) rows).
  assert (E0 : fold_left (add_sweep_row n0 e0) rows [] = rows_of sweeps rs0).
  { rewrite (combine_fst_snd _ _ rows) at 1. rewrite Hreg.
    rewrite (add_sweeps_new sweeps Hkeys n0 e0 sweeps (map snd rows) []).
    - cbn [app]. unfold rows_of. f_equal. rewrite <- Hreg, <- combine_fst_snd. reflexivity.
    - apply HF; exact Hn0.
    - auto.
    - exact Hids.
    - rewrite <- Hreg, !map_length. reflexivity. }
  rewrite E0.
  assert (L0 : List.length rs0 = List.length sweeps) by (unfold rs0; rewrite <- Hreg, !map_length; reflexivity).
  assert (G0 : forall i r, nth_error rs0 i = Some r -> exists s d, nth_error rows i = Some (s, d) /\ nth_error sweeps i = Some s /\ r = new_row n0 e0 d s /\ In s sweeps).
  { intros i r Hr. unfold rs0 in Hr. rewrite nth_error_map in Hr. destruct (nth_error rows i) as [[s d]|] eqn:Ei; [|discriminate]. cbn in Hr. injection Hr as <-.
    exists s, d. assert (Es : nth_error sweeps i = Some s) by (rewrite <- Hreg, nth_error_map, Ei; reflexivity).
    split; [reflexivity|]. split; [exact Es|]. split; [reflexivity|]. eapply nth_error_In; exact Es. }
  assert (Gn : forall s d n, In s sweeps -> In n (map fst todo) -> n <> n0 -> sget n (new_row n0 e0 d s) = None).
  { intros s d n Hs Hn Hnn. destruct (HF n Hn) as [[_ Hf] Hx]. unfold new_row. rewrite fold_sset_get by (apply Hf; exact Hs).
    rewrite sget_sset_ne by exact Hnn. rewrite sget_sset_ne by exact Hx. reflexivity. }
  destruct (summary_loop sweeps Hids Hkeys experiment eval rest [(n0, OverSweeps rows)] (OverSweeps rows) rs0) as [rs' [E1 [E2 E3]]].
  - exact HNr'.
  - intros n Hn. split; [apply HF, Hrest, Hn|]. cbn. intros [<-|[]]. contradiction.
  - intros n ev Hin. apply (HR n). rewrite Hout. apply in_or_app. right; right; exact Hin.
  - exact L0.
  - intros r n Hr Hn. apply In_nth_error in Hr as [i Hi]. destruct (G0 i r Hi) as [s [d [_ [_ [-> Hs]]]]]. apply Gn; [exact Hs|apply Hrest; exact Hn|]. intros ->. contradiction.
  - destruct sweeps; [congruence|cbn; lia].
  - change (sset n0 (OverSweeps rows) []) with [(n0, OverSweeps rows)]. rewrite E1. cbn [rbind]. exists (map snd (rows_of sweeps rs')). split; [reflexivity|].
    assert (Es : map snd (rows_of sweeps rs') = rs').
    { unfold rows_of. clear -E2. revert rs' E2. induction sweeps as [|s sweeps IH]; intros [|r rs'] H; try discriminate; [reflexivity|].
      cbn [map combine snd]. f_equal. apply IH. cbn in H. lia. }
    rewrite Es. split; [exact E2|]. intros i s r Hs Hr.
    destruct (nth_error rs0 i) as [r0|] eqn:Er0; [|apply nth_error_None in Er0; assert (i < List.length sweeps) by (apply nth_error_Some; congruence); lia].
    destruct (G0 i r0 Er0) as [s' [d [Hi [Hs' [-> Hin]]]]]. rewrite Hs in Hs'. injection Hs' as <-.
    destruct (E3 i _ r Er0 Hr) as [H1 H2].
    destruct (HF n0 Hn0) as [[_ Hf0] _]. split.
    + intros n ev Hnev. rewrite Hout in Hnev. apply in_app_or in Hnev as [Hnev|[E|Hnev]].
      * apply in_map_iff in Hnev as [[m e] [E Hm]]. cbn in E. injection E as <- <-. cbn [wanted].
        assert (Hm' : In m (map fst failing)) by (apply in_map_iff; exists (m, e); auto).
        assert (Hnot : ~ In m (n0 :: map fst rest)) by (apply HNf; exact Hm').
        rewrite H2 by (intros H; apply Hnot; right; exact H). apply Gn; [exact Hin| |intros ->; apply Hnot; left; reflexivity].
        unfold todo. rewrite map_app. apply in_or_app. left; exact Hm'.
      * injection E as <- <-. rewrite H2 by exact Hn0r. cbn [wanted]. rewrite Hi. cbn [option_map snd].
        unfold new_row. rewrite fold_sset_get by (apply Hf0; exact Hin). apply sget_sset_eq.
      * apply H1; exact Hnev.
    + intros k v Hkv. rewrite H2.
      * unfold new_row. apply fold_sset_in; [apply Hkeys; exact Hin|exact Hkv].
      * intros Hk. destruct (HF k (Hrest k Hk)) as [[_ Hf] _]. apply (Hf s Hin), in_map_iff. exists (k, v). auto.
Qed.
Print Assumptions C116_rows_partial.

Definition ex_eval (_ : list (string * evaluation)) (e : string) : evaluation :=
  if String.eqb e "srmse(table)" then OverSweeps [([("sigma", "0.1")], DNum 3); ([("sigma", "0.2")], DNum 4)]
  else if String.eqb e "ssi(table)" then OverSweeps [([("sigma", "0.1")], DNum 5); ([("sigma", "0.2")], DNum 6)]
  else if String.eqb e "total" then PlainArray (DNum 100)
  else if String.eqb e "4 * 2" then NotArray (DList [DNum 8])
  else if String.eqb e "3 * 3" then NotArray (DList [DNum 9])
  else Failed.

Example C116_nonvacuous :
  let todo := [("bad", "1 / 0"); ("srmse", "srmse(table)"); ("total", "total"); ("ssi", "ssi(table)")] in
  let sweeps := [[("sigma", "0.1")]; [("sigma", "0.2")]] in
  NoDup (map ident sweeps) /\ (forall n, In n (map fst todo) -> fresh sweeps n /\ n <> "srmse_expression") /\
  (forall n ev, In (n, ev) (outcomes ex_eval todo []) -> regular_ev sweeps ev) /\
  evaluate_expressions true "exp" ex_eval todo =
    Ok [[("srmse_expression", DText "srmse(table)"); ("srmse", DNum 3); ("sigma", DText "0.1"); ("total", DNum 100); ("ssi", DNum 5)];
        [("srmse_expression", DText "srmse(table)"); ("srmse", DNum 4); ("sigma", DText "0.2"); ("total", DNum 100); ("ssi", DNum 6)]].
Proof.
  cbn zeta. split; [repeat constructor; cbn; intuition discriminate|]. split.
  - intros n [<-|[<-|[<-|[<-|[]]]]]; (split; [split; [discriminate|]|discriminate]); intros s [<-|[<-|[]]]; cbn; intuition discriminate.
  - split; [|reflexivity]. intros n ev [E|[E|[E|[E|[]]]]]; injection E as <- <-; reflexivity || exact I.
Qed.

(** Outputs that were not swept, with metrics that are arrays: one row with all of
    them. *)
Theorem C116_unswept_partial : forall experiment eval todo,
  NoDup (map fst todo) -> (forall n ev, In (n, ev) (outcomes eval todo []) -> (exists d, ev = PlainArray d) \/ ev = Failed) ->
  exists r, (evaluate_expressions false experiment eval todo = Ok [r] \/ (r = [] /\ evaluate_expressions false experiment eval todo = Ok [])) /\
    forall n ev, In (n, ev) (outcomes eval todo []) -> sget n r = wanted ev 0.
Proof.
  intros experiment eval todo HN HO.
  assert (L : forall todo done_ last r, NoDup (map fst todo) -> (forall n, In n (map fst todo) -> ~ In n (map fst done_) /\ sget n r = None) ->
    (forall n ev, In (n, ev) (outcomes eval todo done_) -> (exists d, ev = PlainArray d) \/ ev = Failed) ->
    exists r', evaluate_all false experiment eval todo done_ last [(experiment, r)] = Ok [(experiment, r')] /\
      (forall n ev, In (n, ev) (outcomes eval todo done_) -> sget n r' = wanted ev 0) /\
      forall k, ~ In k (map fst todo) -> sget k r' = sget k r).
  { clear. induction todo as [|[n e] todo IH]; intros done_ last r HN HD HO.
    - exists r. split; [reflexivity|]. split; [intros n ev []|reflexivity].
    - cbn [map fst] in HN. inversion HN as [|? ? Hn HN']; subst. cbn [evaluate_all outcomes] in *.
      destruct (HD n (or_introl eq_refl)) as [D1 D2]. rewrite (sget_notin _ done_ n D1).
      destruct (HO n (eval done_ e) (or_introl eq_refl)) as [[d Ed]|Ed]; rewrite Ed in *.
      + cbn [record_metric add_to_rows]. rewrite D2. cbn [rbind List.length Nat.leb negb andb].
        destruct (IH (sset n (PlainArray d) done_) (PlainArray d) (sset n d r) HN') as [r' [E1 [E2 E3]]].
        * intros m Hm. destruct (HD m (or_intror Hm)) as [M1 M2]. rewrite (sget_app_last _ done_ n _ D1), map_app. split.
          -- intros H. apply in_app_or in H as [H|[<-|[]]]; contradiction.
          -- rewrite sget_sset_ne; [exact M2|]. intros ->. contradiction.
        * intros m ev Hin. apply (HO m). right; exact Hin.
        * exists r'. split; [exact E1|]. split.
          -- intros m ev [E|Hin]; [|apply E2; exact Hin]. injection E as <- <-. rewrite E3 by exact Hn. apply sget_sset_eq.
          -- intros k Hk. rewrite E3 by (intros H; apply Hk; right; exact H). apply sget_sset_ne. intros ->. apply Hk. left; reflexivity.
      + destruct (IH done_ last r HN') as [r' [E1 [E2 E3]]].
        * intros m Hm. apply HD. right; exact Hm.
        * intros m ev Hin. apply (HO m). right; exact Hin.
        * exists r'. split; [exact E1|]. split.
          -- intros m ev [E|Hin]; [|apply E2; exact Hin]. injection E as <- <-. rewrite E3 by exact Hn. exact D2.
          -- intros k Hk. apply E3. intros H. apply Hk. right; exact H. }
  unfold evaluate_expressions. assert (HG : forall last, exists r,
    ((do st <- evaluate_all false experiment eval todo [] last [] ; Ok (map snd st)) = Ok [r] \/
     (r = [] /\ (do st <- evaluate_all false experiment eval todo [] last [] ; Ok (map snd st)) = Ok [])) /\
    forall n ev, In (n, ev) (outcomes eval todo []) -> sget n r = wanted ev 0); [|apply HG].
  induction todo as [|[n e] todo IH]; intros last.
  - exists []. split; [right; split; reflexivity|intros n ev []].
  - cbn [map fst] in HN. inversion HN as [|? ? Hn HN']; subst. cbn [evaluate_all outcomes sget] in *.
    destruct (HO n (eval [] e) (or_introl eq_refl)) as [[d Ed]|Ed]; rewrite Ed in *.
    + cbn [record_metric add_to_rows rbind List.length Nat.leb negb andb sset].
      destruct (L todo [(n, PlainArray d)] (PlainArray d) [(n, d)] HN') as [r' [E1 [E2 E3]]].
      * intros m Hm. assert (m <> n) by (intros ->; contradiction). split; [cbn; intros [E|[]]; congruence|]. cbn [sget]. apply String.eqb_neq in H. rewrite H. reflexivity.
      * intros m ev Hin. apply (HO m). right; exact Hin.
      * exists r'. split; [left; rewrite E1; reflexivity|]. intros m ev [E|Hin]; [|apply E2; exact Hin]. injection E as <- <-.
        rewrite E3 by exact Hn. cbn [sget]. rewrite String.eqb_refl. reflexivity.
    + destruct (IH HN' (fun m ev Hin => HO m ev (or_intror Hin)) last) as [r [E1 E2]].
      exists r. split; [exact E1|]. intros m ev [E|Hin]; [|apply E2; exact Hin]. injection E as <- <-. cbn [wanted].
      destruct E1 as [E1|[-> E1]]; [|reflexivity].
      (* the row only has metrics of the rest *)
      assert (HK : forall todo done_ last st st', evaluate_all false experiment eval todo done_ last st = Ok st' ->
        (forall id r, In (id, r) st -> sget n r = None) -> ~ In n (map fst todo) -> (forall m ev, In (m, ev) (outcomes eval todo done_) -> (exists d, ev = PlainArray d) \/ ev = Failed) ->
        (forall m, In m (map fst todo) -> ~ In m (map fst done_)) -> NoDup (map fst todo) -> forall id r, In (id, r) st' -> sget n r = None).
      { clear. induction todo as [|[m e] todo IH]; intros done_ last st st' H HS Hn HO HD HN id r Hin; cbn [evaluate_all] in H; [injection H as <-; eapply HS; exact Hin|].
        cbn [map fst] in HN, Hn, HD. inversion HN as [|? ? Hm HN']; subst. rewrite (sget_notin _ done_ m (HD m (or_introl eq_refl))) in H. cbn [outcomes] in HO.
        destruct (HO m (eval done_ e) (or_introl eq_refl)) as [[d Ed]|Ed]; rewrite Ed in *.
        - cbn [record_metric] in H. apply rbind_Ok_inv in H as [st1 [H1 H2]].
          apply rbind_Ok_inv in H1 as [st2 [H1 H3]]. injection H3 as <-.
          assert (Hst2 : forall id r, In (id, r) st2 -> sget n r = None).
          { assert (Hmn : n <> m) by (intros ->; apply Hn; left; reflexivity).
            clear -H1 HS Hmn. revert st2 H1. induction st as [|[i0 r0] st IH]; intros st2 H1; cbn [add_to_rows] in H1; [injection H1 as <-; intros ? ? []|].
            apply rbind_Ok_inv in H1 as [r1 [H1 H2]]. apply rbind_Ok_inv in H2 as [t [H2 H3]]. injection H3 as <-.
            intros id r [E|Hin].
            - injection E as <- <-. pose proof (HS i0 r0 (or_introl eq_refl)) as H0. destruct (sget m r0) as [[z|s|l]|]; try discriminate; injection H1 as <-; rewrite sget_sset_ne by exact Hmn; exact H0.
            - eapply IH; [intros; eapply HS; right; eassumption|exact H2|exact Hin]. }
          eapply (IH _ _ _ _ H2); [|intros H; apply Hn; right; exact H| | |exact HN'|exact Hin].
          + intros id0 r0 Hin0. cbn [negb andb] in Hin0; destruct (Nat.leb (List.length st2) 0); [|eapply Hst2; exact Hin0].
            assert (Hc : In (id0, r0) st2 \/ r0 = [(m, d)]).
            { clear -Hin0. induction st2 as [|[i1 r1] st2 IH]; cbn [sset] in Hin0; [destruct Hin0 as [E|[]]; right; congruence|].
              destruct (String.eqb experiment i1); [destruct Hin0 as [E|Hin0]; [right; congruence|left; right; exact Hin0]|].
              destruct Hin0 as [E|Hin0]; [left; left; exact E|]. destruct (IH Hin0) as [H|H]; [left; right; exact H|right; exact H]. }
            destruct Hc as [Hc| ->]; [eapply Hst2; exact Hc|]. cbn [sget]. destruct (String.eqb n m) eqn:Enm; [|reflexivity]. apply String.eqb_eq in Enm. exfalso. apply Hn. left. congruence.
          + intros m' ev Hin'. apply (HO m'). right; exact Hin'.
          + intros m' Hm' H. rewrite (sget_app_last _ done_ m _ (HD m (or_introl eq_refl))), map_app in H. apply in_app_or in H as [H|[<-|[]]]; [eapply HD; [right; exact Hm'|exact H]|contradiction].
        - eapply (IH _ _ _ _ H); [exact HS|intros H'; apply Hn; right; exact H'| | |exact HN'|exact Hin].
          + intros m' ev Hin'. apply (HO m'). right; exact Hin'.
          + intros m' Hm'. apply HD. right; exact Hm'. }
      apply rbind_Ok_inv in E1 as [st [E1 E1']]. injection E1' as E1'. destruct st as [|[id r0] [|? ?]]; try discriminate. cbn in E1'. injection E1' as ->.
      eapply (HK todo [] last [] _ E1); [intros ? ? []|exact Hn|intros m' ev' Hin'; apply (HO m'); right; exact Hin'|intros ? ? []|exact HN'|left; reflexivity].
Qed.
Print Assumptions C116_unswept_partial.

Example C116_unswept_nonvacuous :
  evaluate_expressions false "exp" ex_eval [("bad", "1 / 0"); ("total", "total"); ("again", "total")] = Ok [[("total", DNum 100); ("again", DNum 100)]].
Proof. reflexivity. Qed.

(** Otherwise values are lost or misplaced: metrics that are not arrays replace one
    another when nothing is swept; a metric computed before the first one over
    the configurations is lost, or becomes a row of its own; and a metric named
    twice takes the value of the metric evaluated in between. *)
Theorem C116_summary_refuted :
  evaluate_expressions false "exp" ex_eval [("a", "4 * 2"); ("b", "3 * 3")] = Ok [[("b", DList [DNum 9])]] /\
  evaluate_expressions true "exp" ex_eval [("total", "total"); ("srmse", "srmse(table)")] =
    evaluate_expressions true "exp" ex_eval [("srmse", "srmse(table)")] /\
  (exists rows, evaluate_expressions true "exp" ex_eval [("a", "4 * 2"); ("srmse", "srmse(table)")] = Ok ([("a", DList [DNum 8])] :: rows) /\
     List.length rows = 2 /\ forall r, In r rows -> sget "a" r = None) /\
  (exists r1 r2, evaluate_expressions true "exp" ex_eval [("srmse", "srmse(table)"); ("ssi", "ssi(table)"); ("srmse", "srmse(table)")] = Ok [r1; r2] /\
     sget "srmse" r1 = Some (DNum 5) /\ wanted (ex_eval [] "srmse(table)") 0 = Some (DNum 3)).
Proof.
  split; [reflexivity|]. split; [reflexivity|]. split.
  - eexists. split; [reflexivity|]. split; [reflexivity|]. intros r [<-|[<-|[]]]; reflexivity.
  - eexists. eexists. split; [reflexivity|]. split; reflexivity.
Qed.
Print Assumptions C116_summary_refuted.

(** When nothing is swept, a metric that is not an array leaves no other in its row. *)
Theorem C116_replaced_refuted : forall experiment name expr d r,
  sget name r = None ->
  record_metric false experiment name expr (NotArray d) [(experiment, r)] = Ok [(experiment, [(name, d)])].
Proof. intros experiment name expr d r H. cbn [record_metric add_to_rows]. rewrite H. cbn [rbind negb orb sset]. rewrite String.eqb_refl. reflexivity. Qed.
Print Assumptions C116_replaced_refuted.
