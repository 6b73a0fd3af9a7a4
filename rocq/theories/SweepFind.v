(** Property C77: the swept parameters are found. *)
From Coq Require Import List ZArith Lia Bool Arith String Ascii.
From Verif Require Import Base ConfigTree ConfigSpec ConfigProps ConfigFind ConfigModify Sweep SweepId.
Import ListNotations.
Local Open Scope nat_scope.

(** * Specification *)
(** Lists of the configuration hold scalars only. *)
Definition scalar_lists (s : node) : Prop :=
  forall p vs x, reaches s p (LList vs) -> In x vs -> exists lf, x = Leaf lf.

(** Parameter at path [p] is swept: its settings have a sweep with a range. *)
Definition swept (s : node) (p : list key) : Prop :=
  runs_through_dicts s (p ++ [KS "sweep"; KS "range"]) /\
  exists rw, reaches s (p ++ [KS "sweep"; KS "range"]) rw /\
    ((exists lf, rw = Leaf lf) \/ (exists v vs, rw = LList (v :: vs))).

(** The name of the parameter at a path: its last key, or the one before a
    final 'file'. *)
Definition param_name (p : list key) : key :=
  match rev p with
  | KS "file" :: k :: _ => k
  | k :: _ => k
  | [] => KS ""
  end.

(** A sweep-ready configuration without coupling: what stands under a 'sweep'
    key is a dictionary that is not coupled, below a named parameter, 'sweep'
    is not nested, and no value is the text 'sweep' or 'range'. *)
Record sweep_ready (s : node) : Prop := {
  ready_wf : wf s;
  ready_lists : scalar_lists s;
  ready_sweep : forall p w, reaches s (p ++ [KS "sweep"]) w ->
    p <> [] /\ p <> [KS "file"] /\ ~ In (KS "sweep") p /\
    exists ss, w = Dict ss /\ dget (KS "coupled") ss = None;
  ready_values : forall p t, reaches s p (Leaf (LStr t)) -> t <> "sweep"%string /\ t <> "range"%string
}.

(** * Walks *)
Inductive walks : node -> list key -> leaf -> Prop :=
| w_leaf : forall l k lf, In (k, Leaf lf) l -> walks (Dict l) [k] lf
| w_list : forall l k vs lf, In (k, LList vs) l -> In (Leaf lf) vs -> walks (Dict l) [k] lf
| w_dict : forall l k l' p lf, In (k, Dict l') l -> walks (Dict l') p lf -> walks (Dict l) (k :: p) lf.

Lemma scalar_lists_child : forall l k c, scalar_lists (Dict l) -> In (k, c) l -> scalar_lists c.
Proof.
  intros l k c H Hin p vs x Hr Hx. apply (H (k :: p) vs x); auto. eapply r_dict; eauto.
Qed.

Lemma deep_walk_In : forall s l, s = Dict l -> scalar_lists s -> forall pre kvp,
  In kvp (deep_walk s pre) <->
  exists p lf, kvp = pre ++ map PK p ++ [PV (Leaf lf)] /\ walks s p lf.
Proof.
  intros s. induction s as [s IH] using node_items_ind. intros l -> Hs pre kvp.
  cbn [deep_walk]. rewrite in_flat_map. split.
  - intros ([k c] & Hin & Hk). cbn [fst snd] in Hk. destruct c as [lf|l'|vs].
    + destruct Hk as [<-|[]]. exists [k], lf. split; [reflexivity|now constructor].
    + apply (IH k (Dict l') Hin l' eq_refl (scalar_lists_child _ _ _ Hs Hin)) in Hk as (p & lf & -> & Hw).
      exists (k :: p), lf. split; [cbn; rewrite <- app_assoc; reflexivity|]. eapply w_dict; eauto.
    + apply in_flat_map in Hk as (v & Hv & Hk).
      assert (Hsc : exists lf, v = Leaf lf).
      { apply (Hs [k] vs v); auto. eapply r_dict; eauto. constructor. }
      destruct Hsc as [lf ->]. destruct Hk as [<-|[]].
      exists [k], lf. split; [cbn; rewrite <- app_assoc; reflexivity|]. eapply w_list; eauto.
  - intros (p & lf & -> & Hw). inversion Hw as [l0 k lf0 Hin|l0 k vs lf0 Hin Hv|l0 k l' p' lf0 Hin Hw']; subst.
    + exists (k, Leaf lf). split; auto. left. reflexivity.
    + exists (k, LList vs). split; auto. cbn [fst snd]. apply in_flat_map. exists (Leaf lf). split; auto.
      left. cbn. rewrite <- app_assoc. reflexivity.
    + exists (k, Dict l'). split; auto. cbn [fst snd].
      apply (IH k (Dict l') Hin l' eq_refl (scalar_lists_child _ _ _ Hs Hin)).
      exists p', lf. split; auto. cbn. rewrite <- app_assoc. reflexivity.
Qed.

Lemma walks_prefix : forall s p lf, walks s p lf -> forall q r, p = q ++ r -> r <> [] ->
  exists l, reaches s q (Dict l).
Proof.
  induction 1 as [l k lf Hin|l k vs lf Hin Hv|l k l' p lf Hin Hw IH]; intros q r E Hr.
  - destruct q as [|a q]; [exists l; constructor|]. injection E as _ E.
    destruct q, r; try discriminate; congruence.
  - destruct q as [|a q]; [exists l; constructor|]. injection E as _ E.
    destruct q, r; try discriminate; congruence.
  - destruct q as [|a q]; [exists l; constructor|]. injection E as <- E.
    destruct (IH q r E Hr) as [l2 Hl2]. exists l2. eapply r_dict; eauto.
Qed.

Lemma walks_end : forall s p lf, walks s p lf ->
  reaches s p (Leaf lf) \/ exists vs, reaches s p (LList vs) /\ In (Leaf lf) vs.
Proof.
  induction 1 as [l k lf Hin|l k vs lf Hin Hv|l k l' p lf Hin Hw IH].
  - left. eapply r_dict; eauto. constructor.
  - right. exists vs. split; auto. eapply r_dict; eauto. constructor.
  - destruct IH as [IH|(vs & IH & Hv)].
    + left. eapply r_dict; eauto.
    + right. exists vs. split; auto. eapply r_dict; eauto.
Qed.

Lemma walks_intro : forall p s rw, wf s -> p <> [] -> runs_through_dicts s p -> reaches s p rw ->
  scalar_lists s ->
  ((exists lf, rw = Leaf lf) \/ (exists v vs, rw = LList (v :: vs))) ->
  exists lf, walks s p lf.
Proof.
  induction p as [|k p IH]; intros s rw W Hp Hr Hre Hs Hrw; [congruence|].
  apply runs_cons in Hr as (l & -> & Hcase); auto.
  pose proof Hre as Hre0. apply lookup_reaches in Hre0; auto. cbn in Hre0.
  destruct (dget k l) as [c|] eqn:Ek; [|discriminate].
  assert (Hin := dget_In _ _ _ Ek).
  assert (Wc : wf c) by (inversion W; subst; eauto).
  destruct Hcase as [->|(c' & Ek' & Hc)].
  - cbn in Hre0. injection Hre0 as ->. destruct Hrw as [[lf ->]|(v & vs & ->)].
    + exists lf. now constructor.
    + destruct (Hs [k] (v :: vs) v Hre (or_introl eq_refl)) as [lf ->]. exists lf.
      eapply w_list; eauto. left; auto.
  - assert (c' = c) by congruence. subst c'. destruct p as [|k2 p].
    + cbn in Hre0. injection Hre0 as ->. destruct Hrw as [[lf ->]|(v & vs & ->)].
      * exists lf. now constructor.
      * destruct (Hs [k] (v :: vs) v Hre (or_introl eq_refl)) as [lf ->]. exists lf.
        eapply w_list; eauto. left; auto.
    + destruct (IH c rw Wc ltac:(discriminate) Hc) as [lf Hw]; auto.
      * apply lookup_reaches; auto.
      * eapply scalar_lists_child; eauto.
      * assert (Hd := Hc). apply runs_cons in Hd as (l' & -> & _); auto.
        exists lf. eapply w_dict; eauto.
Qed.

(** * The paths as seen by find_step *)
Lemma is_text_PK : forall t k, is_text t (PK k) = key_eqb k (KS t).
Proof. intros t [s|n]; reflexivity. Qed.

Lemma index_text_split : forall t q r, ~ In (KS t) q ->
  index_text t (map PK q ++ PK (KS t) :: r) = List.length q.
Proof.
  intros t q r H. induction q as [|k q IH]; cbn [map app index_text List.length].
  - rewrite is_text_PK, key_eqb_refl. reflexivity.
  - rewrite is_text_PK, key_eqb_neq by (intros ->; apply H; left; auto).
    f_equal. apply IH. intros Hin. apply H. right; auto.
Qed.

Lemma map_to_key_PK : forall q, map to_key (map PK q) = q.
Proof. intros q. rewrite map_map. cbn. apply map_id. Qed.

Lemma firstn_PK : forall q x, firstn (List.length q) (map PK q ++ x) = map PK q.
Proof. intros q x. rewrite <- (map_length PK q), firstn_app, Nat.sub_diag, firstn_all, firstn_O, app_nil_r. reflexivity. Qed.

Lemma firstn_S_PK : forall q k x, firstn (S (List.length q)) (map PK q ++ PK k :: x) = map PK (q ++ [k]).
Proof.
  intros q k x. rewrite map_app.
  replace (map PK q ++ PK k :: x) with (map PK (q ++ [k]) ++ x) by (rewrite map_app, <- app_assoc; reflexivity).
  rewrite <- map_app.
  replace (S (List.length q)) with (List.length (q ++ [k])) by (rewrite app_length; cbn; lia).
  apply firstn_PK.
Qed.

Lemma sweep_name_PK : forall q x, q <> [] -> q <> [KS "file"] ->
  sweep_name (map PK q ++ x) (List.length q) = param_name q.
Proof.
  intros q x Hq Hf. unfold sweep_name, param_name.
  destruct (@exists_last _ q Hq) as (q' & k & ->). rewrite rev_app_distr. cbn [rev app].
  assert (E1 : elem_before (map PK (q' ++ [k]) ++ x) (List.length (q' ++ [k])) 1 = k).
  { unfold elem_before. rewrite app_length. cbn [List.length].
    destruct (Nat.leb_spec 1 (List.length q' + 1)); [|lia].
    replace (List.length q' + 1 - 1) with (List.length q') by lia.
    rewrite map_app, <- app_assoc. rewrite app_nth2; rewrite map_length; [|lia].
    rewrite Nat.sub_diag. reflexivity. }
  rewrite E1. destruct (key_eqb_spec k (KS "file")) as [->|Hne].
  - destruct (rev q') as [|k2 r] eqn:Er.
    + exfalso. apply (f_equal (@rev key)) in Er. rewrite rev_involutive in Er. cbn in Er. subst q'.
      now apply Hf.
    + apply (f_equal (@rev key)) in Er. rewrite rev_involutive in Er. cbn in Er. subst q'.
      unfold elem_before. rewrite !app_length. cbn [List.length].
      destruct (Nat.leb_spec 2 (List.length (rev r) + 1 + 1)); [|lia].
      replace (List.length (rev r) + 1 + 1 - 2) with (List.length (rev r)) by lia.
      rewrite !map_app, <- !app_assoc. rewrite app_nth2; rewrite map_length; [|lia].
      rewrite Nat.sub_diag. reflexivity.
  - destruct k as [s|n]; [|reflexivity].
    destruct (String.eqb_spec s "file") as [->|Hs]; [congruence|].
    clear -Hs. repeat match goal with
      | |- context [match ?x with EmptyString => _ | String _ _ => _ end] => destruct x; try reflexivity
      | |- context [match ?x with Ascii _ _ _ _ _ _ _ _ => _ end] => destruct x
      | |- context [if ?b then _ else _] => destruct b; try reflexivity
      end; congruence.
Qed.

Lemma split_at_sweep : forall p : list key, In (KS "sweep") p ->
  exists q r, p = q ++ KS "sweep" :: r /\ ~ In (KS "sweep") q.
Proof.
  induction p as [|k p IH]; intros H; [destruct H|].
  destruct (key_eq_dec k (KS "sweep")) as [->|Hne].
  - exists [], p. split; [reflexivity|auto].
  - destruct H as [H|H]; [congruence|]. destruct (IH H) as (q & r & -> & Hq).
    exists (k :: q), r. split; [reflexivity|]. intros [|]; auto.
Qed.

Lemma existsb_text : forall t p lf, (forall u, lf = LStr u -> u <> t) ->
  existsb (is_text t) (map PK p ++ [PV (Leaf lf)]) = true <-> In (KS t) p.
Proof.
  intros t p lf Hlf. rewrite existsb_app. cbn [existsb]. rewrite orb_false_r, orb_true_iff. split.
  - intros [H|H].
    + apply existsb_exists in H as (e & He & Ht). apply in_map_iff in He as (k & <- & Hk).
      rewrite is_text_PK in Ht. destruct (key_eqb_spec k (KS t)); [subst; auto|discriminate].
    + cbn in H. destruct lf; try discriminate. apply String.eqb_eq in H. exfalso. eapply Hlf; eauto.
  - intros H. left. apply existsb_exists. exists (PK (KS t)). split; [now apply in_map|].
    rewrite is_text_PK. apply key_eqb_refl.
Qed.

Lemma kget_kset_same : forall V k (v : V) l, kget k (kset k v l) = Some v.
Proof.
  intros V k v l. induction l as [|[k' v'] l IH]; cbn; [now rewrite key_eqb_refl|].
  destruct (key_eqb_spec k k') as [->|Hne]; cbn; [now rewrite key_eqb_refl|].
  rewrite key_eqb_neq; auto.
Qed.

Lemma kget_kset_other : forall V k k2 (v : V) l, k2 <> k -> kget k2 (kset k v l) = kget k2 l.
Proof.
  intros V k k2 v l Hne. induction l as [|[k' v'] l IH]; cbn; [now rewrite key_eqb_neq|].
  destruct (key_eqb_spec k k') as [->|Hne']; cbn.
  - now rewrite key_eqb_neq.
  - destruct (key_eqb_spec k2 k'); auto.
Qed.

Lemma kset_In : forall V k (v : V) l k2 v2, In (k2, v2) (kset k v l) -> (k2 = k /\ v2 = v) \/ In (k2, v2) l.
Proof.
  intros V k v l. induction l as [|[k' v'] l IH]; intros k2 v2 H; cbn in *.
  - destruct H as [E|[]]. injection E as -> ->. auto.
  - destruct (key_eqb_spec k k') as [->|Hne]; cbn in H.
    + destruct H as [E|H]; [injection E as -> ->; auto|auto].
    + destruct H as [E|H]; [auto|]. apply IH in H as [|]; auto.
Qed.

(** One step on a path of a ready configuration. *)
Lemma find_step_ready : forall s l p lf iso, s = Dict l -> sweep_ready s -> walks s p lf ->
  (find_step s (iso, []) (map PK p ++ [PV (Leaf lf)]) = Ok (iso, []) /\
   ~ (In (KS "sweep") p /\ In (KS "range") p)) \/
  (exists q r ss, p = q ++ KS "sweep" :: r /\ reaches s (q ++ [KS "sweep"]) (Dict ss) /\
     find_step s (iso, []) (map PK p ++ [PV (Leaf lf)]) = Ok (kset (param_name q) q iso, [])).
Proof.
  intros s l p lf iso Es [W Hsl Hsw Hv] Hw.
  assert (Hlf : forall u, lf = LStr u -> u <> "sweep"%string /\ u <> "range"%string).
  { intros u ->. destruct (walks_end _ _ _ Hw) as [Hr|(vs & Hr & Hin)].
    - eapply Hv; eauto.
    - apply In_nth_error in Hin as [n Hn]. apply (Hv (p ++ [KI n])).
      apply lookup_reaches; auto. rewrite lookup_app. apply lookup_reaches in Hr; auto. rewrite Hr.
      cbn. now rewrite Hn. }
  unfold find_step.
  destruct (existsb (is_text "sweep") (map PK p ++ [PV (Leaf lf)])) eqn:E1; cbn [andb].
  2:{ left. split; [reflexivity|]. intros [H _].
      apply (existsb_text "sweep" p lf) in H; [congruence|]. intros u Hu. now apply Hlf. }
  destruct (existsb (is_text "range") (map PK p ++ [PV (Leaf lf)])) eqn:E2.
  2:{ left. split; [reflexivity|]. intros [_ H].
      apply (existsb_text "range" p lf) in H; [congruence|]. intros u Hu. now apply Hlf. }
  right. apply existsb_text in E1; [|intros u Hu; now apply Hlf].
  apply split_at_sweep in E1 as (q & r & -> & Hq).
  assert (Hreach : exists ss, reaches s (q ++ [KS "sweep"]) (Dict ss)).
  { destruct r as [|k r].
    - destruct (walks_end _ _ _ Hw) as [Hr|(vs & Hr & _)];
        destruct (Hsw _ _ Hr) as (_ & _ & _ & ss & E & _); discriminate.
    - apply (walks_prefix _ _ _ Hw (q ++ [KS "sweep"]) (k :: r)); [now rewrite <- app_assoc|discriminate]. }
  destruct Hreach as [ss Hr]. destruct (Hsw _ _ Hr) as (Hq1 & Hq2 & _ & ss' & E & Hco).
  injection E as <-. exists q, r, ss. split; [reflexivity|split; [exact Hr|]].
  replace (map PK (q ++ KS "sweep" :: r) ++ [PV (Leaf lf)])
    with (map PK q ++ PK (KS "sweep") :: (map PK r ++ [PV (Leaf lf)]))
    by (rewrite map_app, <- app_assoc; reflexivity).
  rewrite index_text_split by exact Hq. rewrite firstn_PK, firstn_S_PK, !map_to_key_PK.
  rewrite (C39_get_reads_existing_path s (q ++ [KS "sweep"]) (Dict ss) W); auto;
    [|destruct q; discriminate|discriminate].
  cbn [fst]. rewrite Hco. rewrite sweep_name_PK by assumption. reflexivity.
Qed.

Lemma find_loop_ready : forall s l, s = Dict l -> sweep_ready s -> forall kvps iso,
  (forall kvp, In kvp kvps -> exists p lf, kvp = map PK p ++ [PV (Leaf lf)] /\ walks s p lf) ->
  (forall k p, In (k, p) iso -> k = param_name p /\ exists ss, reaches s (p ++ [KS "sweep"]) (Dict ss)) ->
  exists iso', find_loop s kvps (iso, []) = Ok (iso', []) /\
    (forall k p, In (k, p) iso' -> k = param_name p /\ exists ss, reaches s (p ++ [KS "sweep"]) (Dict ss)) /\
    (forall k, kget k iso <> None -> kget k iso' <> None) /\
    (forall p lf q r, In (map PK p ++ [PV (Leaf lf)]) kvps -> p = q ++ KS "sweep" :: r ->
       ~ In (KS "sweep") q -> In (KS "range") p -> kget (param_name q) iso' <> None).
Proof.
  intros s l Es Hready. induction kvps as [|kvp kvps IH]; intros iso Hall Hinv.
  - exists iso. cbn. split; [reflexivity|split; [auto|split; [auto|]]]. intros p lf q r [].
  - destruct (Hall kvp (or_introl eq_refl)) as (p & lf & -> & Hw). cbn [find_loop].
    assert (Hall' : forall kvp, In kvp kvps -> exists p lf, kvp = map PK p ++ [PV (Leaf lf)] /\ walks s p lf)
      by (intros; apply Hall; right; auto).
    assert (HinjPK : forall p1 lf1 p2 lf2, map PK p1 ++ [PV (Leaf lf1)] = map PK p2 ++ [PV (Leaf lf2)] -> p1 = p2).
    { intros p1 lf1 p2 lf2 E. apply app_inj_tail in E as [E _].
      apply (f_equal (map to_key)) in E. now rewrite !map_to_key_PK in E. }
    destruct (find_step_ready s l p lf iso Es Hready Hw) as [[E Hno]|(q & r & ss & Ep & Hr & E)]; rewrite E; cbn [rbind].
    + destruct (IH iso Hall' Hinv) as (iso' & E' & H1 & H2 & H3). exists iso'.
      split; [exact E'|split; [auto|split; [auto|]]].
      intros p2 lf2 q2 r2 [Eq|Hin] Ep2 Hq2 Hra; [|eapply H3; eauto].
      apply HinjPK in Eq. subst p2. exfalso. apply Hno. split; auto. rewrite Ep2.
      apply in_or_app; right; left; auto.
    + destruct (IH (kset (param_name q) q iso) Hall') as (iso' & E' & H1 & H2 & H3).
      { intros k0 p0 H0. apply kset_In in H0 as [[-> ->]|H0]; eauto. }
      exists iso'. split; [exact E'|split; [auto|split]].
      * intros k Hk. apply H2. destruct (key_eq_dec k (param_name q)) as [->|Hne].
        -- rewrite kget_kset_same. discriminate.
        -- rewrite kget_kset_other; auto.
      * intros p2 lf2 q2 r2 [Eq|Hin] Ep2 Hq2 Hra; [|eapply H3; eauto].
        apply HinjPK in Eq. rewrite Ep, Ep2 in Eq.
        assert (Hqq : q2 = q).
        { destruct Hready as [_ _ Hsw _]. destruct (Hsw _ _ Hr) as (_ & _ & Hq & _).
          clear -Eq Hq2 Hq. revert q2 Eq Hq2. induction q as [|a q IH]; intros [|b q2] Eq H2; cbn in *.
          - reflexivity.
          - injection Eq as E _. exfalso. apply H2. left. auto.
          - injection Eq as E _. exfalso. apply Hq. left. auto.
          - injection Eq as -> Eq. f_equal. apply IH; auto. }
        subst q2. apply H2. rewrite kget_kset_same. discriminate.
Qed.

Lemma kget_In : forall V k (v : V) l, kget k l = Some v -> In (k, v) l.
Proof.
  intros V k v l. induction l as [|[k' v'] l IH]; intros H; cbn in *; [discriminate|].
  destruct (key_eqb_spec k k') as [->|]; [injection H as <-; auto|auto].
Qed.

(** C77 for sweep-ready, uncoupled configurations: discovery succeeds, every
    swept parameter gets an entry under its name, every entry is the path of a
    sweep, and with unique names the entry is the parameter's own path. *)
Theorem C77_swept_parameters_found_partial : forall l, sweep_ready (Dict l) ->
  exists iso, find_sweep_key_paths (Dict l) = Ok (iso, []) /\
    (forall k p, In (k, p) iso -> k = param_name p /\ exists ss, reaches (Dict l) (p ++ [KS "sweep"]) (Dict ss)) /\
    (forall p, swept (Dict l) p -> exists p', kget (param_name p) iso = Some p') /\
    ((forall p q w w', reaches (Dict l) (p ++ [KS "sweep"]) w -> reaches (Dict l) (q ++ [KS "sweep"]) w' ->
        param_name p = param_name q -> p = q) ->
     forall p, swept (Dict l) p -> kget (param_name p) iso = Some p).
Proof.
  intros l Hready. pose proof Hready as [W Hsl Hsw Hv].
  destruct (find_loop_ready (Dict l) l eq_refl Hready (deep_walk (Dict l) []) []) as (iso & E & H1 & _ & H3).
  { intros kvp Hin. apply (deep_walk_In (Dict l) l eq_refl Hsl) in Hin. exact Hin. }
  { intros k p []. }
  assert (Hfound : forall p, swept (Dict l) p -> exists p', kget (param_name p) iso = Some p').
  { intros p (Hrun & rw & Hre & Hrw).
    destruct (walks_intro (p ++ [KS "sweep"; KS "range"]) (Dict l) rw) as [lf Hw]; auto.
    { destruct p; discriminate. }
    assert (Hq : ~ In (KS "sweep") p).
    { destruct (Hrun (p ++ [KS "sweep"]) [KS "range"]) as [ss Hr];
        [now rewrite <- app_assoc|discriminate|]. apply (Hsw _ _ Hr). }
    destruct (kget (param_name p) iso) eqn:Ek; [eauto|]. exfalso.
    apply (H3 (p ++ [KS "sweep"; KS "range"]) lf p [KS "range"]); auto.
    - apply (deep_walk_In (Dict l) l eq_refl Hsl). exists (p ++ [KS "sweep"; KS "range"]), lf. split; [reflexivity|exact Hw].
    - apply in_or_app; right; right; left; reflexivity. }
  exists iso. unfold find_sweep_key_paths. rewrite E. cbn [rbind fst snd existsb negb].
  assert (Hfilter : filter (fun _ : key * list key => true) iso = iso).
  { clear. induction iso as [|x iso IH]; cbn; [reflexivity|now rewrite IH]. }
  rewrite Hfilter. split; [reflexivity|split; [auto|split; [auto|]]].
  intros Huniq p Hp. destruct (Hfound p Hp) as [p' Ek]. rewrite Ek. f_equal.
  apply kget_In in Ek. destruct (H1 _ _ Ek) as (En & ss & Hr).
  destruct Hp as (Hrun & _).
  destruct (Hrun (p ++ [KS "sweep"]) [KS "range"]) as [ss2 Hr2]; [now rewrite <- app_assoc|discriminate|].
  symmetry. eapply Huniq; eauto.
Qed.
Print Assumptions C77_swept_parameters_found_partial.

(** A sweep inside a list of dictionaries (the settings of an experiment)
    makes discovery raise, because list indices are missing in the walk. *)
Theorem C77_sweep_in_list_refuted : exists s p, wf s /\
  (exists w, reaches s (p ++ [KS "sweep"; KS "range"]) w) /\
  find_sweep_key_paths s = Raise EAttr.
Proof.
  set (s := Dict [(KS "experiments", LList [Dict [(KS "seed",
      Dict [(KS "sweep", Dict [(KS "range", Leaf (LStr "1:5"))])])]])]).
  exists s, [KS "experiments"; KI 0; KS "seed"].
  assert (W : wf s).
  { repeat first [ apply wf_leaf
                 | apply wf_dict; [repeat constructor; cbn; tauto|intros ? ? [E|[]]; injection E as <- <-]
                 | apply wf_list; intros ? [<-|[]] ]. }
  split; [exact W|]. split; [|reflexivity].
  exists (Leaf (LStr "1:5")). now apply lookup_reaches.
Qed.
Print Assumptions C77_sweep_in_list_refuted.

(** A coupled sweep whose target name does not occur in the settings is
    silently dropped: its parameter is not swept at all. *)
Theorem C77_coupled_without_target_dropped_refuted : exists s p, wf s /\ swept s p /\
  find_sweep_key_paths s = Ok ([], []).
Proof.
  set (s := Dict [(KS "seed", Dict [(KS "sweep", Dict [(KS "range", Leaf (LStr "1:5"));
      (KS "coupled", Leaf (LBool true)); (KS "target_name", Leaf (LStr "alpha"))])])]).
  exists s, [KS "seed"].
  assert (W1 : wf (Dict [(KS "range", Leaf (LStr "1:5"));
      (KS "coupled", Leaf (LBool true)); (KS "target_name", Leaf (LStr "alpha"))])).
  { constructor; [repeat constructor; cbn; intuition congruence|].
    intros k c [E|[E|[E|[]]]]; injection E as <- <-; constructor. }
  assert (W2 : wf (Dict [(KS "sweep", Dict [(KS "range", Leaf (LStr "1:5"));
      (KS "coupled", Leaf (LBool true)); (KS "target_name", Leaf (LStr "alpha"))])])).
  { constructor; [repeat constructor; cbn; tauto|]. intros k c [E|[]]; injection E as <- <-; auto. }
  assert (W : wf s).
  { constructor; [repeat constructor; cbn; tauto|]. intros k c [E|[]]; injection E as <- <-; auto. }
  split; [exact W|]. split; [|reflexivity]. split.
  - apply runs_cons; auto. eexists. split; [reflexivity|]. right. eexists. split; [reflexivity|].
    apply runs_cons; auto. eexists. split; [reflexivity|]. right. eexists. split; [reflexivity|].
    apply runs_cons; auto. eexists. split; [reflexivity|]. auto.
  - exists (Leaf (LStr "1:5")). split; [now apply lookup_reaches|]. left; eauto.
Qed.
Print Assumptions C77_coupled_without_target_dropped_refuted.

Example C77_nonvacuous :
  let s := Dict [(KS "inputs", Dict [(KS "seed", Dict [(KS "sweep", Dict [(KS "range", LList [Leaf (LNum 1); Leaf (LNum 2)])])])])] in
  sweep_ready s /\ swept s [KS "inputs"; KS "seed"] /\
  find_sweep_key_paths s = Ok ([(KS "seed", [KS "inputs"; KS "seed"])], []).
Proof.
  intros s.
  assert (W : wf s).
  { repeat first [ apply wf_leaf
                 | apply wf_dict; [repeat constructor; cbn; tauto|intros ? ? [E|[]]; injection E as <- <-]
                 | apply wf_list; intros ? [<-|[<-|[]]] ]. }
  assert (Hall : forall p w, reaches s p w ->
     In (p, w) [([], s);
       ([KS "inputs"], Dict [(KS "seed", Dict [(KS "sweep", Dict [(KS "range", LList [Leaf (LNum 1); Leaf (LNum 2)])])])]);
       ([KS "inputs"; KS "seed"], Dict [(KS "sweep", Dict [(KS "range", LList [Leaf (LNum 1); Leaf (LNum 2)])])]);
       ([KS "inputs"; KS "seed"; KS "sweep"], Dict [(KS "range", LList [Leaf (LNum 1); Leaf (LNum 2)])]);
       ([KS "inputs"; KS "seed"; KS "sweep"; KS "range"], LList [Leaf (LNum 1); Leaf (LNum 2)]);
       ([KS "inputs"; KS "seed"; KS "sweep"; KS "range"; KI 0], Leaf (LNum 1));
       ([KS "inputs"; KS "seed"; KS "sweep"; KS "range"; KI 1], Leaf (LNum 2))]).
  { intros p w Hr. subst s.
    repeat match goal with
    | H : reaches (Leaf _) _ _ |- _ => inversion H; subst; clear H
    | H : reaches (Dict _) _ _ |- _ => inversion H; subst; clear H
    | H : reaches (LList _) _ _ |- _ => inversion H; subst; clear H
    | H : In _ [_] |- _ => destruct H as [E|[]]; injection E as <- <-
    | H : nth_error [_; _] ?n = Some _ |- _ => destruct n as [|[|n]]; cbn in H; [injection H as <-|injection H as <-|destruct n; discriminate]
    end; cbn; auto 12. }
  split; [constructor; [exact W| | |]|split; [split|reflexivity]].
  - intros p vs x Hr Hx. apply Hall in Hr. cbn in Hr.
    repeat destruct Hr as [Hr|Hr]; try discriminate; try tauto.
    injection Hr as _ <-. destruct Hx as [<-|[<-|[]]]; eauto.
  - intros p w Hr. apply Hall in Hr. cbn in Hr.
    repeat destruct Hr as [Hr|Hr]; try tauto; injection Hr as E Ew;
      destruct p as [|a [|b [|c [|d [|e [|f p]]]]]]; cbn in E; try discriminate.
    injection E as <- <-. split; [discriminate|split; [discriminate|split]].
    + cbn. intuition discriminate.
    + subst w. eexists. split; reflexivity.
  - intros p t Hr. apply Hall in Hr. cbn in Hr.
    repeat destruct Hr as [Hr|Hr]; try discriminate; tauto.
  - intros q1 q2 E Hne.
    destruct q1 as [|a [|b [|c [|d q1]]]]; cbn in E; try (injection E; intros; subst).
    + eexists; constructor.
    + eexists. now apply lookup_reaches.
    + eexists. now apply lookup_reaches.
    + eexists. now apply lookup_reaches.
    + destruct q1, q2; try discriminate; congruence.
  - exists (LList [Leaf (LNum 1); Leaf (LNum 2)]). split; [now apply lookup_reaches|]. right; eauto.
Qed.
