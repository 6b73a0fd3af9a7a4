(** Proofs about the files of a figure (model: FigureFiles). *)
From Coq Require Import String List ZArith Lia Bool Arith.
From Verif Require Import Base PyMonad Inputs InputsProps StartUpProps StartUpHyper HandlerProps Plotting PlotAxesProps FigureFiles.
Import ListNotations.
Local Open Scope string_scope.
Local Open Scope nat_scope.
Local Open Scope list_scope.

(** * C178: names of figures *)

(** The settings a figure's name is made of. *)
Definition in_name : list string :=
  ["figure_title"; "label"; "marker"; "marker_size"; "line_style"; "line_width"; "hatch"; "colour"; "opacity"; "hatch_opacity"].

Lemma sapp_assoc : forall a b c : string, ((a ++ b) ++ c = a ++ (b ++ c))%string.
Proof. induction a; intros; cbn; [reflexivity|]. now rewrite IHa. Qed.

Lemma concat_app : forall l1 l2, l1 <> [] -> l2 <> [] ->
  String.concat "_" (l1 ++ l2) = (String.concat "_" l1 ++ "_" ++ String.concat "_" l2)%string.
Proof.
  induction l1 as [|a l1 IH]; intros l2 H1 H2; [congruence|]. destruct l1 as [|b l1].
  - cbn [app String.concat]. destruct l2; [congruence|]. reflexivity.
  - change ((a :: b :: l1) ++ l2) with (a :: (b :: l1) ++ l2).
    change (String.concat "_" (a :: (b :: l1) ++ l2)) with (a ++ "_" ++ String.concat "_" ((b :: l1) ++ l2))%string.
    rewrite IH by congruence. change (String.concat "_" (a :: b :: l1)) with (a ++ "_" ++ String.concat "_" (b :: l1))%string.
    rewrite !sapp_assoc. reflexivity.
Qed.

Lemma joined_cons_len : forall a l, a <> "" -> 
  String.length (String.concat "_" l) < String.length (String.concat "_" (a :: l)).
Proof.
  intros a l Ha. destruct l as [|b l].
  - cbn. destruct a; [congruence|cbn; lia].
  - change (String.concat "_" (a :: b :: l)) with (a ++ "_" ++ String.concat "_" (b :: l))%string.
    rewrite !sapp_len. cbn [String.length]. lia.
Qed.

Lemma app_nil_str : forall s : string, (s ++ "" = s)%string.
Proof. induction s; cbn; congruence. Qed.

(** Parts before, the part, parts after. *)
Lemma concat_mid : forall l1 a l2, exists pre post, forall b,
  String.concat "_" (l1 ++ b :: l2) = (pre ++ b ++ post)%string /\ (pre ++ a ++ post)%string = String.concat "_" (l1 ++ a :: l2).
Proof.
  intros l1 a l2.
  assert (T : exists post, forall b, String.concat "_" (b :: l2) = (b ++ post)%string).
  { destruct l2 as [|c l2]; [exists ""; intros b; cbn; now rewrite app_nil_str|].
    exists ("_" ++ String.concat "_" (c :: l2))%string. reflexivity. }
  destruct T as (post & T). destruct l1 as [|c l1].
  - exists "", post. intros b. cbn [app]. rewrite !T. auto.
  - exists (String.concat "_" (c :: l1) ++ "_")%string, post. intros b.
    rewrite !concat_app by congruence. rewrite !T, !sapp_assoc. auto.
Qed.

Lemma joined_inj : forall l1 l2 a b, joined (l1 ++ a :: l2) = joined (l1 ++ b :: l2) -> a = b.
Proof.
  intros l1 l2 a b. unfold joined. rewrite !filter_app. set (f := fun p => negb (String.eqb p "")). cbn [filter].
  set (m1 := filter f l1). set (m2 := filter f l2). unfold f.
  assert (Len : forall x, x <> "" -> String.length (String.concat "_" (m1 ++ m2)) < String.length (String.concat "_" (m1 ++ x :: m2))).
  { intros x Hx. destruct m1 as [|c m1']; [apply joined_cons_len; exact Hx|].
    rewrite (concat_app (c :: m1') (x :: m2)) by congruence. destruct m2 as [|e m2'].
    - rewrite app_nil_r, !sapp_len. cbn [String.length]. lia.
    - rewrite (concat_app (c :: m1') (e :: m2')) by congruence. rewrite !sapp_len.
      pose proof (joined_cons_len x (e :: m2') Hx). lia. }
  destruct (String.eqb_spec a "") as [Ha|Ha], (String.eqb_spec b "") as [Hb|Hb]; cbn [negb]; intros H.
  - congruence.
  - exfalso. pose proof (Len b Hb). rewrite H in H0. lia.
  - exfalso. pose proof (Len a Ha). rewrite <- H in H0. lia.
  - destruct (concat_mid m1 a m2) as (pre & post & M). destruct (M a) as [Ma _]. destruct (M b) as [Mb _].
    rewrite Ma, Mb in H. apply sapp_inj in H. apply sapp_inj_l in H. exact H.
Qed.

Lemma option_part_other : forall s k v o, fst (fst o) <> k -> option_part (aset k v s) o = option_part s o.
Proof. intros s k v [[key dflt] pre] H. cbn [fst] in H. unfold option_part, setting. rewrite aget_aset_other by exact H. reflexivity. Qed.
Lemma label_part_other : forall s k v, "label" <> k -> label_part (aset k v s) = label_part s.
Proof. intros s k v H. unfold label_part, setting. rewrite aget_aset_other by exact H. reflexivity. Qed.

(** Of two figures that differ in one option among those of the name, given as a
    text, the files have different names. *)
Theorem C178_one_option_partial : forall slices s k v w,
  In k in_name -> k <> "label" -> v <> w ->
  plot_filename slices (aset k (SText v) s) <> plot_filename slices (aset k (SText w) s).
Proof.
  intros slices s k v w Hk Hl Hvw E.
  assert (P : forall key dflt pre, option_part (aset key (SText v) s) ((key, dflt), pre) = option_part (aset key (SText w) s) ((key, dflt), pre) -> pre <> "" -> False).
  { intros key dflt pre H Hp. unfold option_part, setting in H. rewrite !aget_aset_same in H. cbn [sval_eqb stext] in H.
    destruct (String.eqb_spec v dflt), (String.eqb_spec w dflt); subst; try congruence.
    - symmetry in H. destruct pre; [congruence|discriminate].
    - destruct pre; [congruence|discriminate].
    - apply sapp_inj in H. congruence. }
  assert (O : forall a key dflt pre b, named_options = a ++ ((key, dflt), pre) :: b -> k = key -> pre <> "" ->
     (forall o, In o a \/ In o b -> fst (fst o) <> k) -> False).
  { intros a key dflt pre b Hn -> Hp Ho. unfold plot_filename in E.
    assert (Ht : forall u, setting "figure_title" (SText "NONAME") (aset key (SText u) s) = setting "figure_title" (SText "NONAME") s).
    { intros u. unfold setting. rewrite aget_aset_other; [reflexivity|]. intros F. 
      assert (H : In ((key, dflt), pre) named_options) by (rewrite Hn; apply in_or_app; cbn; auto).
      rewrite <- F in H. cbn [named_options In] in H. decompose [or] H; try discriminate; contradiction. }
    rewrite !Ht, !label_part_other in E by congruence. rewrite Hn, !map_app in E. cbn [map] in E.
    assert (Em : forall l u, (forall o, In o l -> fst (fst o) <> key) -> map (option_part (aset key (SText u) s)) l = map (option_part s) l).
    { intros l u H. apply map_ext_in. intros o Hin. apply option_part_other. auto. }
    rewrite !(Em a) in E by auto. rewrite !(Em b) in E by auto.
    rewrite !app_comm_cons in E. apply joined_inj in E. eapply P; eauto. }
  destruct (String.eqb_spec k "figure_title") as [->|Nt].
  - unfold plot_filename in E. rewrite !label_part_other in E by discriminate.
    assert (Em : forall u, map (option_part (aset "figure_title" (SText u) s)) named_options = map (option_part s) named_options).
    { intros u. apply map_ext_in. intros o Ho. apply option_part_other. intros F.
      cbn [named_options In] in Ho. decompose [or] Ho; subst; cbn in F; try discriminate; contradiction. }
    rewrite !Em in E. unfold setting in E. rewrite !aget_aset_same in E. cbn [stext] in E.
    apply (joined_inj []) in E. congruence.
  - assert (D : forall i, i < 8 -> nth_error (map (fun o => fst (fst o)) named_options) i = Some k ->
       False).
    { intros i Hi Hn. 
      destruct (nth_error named_options i) as [[[key dflt] pre]|] eqn:En; [|rewrite (proj2 (nth_error_None _ _)) in Hn; [discriminate|]; rewrite map_length; apply nth_error_None; exact En].
      rewrite nth_error_map, En in Hn. cbn in Hn. injection Hn as Hn.
      apply nth_error_split in En as (a & b & Eab & Ela). apply (O a key dflt pre b Eab (eq_sym Hn)).
      - assert (C : forallb (fun o => negb (String.eqb (snd o) "")) named_options = true) by reflexivity.
        rewrite forallb_forall in C. specialize (C ((key, dflt), pre)). rewrite Eab in C. 
        specialize (C ltac:(apply in_or_app; cbn; auto)). cbn in C. intros ->. discriminate.
      - assert (N : NoDup (map (fun o => fst (fst o)) named_options)) by (apply nodupb_NoDup; reflexivity).
        rewrite Eab, map_app in N. cbn [map fst] in N. apply NoDup_remove_2 in N.
        intros o Ho F. apply N. rewrite Hn, <- F. apply in_or_app.
        destruct Ho as [Ho|Ho]; [left|right]; apply (in_map (fun o => fst (fst o))) in Ho; exact Ho. }
    assert (C : In k (map (fun o => fst (fst o)) named_options)).
    { cbn [in_name In] in Hk. cbn [named_options map fst In]. decompose [or] Hk; subst; try congruence; auto 10; contradiction. }
    apply In_nth_error in C as (i & Hi). apply (D i); [|exact Hi].
    assert (i < List.length (map (fun o => fst (fst o)) named_options)) by (apply nth_error_Some; congruence).
    exact H.
Qed.
Print Assumptions C178_one_option_partial.

(** The same for figures of different labels, unless the labels read the same
    joined with "&". *)
Theorem C178_labels_partial : forall slices s l l',
  l <> [""] -> l' <> [""] -> String.concat "&" l <> String.concat "&" l' ->
  plot_filename slices (aset "label" (STexts l) s) <> plot_filename slices (aset "label" (STexts l') s).
Proof.
  intros slices s l l' H1 H2 Hne E. unfold plot_filename in E.
  assert (Em : forall u, map (option_part (aset "label" u s)) named_options = map (option_part s) named_options).
  { intros u. apply map_ext_in. intros o Ho. apply option_part_other. intros F.
    cbn [named_options In] in Ho. decompose [or] Ho; subst; cbn in F; try discriminate; contradiction. }
  rewrite !Em in E.
  assert (Ht : forall u, setting "figure_title" (SText "NONAME") (aset "label" u s) = setting "figure_title" (SText "NONAME") s).
  { intros u. unfold setting. rewrite aget_aset_other; [reflexivity|discriminate]. }
  rewrite !Ht in E.
  match type of E with joined (?a :: ?b :: ?c :: ?r) = joined (_ :: _ :: ?c' :: _) => 
    change (joined ([a; b] ++ c :: r) = joined ([a; b] ++ c' :: r)) in E end.
  apply joined_inj in E. unfold label_part, setting in E. rewrite !aget_aset_same in E.
  assert (B : forall m, m <> [""] -> sval_eqb (STexts m) (STexts [""]) = false).
  { intros m Hm. destruct m as [|x [|y m]]; [reflexivity| |].
    - cbn [sval_eqb texts_eqb]. destruct (String.eqb_spec x ""); [subst; congruence|reflexivity].
    - cbn [sval_eqb texts_eqb]. apply andb_false_r. }
  rewrite !B in E by assumption. apply sapp_inj in E. contradiction.
Qed.
Print Assumptions C178_labels_partial.

(** The same for two figures with samples sliced differently: other burn-in,
    thinning or trimming of a variable (numbers: no comma). *)
Theorem C178_slices_partial : forall s before after var b t r b' t' r',
  no_comma b -> no_comma b' -> no_comma t -> no_comma t' ->
  (b, t, r) <> (b', t', r') ->
  plot_filename (before ++ (var, (b, t, r)) :: after) s <> plot_filename (before ++ (var, (b', t', r')) :: after) s.
Proof.
  intros s before after var b t r b' t' r' Nb Nb' Nt Nt' Hne E. unfold plot_filename in E.
  match type of E with joined (?a :: ?b :: ?r) = joined (_ :: ?b' :: _) => 
    change (joined ([a] ++ b :: r) = joined ([a] ++ b' :: r)) in E end.
  apply joined_inj in E. rewrite !map_app in E. cbn [map] in E.
  destruct (concat_mid (map slice_part before) (slice_part (var, (b, t, r))) (map slice_part after)) as (pre & post & M).
  destruct (M (slice_part (var, (b, t, r)))) as [M1 _]. destruct (M (slice_part (var, (b', t', r')))) as [M2 _].
  rewrite M1, M2 in E. apply sapp_inj in E. apply sapp_inj_l in E. unfold slice_part in E.
  apply sapp_inj in E. apply sapp_inj in E. apply sapp_inj in E.
  change ((b ++ "," ++ ("thinning" ++ t ++ "," ++ ("trimming" ++ r ++ ")")))%string = (b' ++ "," ++ ("thinning" ++ t' ++ "," ++ ("trimming" ++ r' ++ ")")))%string) in E.
  apply comma_inj in E as [-> E]; [|assumption|assumption]. apply sapp_inj in E.
  apply comma_inj in E as [-> E]; [|assumption|assumption]. apply sapp_inj in E. apply sapp_inj_l in E. congruence.
Qed.
Print Assumptions C178_slices_partial.

(** Figures that set different options among marker, sizes, styles, hatch, colour
    and opacities, with the others alike and these two not set otherwise, have
    different names too (the values are not the defaults "", "." and "-"). *)
Lemma prefix_app : forall p x, String.prefix p (p ++ x)%string = true.
Proof. induction p as [|a p IH]; intros x; [destruct x; reflexivity|]. cbn. destruct (Ascii.ascii_dec a a); [apply IH|congruence]. Qed.
Lemma prefix_both : forall p q s, String.prefix p s = true -> String.prefix q s = true -> String.prefix p q = true \/ String.prefix q p = true.
Proof.
  induction p as [|a p IH]; intros q s; [left; destruct q; reflexivity|]. destruct q as [|b q]; [right; reflexivity|].
  destruct s as [|c s]; [discriminate|]. cbn. destruct (Ascii.ascii_dec a c); [|discriminate]. destruct (Ascii.ascii_dec b c); [|discriminate].
  subst. destruct (Ascii.ascii_dec c c); [|congruence]. apply IH.
Qed.
Lemma prefix_trans : forall p q s, String.prefix p q = true -> String.prefix p (q ++ s)%string = true.
Proof.
  induction p as [|a p IH]; intros q s H; [destruct (q ++ s)%string; reflexivity|]. destruct q as [|b q]; [discriminate|]. cbn in *.
  destruct (Ascii.ascii_dec a b); [auto|discriminate].
Qed.
Lemma concat_head : forall a l, exists r, String.concat "_" (a :: l) = (a ++ r)%string.
Proof. intros a l. destruct l as [|b l]; [exists ""; cbn; symmetry; apply app_nil_str|]. eexists; reflexivity. Qed.
(** The first part that is not empty starts the text. *)
Lemma joined_head : forall l, joined l = "" \/ exists a, In a l /\ a <> "" /\ exists r, joined l = (a ++ r)%string.
Proof.
  intros l. unfold joined. destruct (filter _ l) as [|a m] eqn:E; [left; reflexivity|]. right. exists a.
  assert (I : In a (a :: m)) by (left; reflexivity). rewrite <- E in I. apply filter_In in I as [I N]. split; [exact I|].
  split; [intros ->; discriminate|]. apply concat_head.
Qed.
Lemma joined_skip : forall l, joined ("" :: l) = joined l. Proof. reflexivity. Qed.
Lemma joined_prefix : forall l m m', joined (l ++ m) = joined (l ++ m') -> joined m <> "" -> joined m' <> "" -> joined m = joined m'.
Proof.
  intros l m m'. unfold joined. rewrite !filter_app. destruct (filter _ l) as [|a k]; [auto|].
  destruct (filter _ m) as [|b n]; [intros _ H; contradiction (H eq_refl)|]. destruct (filter _ m') as [|b' n']; [intros _ _ H; contradiction (H eq_refl)|].
  intros E _ _. rewrite !concat_app in E by congruence. apply sapp_inj in E. apply (sapp_inj "_") in E. exact E.
Qed.
Lemma joined_some : forall l a m, a <> "" -> joined (l ++ a :: m) <> "".
Proof.
  intros l a m Ha E. pose proof (joined_inj l m a "") as J. unfold joined in E.
  destruct (filter (fun p => negb (String.eqb p "")) (l ++ a :: m)) as [|b k] eqn:F.
  - assert (I : In a (filter (fun p => negb (String.eqb p "")) (l ++ a :: m))).
    { apply filter_In. split; [apply in_or_app; cbn; auto|]. destruct (String.eqb_spec a ""); [contradiction|reflexivity]. }
    rewrite F in I. destruct I.
  - assert (I : In b (b :: k)) by (left; reflexivity). rewrite <- F in I. apply filter_In in I as [_ N].
    pose proof (concat_head b k) as (r & Hr). rewrite Hr in E. destruct b; [discriminate|discriminate].
Qed.

Theorem C178_two_options_partial : forall slices s k k' v w,
  In k in_name -> In k' in_name -> k <> "figure_title" -> k' <> "figure_title" -> k <> "label" -> k' <> "label" ->
  k <> k' -> aget k s = None -> aget k' s = None -> v <> "" -> w <> "" -> v <> "." -> w <> "." -> v <> "-" -> w <> "-" ->
  plot_filename slices (aset k (SText v) s) <> plot_filename slices (aset k' (SText w) s).
Proof.
  assert (Pre : forall s k v d p, In ((k, d), p) named_options -> v <> "" -> v <> "." -> v <> "-" ->
     option_part (aset k (SText v) s) ((k, d), p) = (p ++ v)%string).
  { intros s k v d p Hin H1 H2 H3. unfold option_part, setting. rewrite aget_aset_same. cbn [sval_eqb stext].
    assert (D : forallb (fun o => memb (snd (fst o)) [""; "."; "-"]) named_options = true) by reflexivity.
    rewrite forallb_forall in D. specialize (D _ Hin). cbn [fst snd] in D. apply memb_In in D.
    destruct (String.eqb_spec v d); [|reflexivity]. subst d. cbn in D. decompose [or] D; subst; congruence || contradiction. }
  assert (Unset : forall s o, In o named_options -> aget (fst (fst o)) s = None -> option_part s o = "").
  { intros s [[k d] p] _ H. unfold option_part, setting. cbn [fst] in H. rewrite H. cbn [sval_eqb]. rewrite String.eqb_refl. reflexivity. }
  assert (Starts : forall s o, option_part s o = "" \/ String.prefix (snd o) (option_part s o) = true).
  { intros s [[k d] p]. unfold option_part. destruct (sval_eqb _ _); [left; reflexivity|right; apply prefix_app]. }
  assert (Ord : forall slices s a k d p mid k' d' p' b v w, named_options = a ++ ((k, d), p) :: mid ++ ((k', d'), p') :: b ->
     aget k s = None -> aget k' s = None -> v <> "" -> v <> "." -> v <> "-" -> w <> "" -> w <> "." -> w <> "-" ->
     plot_filename slices (aset k (SText v) s) <> plot_filename slices (aset k' (SText w) s)).
  { intros slices s a k d p mid k' d' p' b v w Hn Hk Hk' V1 V2 V3 W1 W2 W3 E.
    assert (I1 : In ((k, d), p) named_options) by (rewrite Hn; apply in_or_app; cbn; auto).
    assert (I2 : In ((k', d'), p') named_options) by (rewrite Hn; apply in_or_app; right; right; apply in_or_app; cbn; auto).
    assert (N : NoDup (map (fun o => fst (fst o)) named_options)) by (apply nodupb_NoDup; reflexivity).
    assert (Kn : forall o, In o named_options -> fst (fst o) <> "figure_title" /\ fst (fst o) <> "label").
    { intros o Ho. split; intros F; cbn [named_options In] in Ho; decompose [or] Ho; subst; cbn in F; try discriminate; contradiction. }
    assert (T : forall u q, In u named_options -> setting "figure_title" (SText "NONAME") (aset (fst (fst u)) (SText q) s) = setting "figure_title" (SText "NONAME") s).
    { intros u q Hu. unfold setting. rewrite aget_aset_other; [reflexivity|]. intros F. destruct (Kn u Hu). congruence. }
    pose proof (T _ v I1) as T1. pose proof (T _ w I2) as T2. cbn [fst] in T1, T2.
    pose proof (proj2 (Kn _ I1)) as L1. pose proof (proj2 (Kn _ I2)) as L2. cbn [fst] in L1, L2.
    unfold plot_filename in E. rewrite T1, T2 in E. rewrite !label_part_other in E by congruence.
    match type of E with joined (?x :: ?y :: ?z :: ?r) = joined (_ :: _ :: _ :: ?r') =>
      change (joined ([x; y; z] ++ r) = joined ([x; y; z] ++ r')) in E; set (H0 := [x; y; z]) in E end.
    rewrite Hn, !map_app in E. cbn [map] in E. rewrite !map_app in E. cbn [map] in E.
    rewrite Hn, map_app in N. cbn [map fst] in N. rewrite map_app in N. cbn [map fst] in N.
    assert (Na : forall o, In o a -> fst (fst o) <> k /\ fst (fst o) <> k').
    { intros o Ho. pose proof (in_map (fun o => fst (fst o)) _ _ Ho) as Im. cbv beta in Im. split; intros F; rewrite F in Im.
      - apply NoDup_remove_2 in N. apply N. apply in_or_app. auto.
      - assert (N' := N). rewrite app_comm_cons, app_assoc in N'. apply NoDup_remove_2 in N'. apply N'. apply in_or_app. left. apply in_or_app. auto. }
    assert (Ea : forall k0 u, (forall o, In o a -> fst (fst o) <> k0) -> map (option_part (aset k0 (SText u) s)) a = map (option_part s) a).
    { intros k0 u H. apply map_ext_in. intros o Ho. apply option_part_other. auto. }
    rewrite (Ea k v) in E by (intros o Ho; apply Na; exact Ho). rewrite (Ea k' w) in E by (intros o Ho; apply Na; exact Ho).
    rewrite !app_assoc in E. set (A := H0 ++ map (option_part s) a) in E.
    rewrite (Pre s k v d p I1 V1 V2 V3) in E. rewrite (Pre s k' w d' p' I2 W1 W2 W3) in E.
    assert (U : option_part (aset k' (SText w) s) ((k, d), p) = "").
    { apply Unset; [exact I1|]. cbn [fst]. rewrite aget_aset_other; [exact Hk|]. intros F. subst k'.
      apply NoDup_remove_2 in N. apply N. apply in_or_app. right. apply in_or_app. right. left. reflexivity. }
    rewrite U in E.
    assert (Ne : forall q x, In q (map snd named_options) -> (q ++ x)%string <> "").
    { intros q x Hq F. assert (C : forallb (fun q => negb (String.eqb q "")) (map snd named_options) = true) by reflexivity.
      rewrite forallb_forall in C. specialize (C q Hq). destruct q; discriminate. }
    assert (Q1 : In p (map snd named_options)) by (apply (in_map snd) in I1; exact I1).
    assert (Q2 : In p' (map snd named_options)) by (apply (in_map snd) in I2; exact I2).
    apply joined_prefix in E.
    - rewrite joined_skip in E.
      set (m1 := map (option_part (aset k (SText v) s)) mid ++ _ :: map _ b) in E.
      set (m2 := map (option_part (aset k' (SText w) s)) mid ++ _ :: map _ b) in E.
      assert (P1 : String.prefix p (joined ((p ++ v)%string :: m1)) = true).
      { unfold joined. cbn [filter]. destruct (String.eqb_spec (p ++ v)%string "") as [X|X]; [exfalso; exact (Ne p v Q1 X)|]. cbn [negb].
        match goal with |- context [String.concat "_" (?a :: ?l)] => destruct (concat_head a l) as (r & ->) end. apply prefix_trans, prefix_app. }
      rewrite E in P1. destruct (joined_head m2) as [Z|(x & Hx & Hxe & r & Hr)].
      + rewrite Z in P1. destruct p; [|discriminate]. apply (Ne "" ""); [exact Q1|reflexivity].
      + assert (S : exists o, In o (mid ++ ((k', d'), p') :: b) /\ String.prefix (snd o) x = true).
        { unfold m2 in Hx. apply in_app_or in Hx as [Hx|[Hx|Hx]].
          - apply in_map_iff in Hx as (o & Ho & Hin). exists o. split; [apply in_or_app; auto|].
            destruct (Starts (aset k' (SText w) s) o) as [F|F]; [congruence|]. rewrite Ho in F. exact F.
          - exists ((k', d'), p'). split; [apply in_or_app; cbn; auto|]. subst x. apply prefix_app.
          - apply in_map_iff in Hx as (o & Ho & Hin). exists o. split; [apply in_or_app; cbn; auto|].
            destruct (Starts (aset k' (SText w) s) o) as [F|F]; [congruence|]. rewrite Ho in F. exact F. }
        destruct S as (o & Ho & Hp). rewrite Hr in P1. pose proof (prefix_trans _ _ r Hp) as P2.
        destruct (prefix_both _ _ _ P1 P2) as [B|B].
        * assert (C : forallb (fun o => forallb (fun o' => String.eqb (fst (fst o)) (fst (fst o')) || negb (String.prefix (snd o) (snd o'))) named_options) named_options = true) by reflexivity.
          rewrite forallb_forall in C. specialize (C _ I1). rewrite forallb_forall in C. specialize (C o ltac:(rewrite Hn; apply in_or_app; right; right; exact Ho)).
          cbn [fst snd] in C. rewrite B in C. rewrite orb_false_r in C. apply String.eqb_eq in C.
          apply NoDup_remove_2 in N. apply N. rewrite C. apply in_or_app. right.
          apply in_app_or in Ho as [Ho|[Ho|Ho]]; apply in_or_app; [left|right; left; subst o; reflexivity|right; right]; apply (in_map (fun o => fst (fst o))) in Ho; exact Ho.
        * assert (C : forallb (fun o => forallb (fun o' => String.eqb (fst (fst o)) (fst (fst o')) || negb (String.prefix (snd o') (snd o))) named_options) named_options = true) by reflexivity.
          rewrite forallb_forall in C. specialize (C _ I1). rewrite forallb_forall in C. specialize (C o ltac:(rewrite Hn; apply in_or_app; right; right; exact Ho)).
          cbn [fst snd] in C. rewrite B in C. rewrite orb_false_r in C. apply String.eqb_eq in C.
          apply NoDup_remove_2 in N. apply N. rewrite C. apply in_or_app. right.
          apply in_app_or in Ho as [Ho|[Ho|Ho]]; apply in_or_app; [left|right; left; subst o; reflexivity|right; right]; apply (in_map (fun o => fst (fst o))) in Ho; exact Ho.
    - apply (joined_some []). apply Ne. exact Q1.
    - rewrite joined_skip. apply joined_some. apply Ne. exact Q2. }
  intros slices s k k' v w Hk Hk' T T' L L' Hkk G G' V W V2 W2 V3 W3.
  assert (S : forall x, In x in_name -> x <> "figure_title" -> x <> "label" -> exists o, In o named_options /\ fst (fst o) = x).
  { intros x Hx H1 H2. assert (C : In x (map (fun o => fst (fst o)) named_options)).
    { cbn [in_name In] in Hx. cbn [named_options map fst In]. decompose [or] Hx; subst; try congruence; auto 10; contradiction. }
    apply in_map_iff in C as (o & Ho & Hin). exists o. auto. }
  destruct (S k Hk T L) as ([[k1 d1] p1] & I1 & E1). destruct (S k' Hk' T' L') as ([[k2 d2] p2] & I2 & E2). cbn [fst] in E1, E2. subst k1 k2.
  apply in_split in I1 as (a & b & Hab). assert (I2' := I2). rewrite Hab in I2'. apply in_app_or in I2' as [I2'|[I2'|I2']].
  - apply in_split in I2' as (a' & b' & ->). intros F. symmetry in F. revert F.
    apply (Ord slices s a' k' d2 p2 b' k d1 p1 b w v); try assumption. rewrite Hab, <- app_assoc. reflexivity.
  - injection I2' as F _ _. congruence.
  - apply in_split in I2' as (a' & b' & ->). apply (Ord slices s a k d1 p1 a' k' d2 p2 b' v w); assumption.
Qed.
Print Assumptions C178_two_options_partial.

(** Figures made for each experiment apart are kept apart; otherwise they lie
    beside the folders of the experiments, so those of all experiments in one
    folder share a directory (and, by C178_other_data_refuted, their files). *)
Theorem C178_directories_partial :
  (forall a b da db, plot_directory [] true (Some a) = Ok da -> plot_directory [] true (Some b) = Ok db ->
     (da = db <-> outputs_path a = outputs_path b)) /\
  (forall parent x y out out', (forall c, In c (parent ++ [x]) \/ In c (parent ++ [y]) -> contains "synthetic" c = false) ->
     plot_directory [] false (Some {| outputs_path := parent ++ [x]; out_directory := out |}) = Ok (parent ++ ["paper_figures"]) /\
     plot_directory [] false (Some {| outputs_path := parent ++ [y]; out_directory := out' |}) = Ok (parent ++ ["paper_figures"])).
Proof.
  split.
  - intros a b da db. cbn. intros E1 E2. injection E1 as <-. injection E2 as <-. split; [intros H; apply app_inj_tail in H; tauto|congruence].
  - intros parent x y out out' H.
    assert (G : forall z o, (forall c, In c (parent ++ [z]) -> contains "synthetic" c = false) ->
      plot_directory [] false (Some {| outputs_path := parent ++ [z]; out_directory := o |}) = Ok (parent ++ ["paper_figures"])).
    { intros z o Hz. cbn [plot_directory outputs_path out_directory]. destruct (existsb _ _) eqn:X.
      - apply existsb_exists in X as (c & Hc & Hs). rewrite Hz in Hs by exact Hc. discriminate.
      - rewrite removelast_last. reflexivity. }
    split; apply G; auto.
Qed.
Print Assumptions C178_directories_partial.

(** "A figure of other data does not replace an earlier figure" is false: the
    variables drawn are not part of the name.  Whatever figure was made with the
    settings [s], one with any other settings outside the name (the coordinates,
    the groups, the type of the plot) from outputs in the same directory
    replaces its data, its settings and the figure. *)
Theorem C178_other_data_refuted : forall slices s s' src src' ff d d' fs fs1 fs2,
  (forall k, In k in_name -> aget k s = aget k s') ->
  plot_directory [] false (Some src) = plot_directory [] false (Some src') ->
  plot_figure "json" ff slices s src d fs = Ok fs1 ->
  plot_figure "json" ff slices s' src' d' fs1 = Ok fs2 ->
  exists path, 
    aget (path ++ "." ++ ff)%string fs1 = Some (CFigure d) /\ aget (path ++ "." ++ ff)%string fs2 = Some (CFigure d') /\
    exists e e', aget (path ++ "_data.json")%string fs1 = Some (CData e) /\ aget (path ++ "_data.json")%string fs2 = Some (CData e') /\
      (forall k, In k figure_keys -> k <> "outputs" -> aget k e = Some (get k d)) /\
      (forall k, In k figure_keys -> k <> "outputs" -> aget k e' = Some (get k d')) /\
      map fst fs2 = map fst fs1.
Proof.
  intros slices s s' src src' ff d d' fs fs1 fs2 Hs Hd E1 E2.
  assert (N : plot_filename slices s' = plot_filename slices s).
  { assert (G : forall k dv, In k in_name -> setting k dv s' = setting k dv s) by (intros k dv Hk; unfold setting; rewrite (Hs k Hk); reflexivity).
    unfold plot_filename. rewrite (G "figure_title") by (cbn; auto).
    assert (L : label_part s' = label_part s) by (unfold label_part; rewrite (G "label") by (cbn; auto); reflexivity).
    rewrite L. f_equal. do 3 f_equal. apply map_ext_in. intros [[key dflt] pre] Ho. unfold option_part.
    rewrite (G key); [reflexivity|]. cbn [named_options In] in Ho. cbn [in_name In].
    repeat (destruct Ho as [Ho|Ho]; [injection Ho as <- <- <-; cbn; tauto|]). destruct Ho. }
  unfold plot_figure in E1, E2. rewrite N, <- Hd in E2. clear N Hs Hd.
  destruct (plot_directory [] false (Some src)) as [dir|]; [|discriminate]. cbn [rbind] in E1, E2.
  set (path := filepath dir (plot_filename slices s)) in *. clearbody path.
  assert (A : forall a b : string, a <> b -> (path ++ a)%string <> (path ++ b)%string) by (intros a b Hab F; apply sapp_inj in F; congruence).
  assert (W : forall d0 s0 f f', (do fs1 <- write_figure_data "json" path s0 d0 f ; Ok (aset (path ++ "." ++ ff)%string (CFigure d0) fs1)) = Ok f' ->
    exists c, f' = aset (path ++ "." ++ ff)%string (CFigure d0) (aset (path ++ "_settings.json")%string (CSettings s0)
       (aset (path ++ "_data.json")%string (CData (map (fun k => (k, if String.eqb k "outputs" then PDict c else get k d0)) figure_keys)) f))).
  { intros d0 s0 f f' H. unfold write_figure_data, write_data in H. destruct (negb _); [discriminate|].
    change (String.eqb "json" "dat") with false in H. change (String.eqb "json" "json") with true in H. cbv iota in H.
    destruct (get "outputs" d0); try discriminate. cbn [rbind] in H. injection H as <-. eexists; reflexivity. }
  apply W in E1 as (c1 & E1). apply W in E2 as (c2 & E2).
  exists path. subst fs1 fs2. rewrite !aget_aset_same. split; [reflexivity|]. split; [reflexivity|].
  do 2 eexists. split; [|split; [|split; [|split]]].
  - rewrite aget_aset_other by (apply A; discriminate). rewrite aget_aset_other by (apply A; discriminate). apply aget_aset_same.
  - rewrite aget_aset_other by (apply A; discriminate). rewrite aget_aset_other by (apply A; discriminate). apply aget_aset_same.
  - intros k Hk Ho. cbn [figure_keys In] in Hk. decompose [or] Hk; subst; try reflexivity; congruence || contradiction.
  - intros k Hk Ho. cbn [figure_keys In] in Hk. decompose [or] Hk; subst; try reflexivity; congruence || contradiction.
  - assert (K : forall (f : files) k v, In k (map fst f) -> map fst (aset k v f) = map fst f) by (intros; apply aset_keys; assumption).
    assert (I : forall (f : files) k k' v, In k (map fst f) -> In k (map fst (aset k' v f))).
    { clear. induction f as [|[a b] f IH]; intros k k' v H; cbn in *; [destruct H|]. destruct (String.eqb k' a) eqn:Eq; cbn.
      - apply String.eqb_eq in Eq. subst. destruct H; auto.
      - destruct H; auto. }
    assert (J : forall (f : files) k v, In k (map fst (aset k v f))).
    { clear. induction f as [|[a b] f IH]; intros k v; cbn; [auto|]. destruct (String.eqb k a) eqn:Eq; cbn; auto. }
    set (p1 := (path ++ "_data.json")%string). set (p2 := (path ++ "_settings.json")%string). set (p3 := (path ++ "." ++ ff)%string).
    rewrite (K _ p3) by (apply I, I; apply J). rewrite (K _ p2) by (apply I, I; apply J). rewrite (K _ p1) by (apply I, I; apply J). reflexivity.
Qed.
Print Assumptions C178_other_data_refuted.

Definition demo_source : source := {| outputs_path := ["out"; "cambridge"; "exp1"]; out_directory := ["out"] |}.
Definition demo_points (x : Z) : list (string * pv) :=
  [("outputs", PObj [("N", PNum 10)]); ("x", PList [PList [PNum x]]); ("y", PList [PList [PNum 2]]); ("marker", PList [PText "."])].
Definition demo_settings (x : string) : list (string * sval) :=
  [("x", STexts [x]); ("y", STexts ["srmse"]); ("figure_title", SText "errors"); ("label", STexts [""]); ("marker", SText "."); ("marker_size", SText "1.0")].
Example C178_nonvacuous :
  plot_filename [("iter", ("100", "1", "1000"))] (demo_settings "sigma") = "errors_(iter,burnin100,thinning1,trimming1000)_markersize_1.0" /\
  (forall k, In k in_name -> aget k (demo_settings "sigma") = aget k (demo_settings "title")) /\
  (exists fs1 fs2, plot_figure "json" "pdf" [] (demo_settings "sigma") demo_source (demo_points 1) [] = Ok fs1 /\
     plot_figure "json" "pdf" [] (demo_settings "title") demo_source (demo_points 5) fs1 = Ok fs2 /\
     map fst fs2 = ["out/cambridge/paper_figures/errors_markersize_1.0_data.json"; "out/cambridge/paper_figures/errors_markersize_1.0_settings.json";
                    "out/cambridge/paper_figures/errors_markersize_1.0.pdf"]).
Proof.
  split; [vm_compute; reflexivity|]. split.
  - intros k Hk. cbn [in_name In] in Hk. decompose [or] Hk; subst; try reflexivity; contradiction.
  - do 2 eexists. split; [vm_compute; reflexivity|]. split; [vm_compute; reflexivity|]. vm_compute. reflexivity.
Qed.

(** * C179: the exported data *)

(** In the format json every variable of the figure is in the file with the
    values drawn, null if it has none, and the configuration of the outputs;
    nothing else in the directory changes but the settings. *)
Theorem C179_json_partial : forall path s d c fs,
  (forall k, In k (map fst d) -> In k figure_keys) -> aget "outputs" d = Some (PObj c) ->
  exists fs', write_figure_data "json" path s d fs = Ok fs' /\
    (exists e, aget (path ++ "_data.json")%string fs' = Some (CData e) /\
      aget "outputs" e = Some (PDict c) /\
      (forall k v, k <> "outputs" -> aget k d = Some v -> aget k e = Some v) /\
      (forall k, k <> "outputs" -> In k figure_keys -> aget k d = None -> aget k e = Some PNull)) /\
    aget (path ++ "_settings.json")%string fs' = Some (CSettings s) /\
    (forall f, f <> (path ++ "_data.json")%string -> f <> (path ++ "_settings.json")%string -> aget f fs' = aget f fs).
Proof.
  intros path s d c fs Hk Ho.
  assert (F : forallb (fun kv => memb (fst kv) figure_keys) d = true).
  { apply forallb_forall. intros [k v] Hin. apply memb_In. apply Hk. apply (in_map fst) in Hin. exact Hin. }
  eexists. split.
  { unfold write_figure_data, write_data. rewrite F. cbn [negb].
    change (String.eqb "json" "dat") with false. change (String.eqb "json" "json") with true. cbv iota.
    assert (G : get "outputs" d = PObj c) by (unfold get; rewrite Ho; reflexivity). rewrite G. cbn [rbind]. reflexivity. }
  assert (A : (path ++ "_data.json")%string <> (path ++ "_settings.json")%string) by (intros F'; apply sapp_inj in F'; discriminate).
  assert (E : forall k, In k figure_keys -> k <> "outputs" ->
     aget k (map (fun k => (k, if String.eqb k "outputs" then PDict c else get k d)) figure_keys) = Some (get k d)).
  { intros k Hin Hne. cbn [figure_keys In] in Hin. decompose [or] Hin; subst; try reflexivity; congruence || contradiction. }
  split; [|split].
  - eexists. split; [rewrite aget_aset_other by exact A; apply aget_aset_same|]. split; [reflexivity|]. split.
    + intros k v Hne Hv. rewrite E; [unfold get; rewrite Hv; reflexivity| |exact Hne]. apply Hk. apply aget_In in Hv. apply (in_map fst) in Hv. exact Hv.
    + intros k Hne Hin Hv. rewrite E by assumption. unfold get. rewrite Hv. reflexivity.
  - apply aget_aset_same.
  - intros f H1 H2. rewrite !aget_aset_other by assumption. reflexivity.
Qed.
Print Assumptions C179_json_partial.

Section Keys.
  Context {V : Type}.
  Lemma aset_in : forall W k k' (w : W) l, In k (map fst (aset k' w l)) -> k = k' \/ In k (map fst l).
  Proof.
    intros W k k' w. induction l as [|[a b] l IH]; cbn; [intuition|]. destruct (String.eqb k' a) eqn:E; cbn.
    - apply String.eqb_eq in E. subst. intuition.
    - intuition.
  Qed.
  Lemma update_in : forall k (e d : list (string * V)), In k (map fst (update d e)) -> In k (map fst d) \/ In k (map fst e).
  Proof.
    intros k. unfold update. induction e as [|[a b] e IH]; intros d H; cbn [fold_left map fst snd In] in *; [auto|].
    apply IH in H as [H|H]; [|auto]. apply aset_in in H as [-> |H]; auto.
  Qed.
  Lemma merge_one_in : forall k acc (kv : string * V), In k (map fst (merge_one acc kv)) -> In k (map fst acc) \/ k = fst kv.
  Proof.
    intros k acc [a v] H. unfold merge_one in H. cbn [fst].
    destruct (memb a plot_variables); [destruct (aget a acc) as [[?|?]|]|destruct (aget a acc)]; try (apply aset_in in H as [-> |H]); auto.
  Qed.
  Lemma merge_in : forall k (points : list (list (string * V))), In k (map fst (merge points)) -> exists d, In d points /\ In k (map fst d).
  Proof.
    intros k points. unfold merge.
    assert (G : forall acc, In k (map fst (fold_left (fun acc d => fold_left merge_one d acc) points acc)) ->
      In k (map fst acc) \/ exists d, In d points /\ In k (map fst d)).
    { induction points as [|d points IH]; intros acc H; cbn [fold_left] in H; [auto|].
      apply IH in H as [H|(d' & H1 & H2)]; [|right; exists d'; cbn; auto].
      assert (D : forall (d : list (string * V)) acc, In k (map fst (fold_left merge_one d acc)) -> In k (map fst acc) \/ In k (map fst d)).
      { clear. induction d as [|kv d IH]; intros acc H; cbn [fold_left map In] in *; [auto|].
        apply IH in H as [H|H]; [|auto]. apply merge_one_in in H as [H| ->]; auto. }
      apply D in H as [H|H]; [auto|]. right. exists d. cbn. auto. }
    intros H. apply G in H as [[]|H]. exact H.
  Qed.

  (** The merged figure (Plotting) has no other keys than those exported, so that
      exporting never fails for that reason. *)
  Theorem C179_keys_exported : forall fs : list (@folder V),
    (forall f x k, In f fs -> In (Ok x) (snd f) -> In k (map fst x) -> In k plot_variables) ->
    forall k, In k (map fst (figure fs)) -> In k figure_keys.
  Proof.
    intros fs H k Hk. unfold figure in Hk. apply merge_in in Hk as (d & Hd & Hk).
    assert (P : forall d : list (string * V), In d (all_points fs) -> forall k, In k (map fst d) -> In k ("outputs" :: plot_variables)).
    { clear d k Hd Hk. unfold all_points.
      assert (Fd : forall entries cur acc, (forall x k, In (Ok x) entries -> In k (map fst x) -> In k plot_variables) ->
        (forall k, In k (map fst cur) -> In k ("outputs" :: plot_variables)) ->
        (forall d, In d acc -> forall k, In k (map fst d) -> In k ("outputs" :: plot_variables)) ->
        forall d, In d (fst (folder_points (V := V) cur entries acc)) -> forall k, In k (map fst d) -> In k ("outputs" :: plot_variables)).
      { induction entries as [|[x|e] entries IH]; intros cur acc He Hc Ha d Hd k Hk; cbn [folder_points fst] in Hd.
        - eapply Ha; eauto.
        - revert d Hd k Hk. apply IH.
          + intros; eapply He; [right; eassumption|assumption].
          + intros k Hk. apply update_in in Hk as [Hk|Hk]; [auto|]. right. apply (He x k); [left; reflexivity|exact Hk].
          + intros d Hd k Hk. apply in_app_or in Hd as [Hd|[<-|[]]]; [eapply Ha; eauto|].
            apply update_in in Hk as [Hk|Hk]; [auto|]. right. apply (He x k); [left; reflexivity|exact Hk].
        - eapply Ha; eauto. }
      assert (G : forall acc, (forall d, In d acc -> forall k, In k (map fst d) -> In k ("outputs" :: plot_variables)) ->
        forall d, In d (fold_left (fun acc f => fst (folder_points (start f) (snd f) acc)) fs acc) -> forall k, In k (map fst d) -> In k ("outputs" :: plot_variables)).
      { revert H. induction fs as [|f fs IH]; intros H acc Ha; cbn [fold_left]; [exact Ha|].
        apply IH; [intros; eapply H; [right; eassumption|eassumption|assumption]|].
        apply Fd; [intros x k; apply (H f x k); left; reflexivity| |exact Ha]. cbn. intros k [<-|[]]; auto. }
      apply G. intros d []. }
    pose proof (P d Hd k Hk) as I. apply memb_In.
    assert (C : forallb (fun k => memb k figure_keys) ("outputs" :: plot_variables) = true) by reflexivity.
    rewrite forallb_forall in C. apply C. exact I.
  Qed.
End Keys.
Print Assumptions C179_keys_exported.

(** "The data are written in the format asked for" is false of the three other
    formats the command accepts: dat always fails, txt writes no data and
    succeeds, and csv fails as soon as two variables have lists of different
    lengths (every figure without groups: an empty list, plot.py 1451). *)
Theorem C179_other_formats_refuted : forall path s d fs,
  (forall k, In k (map fst d) -> In k figure_keys) ->
  (exists e, write_figure_data "dat" path s d fs = Raise e) /\
  write_figure_data "txt" path s d fs = Ok (aset (path ++ "_settings.json")%string (CSettings s) fs) /\
  (forall k k' l l', In k figure_keys -> In k' figure_keys -> aget k d = Some (PList l) -> aget k' d = Some (PList l') ->
     List.length l <> List.length l' -> write_figure_data "csv" path s d fs = Raise EValue).
Proof.
  intros path s d fs Hk.
  assert (F : forallb (fun kv => memb (fst kv) figure_keys) d = true).
  { apply forallb_forall. intros [k v] Hin. apply memb_In. apply Hk. apply (in_map fst) in Hin. exact Hin. }
  unfold write_figure_data, write_data. rewrite F. cbn [negb]. split; [|split].
  - change (String.eqb "dat" "dat") with true. cbv iota. destruct (aget "x" d); eexists; reflexivity.
  - reflexivity.
  - intros k k' l l' H1 H2 G1 G2 Hl. change (String.eqb "csv" "dat") with false. change (String.eqb "csv" "json") with false.
    change (String.eqb "csv" "csv") with true. cbv iota.
    assert (D : data_frame (map (fun k => (k, get k d)) figure_keys) = Raise EValue); [|rewrite D; reflexivity].
    unfold data_frame. set (cols := filter _ _).
    assert (M : forall k l, In k figure_keys -> aget k d = Some (PList l) -> In (k, PList l) cols).
    { intros k0 l0 Hin G. unfold cols. apply filter_In. split; [|reflexivity]. apply in_map_iff. exists k0. unfold get. rewrite G. auto. }
    pose proof (M k l H1 G1) as I1. pose proof (M k' l' H2 G2) as I2. clearbody cols. destruct cols as [|c r]; [reflexivity|].
    destruct (forallb _ r) eqn:Fb; [|reflexivity]. exfalso. rewrite forallb_forall in Fb.
    assert (L : forall k l, In (k, PList l) (c :: r) -> List.length l = list_length (snd c)).
    { intros k0 l0 [-> |Hin]; [reflexivity|]. apply Fb in Hin. apply Nat.eqb_eq in Hin. exact Hin. }
    apply Hl. rewrite (L _ _ I1), (L _ _ I2). reflexivity.
Qed.
Print Assumptions C179_other_formats_refuted.

(** csv has all of the figure if every variable that is a list has as many
    values; nothing else changes but the settings. *)
Theorem C179_csv_partial : forall path s d fs n k0 l0,
  (forall k, In k (map fst d) -> In k figure_keys) ->
  In (k0, PList l0) d -> aget k0 d = Some (PList l0) ->
  (forall k l, aget k d = Some (PList l) -> List.length l = n) ->
  exists fs' t, write_figure_data "csv" path s d fs = Ok fs' /\ aget (path ++ "_data.csv")%string fs' = Some (CTable t) /\
    (forall k v, aget k d = Some v -> aget k t = Some v) /\
    aget (path ++ "_settings.json")%string fs' = Some (CSettings s) /\
    (forall f, f <> (path ++ "_data.csv")%string -> f <> (path ++ "_settings.json")%string -> aget f fs' = aget f fs).
Proof.
  intros path s d fs n k0 l0 Hk Hin0 Hg0 Hn.
  assert (F : forallb (fun kv => memb (fst kv) figure_keys) d = true).
  { apply forallb_forall. intros [k v] Hin. apply memb_In. apply Hk. apply (in_map fst) in Hin. exact Hin. }
  assert (D : data_frame (map (fun k => (k, get k d)) figure_keys) = Ok (map (fun k => (k, get k d)) figure_keys)).
  { unfold data_frame. 
    assert (L : forall c, In c (filter (fun c => is_list (snd c)) (map (fun k => (k, get k d)) figure_keys)) -> list_length (snd c) = n).
    { intros c Hc. apply filter_In in Hc as [Hc Hl]. apply in_map_iff in Hc as (k & <- & Hin). cbn [snd] in *. unfold get in *.
      destruct (aget k d) as [v|] eqn:G; [|discriminate]. destruct v; try discriminate. cbn. eapply Hn; eauto. }
    assert (I : In (k0, PList l0) (filter (fun c => is_list (snd c)) (map (fun k => (k, get k d)) figure_keys))).
    { apply filter_In. split; [|reflexivity]. apply in_map_iff. exists k0. unfold get. rewrite Hg0. split; [reflexivity|].
      apply Hk. apply (in_map fst) in Hin0. exact Hin0. }
    destruct (filter _ _) as [|c r]; [destruct I|]. destruct (forallb _ r) eqn:Fb; [reflexivity|].
    assert (Fb' : forallb (fun c' => list_length (snd c') =? list_length (snd c)) r = true).
    { apply forallb_forall. intros c' Hc'. apply Nat.eqb_eq. rewrite !L; cbn; auto. }
    congruence. }
  assert (A : (path ++ "_data.csv")%string <> (path ++ "_settings.json")%string) by (intros F'; apply sapp_inj in F'; discriminate).
  do 2 eexists. split; [|split; [|split; [|split]]].
  - unfold write_figure_data, write_data. rewrite F. cbn [negb].
    change (String.eqb "csv" "dat") with false. change (String.eqb "csv" "json") with false. change (String.eqb "csv" "csv") with true. cbv iota.
    rewrite D. cbn [rbind]. reflexivity.
  - rewrite aget_aset_other by exact A. apply aget_aset_same.
  - intros k v Hv. assert (I : In k figure_keys) by (apply Hk; apply aget_In in Hv; apply (in_map fst) in Hv; exact Hv).
    assert (E : aget k (map (fun k => (k, get k d)) figure_keys) = Some (get k d)).
    { cbn [figure_keys In] in I. decompose [or] I; subst; try reflexivity; contradiction. }
    rewrite E. unfold get. rewrite Hv. reflexivity.
  - apply aget_aset_same.
  - intros f H1 H2. rewrite !aget_aset_other by assumption. reflexivity.
Qed.
Print Assumptions C179_csv_partial.

(** A figure without points cannot be exported at all. *)
Theorem C179_no_points_refuted : forall path s fs, write_figure_data "json" path s [] fs = Raise EAttr.
Proof. reflexivity. Qed.
Print Assumptions C179_no_points_refuted.

Example C179_nonvacuous :
  (forall k, In k (map fst (demo_points 1)) -> In k figure_keys) /\
  (exists fs, write_figure_data "json" "f" [] (demo_points 1) [] = Ok fs /\ map fst fs = ["f_data.json"; "f_settings.json"]) /\
  write_figure_data "txt" "f" [] (demo_points 1) [] = Ok [("f_settings.json", CSettings [])] /\
  write_figure_data "dat" "f" [] (demo_points 1) [] = Raise EType.
Proof.
  split.
  - intros k Hk. apply memb_In. cbn in Hk. decompose [or] Hk; subst; try reflexivity; contradiction.
  - split; [eexists; split; [vm_compute; reflexivity|reflexivity]|]. split; reflexivity.
Qed.

(** * C180: redrawing from exported data *)

(** What one directory with one exported file gives back: the figure's values
    wherever it had one, null where it had none, written into that directory.
    Hence every point has the same features, of those the figure had. *)
Theorem C180_single_file_partial : forall load by_experiment path s d c fs fs' e dir o,
  (forall k, In k (map fst d) -> In k figure_keys) -> aget "outputs" d = Some (PObj c) ->
  write_figure_data "json" path s d fs = Ok fs' ->
  aget (path ++ "_data.json")%string fs' = Some e ->
  load (PDict c) = Ok o ->
  exists d', redraw load by_experiment [(dir, [e])] = Ok (dir, d') /\
    aget "outputs" d' = Some o /\
    (forall k v, k <> "outputs" -> aget k d = Some v -> aget k d' = Some v) /\
    (forall f default i v, f <> "outputs" -> aget f d = Some v -> feature f default d' i = feature f default d i) /\
    (forall f default i, f <> "outputs" -> In f figure_keys -> aget f d = None -> feature f default d' i = Ok PNull).
Proof.
  intros load by_experiment path s d c fs fs' e dir o Hk Ho W He L.
  destruct (C179_json_partial path s d c fs Hk Ho) as (f2 & W2 & (e2 & R & O2 & V & N) & _).
  rewrite W in W2. injection W2 as <-. rewrite He in R. injection R as ->.
  assert (E : redraw load by_experiment [(dir, [CData e2])] = Ok (dir, aset "outputs" o e2)).
  { unfold redraw. cbn [flat_map snd app read_all read_one map fst]. rewrite O2. rewrite L. reflexivity. }
  exists (aset "outputs" o e2). split; [exact E|]. split; [apply aget_aset_same|]. split; [|split].
  - intros k v Hne Hv. rewrite aget_aset_other by exact Hne. auto.
  - intros f default i v Hne Hv. unfold feature. rewrite aget_aset_other by exact Hne. rewrite (V f v Hne Hv), Hv. reflexivity.
  - intros f default i Hne Hin Hv. unfold feature. rewrite aget_aset_other by exact Hne. rewrite (N f Hne Hin Hv). reflexivity.
Qed.
Print Assumptions C180_single_file_partial.

(** "The figure redrawn is the figure exported" is false without a colour: black
    the first time, no colour afterwards. *)
Theorem C180_colour_refuted : forall load by_experiment path s d c fs fs' e dir o i,
  (forall k, In k (map fst d) -> In k figure_keys) -> aget "outputs" d = Some (PObj c) -> aget "colour" d = None ->
  write_figure_data "json" path s d fs = Ok fs' -> aget (path ++ "_data.json")%string fs' = Some e -> load (PDict c) = Ok o ->
  feature "colour" (PText "black") d i = Ok (PText "black") /\
  exists d', redraw load by_experiment [(dir, [e])] = Ok (dir, d') /\ feature "colour" (PText "black") d' i = Ok PNull.
Proof.
  intros load by_experiment path s d c fs fs' e dir o i Hk Ho Hc W He L. split; [unfold feature; rewrite Hc; reflexivity|].
  destruct (C180_single_file_partial load by_experiment path s d c fs fs' e dir o Hk Ho W He L) as (d' & E & _ & _ & _ & N).
  exists d'. split; [exact E|]. apply N; [discriminate|apply memb_In; reflexivity|exact Hc].
Qed.
Print Assumptions C180_colour_refuted.

(** The same for every feature: what the figure was first drawn with when the
    setting is missing, and null when redrawn. *)
Theorem C180_defaults_refuted : forall load by_experiment path s d c fs fs' e dir o i,
  (forall k, In k (map fst d) -> In k figure_keys) -> aget "outputs" d = Some (PObj c) ->
  write_figure_data "json" path s d fs = Ok fs' -> aget (path ++ "_data.json")%string fs' = Some e -> load (PDict c) = Ok o ->
  exists d', redraw load by_experiment [(dir, [e])] = Ok (dir, d') /\
  forall f first, In (f, first) [("colour", "black"); ("label", ""); ("marker", "o"); ("line_style", "-"); ("annotate", ""); ("hatch", "")] ->
  aget f d = None ->
  exists default, aget f feature_defaults = Some default /\
    feature f default d i = Ok (PText first) /\ feature f default d' i = Ok PNull.
Proof.
  intros load by_experiment path s d c fs fs' e dir o i Hk Ho W He L.
  destruct (C180_single_file_partial load by_experiment path s d c fs fs' e dir o Hk Ho W He L) as (d' & E & _ & _ & _ & N).
  exists d'. split; [exact E|]. intros f first Hf Hc.
  assert (G : f <> "outputs" /\ In f figure_keys /\ exists default, aget f feature_defaults = Some default /\ (default = PText first \/ default = PList [PText first])).
  { cbn [In] in Hf. decompose [or] Hf; try contradiction; match goal with H : (_, _) = (_, _) |- _ => injection H as <- <- end;
    (split; [discriminate|]; split; [apply memb_In; reflexivity|]; eexists; split; [reflexivity|auto]). }
  destruct G as (G1 & G2 & default & G3 & G4). exists default. split; [exact G3|]. split; [|apply N; assumption].
  unfold feature. rewrite Hc. destruct G4 as [-> | ->]; reflexivity.
Qed.
Print Assumptions C180_defaults_refuted.

(** Which value a point gets: a single value or a list of one is every point's, a
    longer list has one value for each point and fails beyond. *)
Theorem C180_feature_of_point : forall f default d i,
  (forall t, aget f d = Some (PText t) \/ aget f d = Some (PList [PText t]) -> feature f default d i = Ok (PText t)) /\
  (forall l, aget f d = Some (PList l) -> 2 <= List.length l ->
     (forall v, nth_error l i = Some v -> feature f default d i = Ok v) /\ (List.length l <= i -> feature f default d i = Raise EIndex)).
Proof.
  intros f default d i. split.
  - intros t [H|H]; unfold feature; rewrite H; reflexivity.
  - intros l H Hl. unfold feature. rewrite H. destruct l as [|x [|y l]]; cbn [List.length] in Hl; try lia. split.
    + intros v Hv. rewrite Hv. reflexivity.
    + intros Hi. rewrite (proj2 (nth_error_None _ _)); [reflexivity|exact Hi].
Qed.
Print Assumptions C180_feature_of_point.

(** Several directories can never be redrawn; of several files in a directory only
    the first with outputs (in the order of the file system) is drawn; none at
    all is an index error. *)
Theorem C180_several_refuted : forall load by_experiment,
  (forall d1 d2 ds, exists e, redraw load by_experiment (d1 :: d2 :: ds) = Raise e) /\
  (forall dir c cs out, redraw load by_experiment [(dir, c :: cs)] = Ok out ->
     read_one load c <> Ok None -> redraw load by_experiment [(dir, [c])] = Ok out) /\
  (forall dir, redraw load by_experiment [(dir, [])] = Raise EIndex) /\
  (forall dir e cs, aget "outputs" e = None -> redraw load by_experiment [(dir, CData e :: cs)] = redraw load by_experiment [(dir, cs)]).
Proof.
  intros load by_experiment. split; [|split; [|split]].
  - intros [d1 c1] [d2 c2] ds. unfold redraw. destruct (read_all load _); cbn [rbind]; [|eexists; reflexivity].
    cbn [map fst plot_directory rbind]. eexists; reflexivity.
  - intros dir c cs out H Hc. unfold redraw in *. cbn [flat_map snd app map fst plot_directory] in *. rewrite app_nil_r in H.
    cbn [read_all] in *. destruct (read_one load c) as [[d|]|x]; cbn [rbind] in *; [|congruence|discriminate].
    destruct (read_all load cs); cbn [rbind] in *; [exact H|discriminate].
  - reflexivity.
  - intros dir e cs He. unfold redraw. cbn [flat_map snd app map fst read_all read_one]. rewrite He. cbn [rbind].
    destruct (read_all load (cs ++ [])); reflexivity.
Qed.
Print Assumptions C180_several_refuted.

Example C180_nonvacuous :
  let load := fun c => match c with PDict l => Ok (PObj l) | _ => Raise EExn end in
  exists fs e d', write_figure_data "json" "f" [] (demo_points 1) [] = Ok fs /\ aget "f_data.json" fs = Some e /\
  redraw load false [(["d"], [e])] = Ok (["d"], d') /\ get "x" d' = PList [PList [PNum 1]] /\ get "outputs" d' = PObj [("N", PNum 10)] /\
  feature "marker" (PList [PText "o"]) d' 0 = Ok (PText ".") /\ feature "colour" (PText "black") d' 0 = Ok PNull.
Proof. do 3 eexists. split; [vm_compute; reflexivity|]. split; [vm_compute; reflexivity|]. split; [vm_compute; reflexivity|]. repeat split. Qed.

(** Further cases of the statements above. *)
Example C178_names_nonvacuous :
  (no_comma "100" /\ no_comma "1" /\ plot_filename [("iter", ("100", "1", "2"))] [] <> plot_filename [("iter", ("100", "1", "3"))] []) /\
  plot_filename [] [("figure_title", SText "t"); ("hatch", SText "x")] = "t_hatch_x" /\
  plot_filename [] [("figure_title", SText "t"); ("hatch_opacity", SText "x")] = "t_hatchopacity_x" /\
  plot_filename [] [("figure_title", SText "t"); ("label", STexts ["a"; "b"])] = "t_label_a&b" /\
  plot_directory [] true (Some demo_source) = Ok ["out"; "cambridge"; "exp1"; "figures"] /\
  plot_directory [] false (Some demo_source) = Ok ["out"; "cambridge"; "paper_figures"].
Proof.
  split; [|repeat split].
  split; [intros H; cbn in H; decompose [or] H; try discriminate; contradiction|].
  split; [intros H; cbn in H; decompose [or] H; try discriminate; contradiction|]. vm_compute. discriminate.
Qed.
Example C179_csv_nonvacuous :
  exists fs t, write_figure_data "csv" "f" [] (demo_points 1) [] = Ok fs /\ aget "f_data.csv" fs = Some (CTable t) /\
    aget "x" t = Some (PList [PList [PNum 1]]).
Proof. do 2 eexists. split; [vm_compute; reflexivity|]. split; vm_compute; reflexivity. Qed.
