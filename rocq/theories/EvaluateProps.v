(** EvaluateProps: C166-C169. *)
From Coq Require Import List String Bool Arith Lia.
From Verif Require Import Base PyMonad Recorder Inputs InputsProps StartUpHyper Evaluate.
Import ListNotations.
Open Scope string_scope.
Open Scope nat_scope.
Open Scope list_scope.

(** * Specification *)

(** The names an expression looks up where it stands: not those inside a
    lambda. *)
Fixpoint mentions {V} (e : expr V) (x : string) : Prop :=
  match e with
  | EName y => x = y
  | EConst _ => False
  | EUn _ a => mentions a x
  | EBin _ a b => mentions a x \/ mentions b x
  | EEach _ src _ => mentions src x
  end.

Section Spec.
Context {V : Type}.
Variable is_none : V -> bool.
Variable builtins : string -> option V.
Variable prim1 : string -> V -> option V.
Variable prim2 : string -> V -> V -> option V.
Variable items : V -> option (list V).
Variable collect : list V -> V.
Variable known : string -> bool.
Variable get : string -> sample V.
Variable wants builds : expr V -> bool.
Notation dict := (list (string * V)).
Notation "'kwargs'" := (keyword_args is_none builtins prim1 prim2 items collect known get wants builds).
Notation "'value'" := (ev builtins prim1 prim2 items collect).
Notation "'kws'" := (keywords is_none builtins prim1 prim2 items collect wants builds).
Notation "'mets'" := (metrics builtins prim1 prim2 items collect).
Notation "'tryv'" := (try builtins prim1 prim2 items collect).

Lemma orelse_ext : forall (a b b' : option V), (a = None -> b = b') -> orelse a b = orelse a b'.
Proof. intros [v|] b b' H; cbn; auto. Qed.

Lemma all_of_ext : forall (f g : V -> option V) l, (forall v, f v = g v) -> all_of (map f l) = all_of (map g l).
Proof. intros f g l H; induction l as [|v r IH]; cbn; auto. rewrite H, IH; auto. Qed.

Lemma ev_locs : forall e bound locs locs' globs,
  (forall x, mentions e x -> aget x locs = aget x locs') -> value bound locs globs e = value bound locs' globs e.
Proof.
  induction e as [x|v|f a IHa|f a IHa b IHb|x src IHs body IHb]; intros bound locs locs' globs H; cbn [ev] in *.
  - rewrite (H x eq_refl); auto.
  - auto.
  - rewrite (IHa bound locs locs'); auto.
  - rewrite (IHa bound locs locs'), (IHb bound locs locs'); auto; intros y Hy; apply H; cbn; auto.
  - rewrite (IHs bound locs locs'); auto.
Qed.

Lemma aget_app : forall (k : string) (a b : dict), aget k (a ++ b) = orelse (aget k a) (aget k b).
Proof. intros k a b; induction a as [|[k' v] r IH]; cbn; auto. destruct (String.eqb k k'); auto. Qed.
Lemma aget_over : forall (k : string) (a b : dict), aget k (over a b) = orelse (aget k b) (aget k a).
Proof. intros; unfold over; apply aget_app. Qed.

Lemma try_locs : forall folder locs locs' globs e,
  (forall x, mentions e x -> aget x locs = aget x locs') -> tryv folder locs globs e = tryv folder locs' globs e.
Proof.
  intros [f|] locs locs' globs e H; cbn; auto. apply ev_locs. intros x Hx. rewrite !aget_over, (H x Hx); auto.
Qed.

(** * C166 *)

Lemma keywords_app : forall folder globs a b acc,
  kws folder globs (a ++ b) acc = match kws folder globs a acc with
    | Running acc' => kws folder globs b acc' | Exits => Exits | Raises => Raises end.
Proof.
  intros folder globs a b; induction a as [|[k e] r IH]; intro acc; cbn [app keywords]; auto.
  destruct (wants e && negb (builds e)); auto.
  destruct (undefined is_none k acc); auto.
  destruct (tryv folder acc globs e); auto.
Qed.

Definition defined (acc : dict) : Prop := forall k v, aget k acc = Some v -> is_none v = false.

Lemma undefined_spec : forall k (acc : dict), defined acc -> undefined is_none k acc = match aget k acc with Some _ => false | None => true end.
Proof. intros k acc H; unfold undefined. destruct (aget k acc) as [v|] eqn:E; auto. apply (H _ _ E). Qed.

Lemma defined_aset : forall k v acc, defined acc -> is_none v = false -> defined (aset k v acc).
Proof.
  intros k v acc H Hv k' v' E. destruct (String.eqb k' k) eqn:K.
  - apply String.eqb_eq in K; subst. rewrite aget_aset_same in E. congruence.
  - rewrite aget_aset_other in E. + apply (H _ _ E). + apply String.eqb_neq in K; auto.
Qed.

(** What one keyword loop leaves: nothing defined changes, and a name is
    defined by the first of its definitions that gives a value, under what was
    defined by then. *)
Lemma keywords_run : forall folder globs defs acc env, defined acc ->
  kws folder globs defs acc = Running env ->
  defined env /\
  (forall k v, aget k acc = Some v -> aget k env = Some v) /\
  (forall k v, aget k env = Some v <->
     aget k acc = Some v \/
     exists pre e post env0, defs = pre ++ (k, e) :: post /\ kws folder globs pre acc = Running env0 /\
       aget k env0 = None /\ tryv folder env0 globs e = Some v /\ is_none v = false).
Proof.
  intros folder globs defs; induction defs as [|[k e] r IH]; intros acc env D H; cbn [keywords] in H.
  - inversion H; subst env. split; auto. split; auto. intros k v; split; auto.
    intros [E|(pre & e & post & env0 & E & _)]; auto. destruct pre; discriminate.
  - destruct (wants e && negb (builds e)) eqn:W; [discriminate|].
    rewrite undefined_spec in H by auto.
    assert (Step : exists acc1, kws folder globs [(k, e)] acc = Running acc1 /\ kws folder globs r acc1 = Running env /\
        defined acc1 /\ (forall k' v', aget k' acc = Some v' -> aget k' acc1 = Some v') /\
        (forall k' v', aget k' acc1 = Some v' -> aget k' acc = Some v' \/
            k' = k /\ aget k acc = None /\ tryv folder acc globs e = Some v' /\ is_none v' = false) /\
        (forall v', aget k acc = None -> tryv folder acc globs e = Some v' -> is_none v' = false -> aget k acc1 = Some v')).
    { cbn [keywords]. rewrite W, undefined_spec by auto.
      destruct (aget k acc) as [w|] eqn:E.
      - exists acc. repeat split; auto. discriminate.
      - destruct (tryv folder acc globs e) as [v|] eqn:T.
        + destruct (is_none v) eqn:N.
          * exists acc. repeat split; auto. intros v' _ X Y; congruence.
          * exists (aset k v acc). repeat split; auto.
            -- apply defined_aset; auto.
            -- intros k' v' X. rewrite aget_aset_other; auto. intro; subst; congruence.
            -- intros k' v' X. destruct (String.eqb k' k) eqn:K.
               ++ apply String.eqb_eq in K; subst. rewrite aget_aset_same in X. inversion X; subst. auto.
               ++ apply String.eqb_neq in K. rewrite aget_aset_other in X; auto.
            -- intros v' _ X Y. inversion X; subst. apply aget_aset_same.
        + exists acc. repeat split; auto. discriminate. }
    clear H. destruct Step as (acc1 & S1 & S2 & D1 & K1 & B1 & F1).
    destruct (IH acc1 env D1 S2) as (D2 & K2 & B2). split; [auto|]. split; [auto|].
    intros k' v'; split.
    + intro H. apply B2 in H. destruct H as [H|(pre & e' & post & env0 & E & R & N & T & V')].
      * apply B1 in H. destruct H as [H|(-> & H1 & H2 & H3)]; auto.
        right. exists [], e, r, acc. repeat split; auto.
      * right. exists ((k, e) :: pre), e', post, env0. repeat split; auto; [subst; auto|].
        change ((k, e) :: pre) with ([(k, e)] ++ pre). rewrite keywords_app, S1. auto.
    + intros [H|(pre & e' & post & env0 & E & R & N & T & V')]; auto.
      destruct pre as [|[k0 e0] pre]; cbn [app] in E; inversion E; subst.
      * cbn in R. inversion R; subst env0. apply K2. apply F1; auto.
      * apply B2. right. change ((k0, e0) :: pre) with ([(k0, e0)] ++ pre) in R. rewrite keywords_app, S1 in R.
        exists pre, e', post, env0. repeat split; auto.
Qed.

Lemma gather_run : forall keys acc env, gather get keys acc = Running env ->
  (forall k v, aget k env = Some v <-> (In k keys /\ get k = Got v) \/ (aget k acc = Some v /\ (In k keys -> get k = Skipped))) /\
  (forall k, In k keys -> get k <> Fatal).
Proof.
  induction keys as [|k0 r IH]; intros acc env H; cbn [gather] in H.
  - inversion H; subst. split; [|intros k []]. intros k v; split; [intro; right; split; auto; intros []|intros [([] & _)|(E & _)]; auto].
  - destruct (get k0) as [w| |] eqn:G; try discriminate.
    + destruct (IH _ _ H) as (A & B). split.
      * intros k v. rewrite A. cbn [In]. destruct (String.eqb k k0) eqn:K.
        -- apply String.eqb_eq in K; subst k. rewrite aget_aset_same. split.
           ++ intros [(I1 & E)|(E & _)]; left; split; auto. congruence.
           ++ intros [(_ & E)|(_ & E)]; [|rewrite E in G by auto; discriminate].
              destruct (in_dec string_dec k0 r) as [I1|I1]; [left; auto|right; split; [congruence|intro; contradiction]].
        -- apply String.eqb_neq in K. rewrite aget_aset_other by auto. split.
           ++ intros [(I1 & E)|(E & X)]; [left; auto|right; split; auto; intros [Y|Y]; [congruence|auto]].
           ++ intros [([Y|Y] & E)|(E & X)]; [congruence|left; auto|right; auto].
      * intros k [E|I1]; [subst; congruence|auto].
    + destruct (IH _ _ H) as (A & B). split.
      * intros k v. rewrite A. cbn [In]. split.
        -- intros [(I1 & E)|(E & X)]; [left; auto|right; split; auto; intros [Y|Y]; [congruence|auto]].
        -- intros [([Y|Y] & E)|(E & X)]; [congruence|left; auto|right; auto].
      * intros k [E|I1]; [subst; congruence|auto].
Qed.

(** [get_sample] never gives None. *)
Definition proper : Prop := forall k v, get k = Got v -> is_none v = false.

Lemma raw_keys_In : forall (defs : list (string * expr V)) k, In k (raw_keys known defs) <-> known k = true /\ In k (map fst defs).
Proof. intros. unfold raw_keys. rewrite filter_In. tauto. Qed.

Lemma keyword_defs_In : forall (defs : list (string * expr V)) k e, In (k, e) (keyword_defs known defs) <-> In (k, e) defs /\ known k = false.
Proof.
  intros. unfold keyword_defs. rewrite filter_In. cbn [fst]. rewrite negb_true_iff. split; intros [A B]; split; auto.
  - destruct (known k) eqn:K; auto. apply memb_false in B. exfalso; apply B. apply raw_keys_In. split; auto.
    apply (in_map fst) in A; auto.
  - apply memb_false. rewrite raw_keys_In. intros [C _]; congruence.
Qed.

(** The definitions of keywords, in order. *)
Lemma keyword_defs_filter : forall (defs : list (string * expr V)), keyword_defs known defs = filter (fun d => negb (known (fst d))) defs.
Proof.
  intro defs. unfold keyword_defs. apply filter_ext_in. intros [k e] H. cbn [fst]. f_equal.
  destruct (known k) eqn:K.
  - apply memb_In. apply raw_keys_In; split; auto. apply (in_map fst) in H; auto.
  - apply memb_false. rewrite raw_keys_In. intros [A _]; congruence.
Qed.

(** C166: after the command has gathered its arguments, a name stands for
    - a sample of that name, if the name is that of a sample, asked for and
      available, or
    - the value of the first of its expressions (in the order given) that gives
      one, evaluated with what the definitions before it stand for, and the
      arguments of the folder. *)
Theorem C166_keyword_values : forall s index defs env, proper ->
  kwargs s index defs = Running env ->
  exists samples, gather get (raw_keys known defs) [] = Running samples /\
  (forall k v, aget k samples = Some v <-> known k = true /\ In k (map fst defs) /\ get k = Got v) /\
  (forall k v, aget k env = Some v <->
     (known k = true /\ In k (map fst defs) /\ get k = Got v) \/
     (known k = false /\ exists pre e post env0,
        filter (fun d => negb (known (fst d))) defs = pre ++ (k, e) :: post /\
        kws (folder_at s index) (keyword_globals s) pre samples = Running env0 /\
        aget k env0 = None /\ tryv (folder_at s index) env0 (keyword_globals s) e = Some v /\ is_none v = false)).
Proof.
  intros s index defs env P H. unfold keyword_args in H.
  destruct (gather get (raw_keys known defs) []) as [acc| |] eqn:G; try discriminate.
  destruct (gather_run _ _ _ G) as (A & _). rewrite keyword_defs_filter in H.
  assert (A' : forall k v, aget k acc = Some v <-> known k = true /\ In k (map fst defs) /\ get k = Got v).
  { intros k v. rewrite A, raw_keys_In. cbn. split; [intros [(X & Y)|(X & _)]; [tauto|discriminate]|intros (X & Y & Z); left; auto]. }
  assert (D : defined acc) by (intros k v E; apply A' in E; apply (P k v); tauto).
  exists acc. split; auto. split; auto.
  destruct (keywords_run _ _ _ _ _ D H) as (_ & _ & B).
  intros k v. rewrite B, A'. split; (intros [X|X]; [left; auto|right]).
  - destruct X as (pre & e & post & env0 & E & R & N & T & W).
    assert (I1 : In (k, e) (filter (fun d => negb (known (fst d))) defs)) by (rewrite E, in_app_iff; cbn; auto).
    apply filter_In in I1. destruct I1 as [_ I1]. cbn [fst] in I1. rewrite negb_true_iff in I1.
    split; auto. exists pre, e, post, env0; auto.
  - destruct X as (_ & pre & e & post & env0 & X). exists pre, e, post, env0; auto.
Qed.
Print Assumptions C166_keyword_values.

(** What a name stands for does not change once it is defined: later
    definitions see the values of the earlier ones. *)
Theorem C166_kept : forall folder globs pre post acc env0 env, defined acc ->
  kws folder globs pre acc = Running env0 -> kws folder globs (pre ++ post) acc = Running env ->
  forall k v, aget k env0 = Some v -> aget k env = Some v.
Proof.
  intros folder globs pre post acc env0 env D H0 H k v E.
  rewrite keywords_app, H0 in H.
  destruct (keywords_run _ _ _ _ _ D H0) as (D0 & _ & _).
  destruct (keywords_run _ _ _ _ _ D0 H) as (_ & K & _). auto.
Qed.
Print Assumptions C166_kept.

(** Removing a definition that no other expression mentions changes no other
    name. *)
Definition agree (j : string) (a b : dict) : Prop := forall k, k <> j -> aget k a = aget k b.

Lemma agree_aset : forall j k v a b, agree j a b -> agree j (aset k v a) (aset k v b).
Proof.
  intros j k v a b H x Hx. destruct (String.eqb x k) eqn:K.
  - apply String.eqb_eq in K; subst. rewrite !aget_aset_same; auto.
  - apply String.eqb_neq in K. rewrite !aget_aset_other; auto.
Qed.

Lemma keywords_agree : forall folder globs j defs a b env,
  (forall k e, In (k, e) defs -> ~ mentions e j) -> (forall k e, In (k, e) defs -> k <> j) -> agree j a b ->
  kws folder globs defs a = Running env ->
  exists env', kws folder globs defs b = Running env' /\ agree j env env'.
Proof.
  intros folder globs j defs; induction defs as [|[k e] r IH]; intros a b env M K A H; cbn [keywords] in *.
  - inversion H; subst. exists b; auto.
  - destruct (wants e && negb (builds e)); [discriminate|].
    assert (Kj : k <> j) by (apply (K k e); left; auto).
    assert (U : undefined is_none k a = undefined is_none k b) by (unfold undefined; rewrite (A k Kj); auto).
    assert (T : tryv folder a globs e = tryv folder b globs e).
    { apply try_locs. intros x Hx. apply A. intro; subst. apply (M k e); auto. left; auto. }
    rewrite <- U, <- T.
    assert (M' : forall k' e', In (k', e') r -> ~ mentions e' j) by (intros; apply (M k' e'); right; auto).
    assert (K' : forall k' e', In (k', e') r -> k' <> j) by (intros; apply (K k' e'); right; auto).
    destruct (undefined is_none k a); [|eapply IH; eauto].
    destruct (tryv folder a globs e) as [v|]; [|eapply IH; eauto].
    destruct (is_none v); [eapply IH; eauto|]. eapply IH; eauto. apply agree_aset; auto.
Qed.

Theorem C166_independent : forall s index pre post j e env, known j = false ->
  (forall k e', In (k, e') (pre ++ post) -> ~ mentions e' j) -> (forall k e', In (k, e') (pre ++ post) -> k <> j) ->
  kwargs s index (pre ++ (j, e) :: post) = Running env ->
  exists env', kwargs s index (pre ++ post) = Running env' /\ forall k, k <> j -> aget k env = aget k env'.
Proof.
  intros s index pre post j e env Kn M K H. unfold keyword_args in *.
  assert (R : raw_keys known (pre ++ (j, e) :: post) = raw_keys known (pre ++ post)).
  { unfold raw_keys. rewrite !map_app, !filter_app. cbn [map fst filter]. rewrite Kn; auto. }
  rewrite R in H. destruct (gather get (raw_keys known (pre ++ post)) []) as [acc| |]; try discriminate.
  rewrite keyword_defs_filter in *. rewrite filter_app in *. cbn [filter fst] in H. rewrite Kn in H. cbn [negb] in H.
  set (P := filter _ pre) in *. set (Q := filter _ post) in *. rewrite keywords_app in *.
  destruct (kws (folder_at s index) (keyword_globals s) P acc) as [env0| |] eqn:E0; try discriminate.
  cbn [keywords] in H. destruct (wants e && negb (builds e)); [discriminate|].
  assert (MQ : forall k e', In (k, e') Q -> ~ mentions e' j).
  { intros k e' I1. apply filter_In in I1. apply (M k e'). apply in_or_app; tauto. }
  assert (KQ : forall k e', In (k, e') Q -> k <> j).
  { intros k e' I1. apply filter_In in I1. apply (K k e'). apply in_or_app; tauto. }
  destruct (undefined is_none j env0); [|exists env; auto].
  destruct (tryv _ env0 _ e) as [v|]; [|exists env; auto].
  destruct (is_none v); [exists env; auto|].
  eapply keywords_agree; eauto. intros k Hk. apply aget_aset_other; auto.
Qed.
Print Assumptions C166_independent.

(** The same for the metrics: a metric has the value of the first of its
    expressions that gives one, with the metrics before it. *)
Lemma metrics_app : forall folder kw globs a b acc,
  mets folder kw globs (a ++ b) acc = mets folder kw globs b (mets folder kw globs a acc).
Proof.
  intros folder kw globs a b; induction a as [|[n e] r IH]; intro acc; cbn [app metrics]; auto.
  destruct (aget n acc); auto. destruct (tryv folder (over kw acc) globs e); auto.
Qed.

Lemma metrics_run : forall folder kw globs todo acc,
  (forall k v, aget k acc = Some v -> aget k (mets folder kw globs todo acc) = Some v) /\
  (forall k v, aget k (mets folder kw globs todo acc) = Some v <->
     aget k acc = Some v \/
     exists pre e post, todo = pre ++ (k, e) :: post /\ aget k (mets folder kw globs pre acc) = None /\
       tryv folder (over kw (mets folder kw globs pre acc)) globs e = Some v).
Proof.
  intros folder kw globs todo; induction todo as [|[n e] r IH]; intro acc; cbn [metrics].
  - split; auto. intros k v; split; auto. intros [E|(pre & e & post & E & _)]; auto. destruct pre; discriminate.
  - assert (Step : exists acc1, mets folder kw globs [(n, e)] acc = acc1 /\
        (forall k v, aget k acc = Some v -> aget k acc1 = Some v) /\
        (forall k v, aget k acc1 = Some v -> aget k acc = Some v \/
            k = n /\ aget n acc = None /\ tryv folder (over kw acc) globs e = Some v) /\
        (forall v, aget n acc = None -> tryv folder (over kw acc) globs e = Some v -> aget n acc1 = Some v) /\
        match aget n acc with
        | Some _ => mets folder kw globs r acc
        | None => match tryv folder (over kw acc) globs e with
            | Some v => mets folder kw globs r (aset n v acc) | None => mets folder kw globs r acc end
        end = mets folder kw globs r acc1).
    { cbn [metrics]. destruct (aget n acc) as [w|] eqn:E; [exists acc; repeat split; auto; discriminate|].
      destruct (tryv folder (over kw acc) globs e) as [v|] eqn:T; [|exists acc; repeat split; auto; discriminate].
      exists (aset n v acc). repeat split; auto.
      - intros k w X. rewrite aget_aset_other; auto. intro; subst; congruence.
      - intros k w X. destruct (String.eqb k n) eqn:K.
        + apply String.eqb_eq in K; subst. rewrite aget_aset_same in X. inversion X; subst; auto.
        + apply String.eqb_neq in K. rewrite aget_aset_other in X; auto.
      - intros w _ X. inversion X; subst. apply aget_aset_same. }
    destruct Step as (acc1 & S1 & K1 & B1 & F1 & ->). destruct (IH acc1) as (K2 & B2).
    assert (Sp : forall pre, mets folder kw globs ((n, e) :: pre) acc = mets folder kw globs pre acc1).
    { intro pre. change ((n, e) :: pre) with ([(n, e)] ++ pre). rewrite metrics_app, S1; auto. }
    split; auto. intros k v; split.
    + intro H. apply B2 in H. destruct H as [H|(pre & e' & post & E & N & T)].
      * apply B1 in H. destruct H as [H|(-> & H1 & H2)]; auto. right. exists [], e, r. auto.
      * right. exists ((n, e) :: pre), e', post. rewrite Sp. subst; auto.
    + intros [H|(pre & e' & post & E & N & T)]; auto.
      destruct pre as [|[k0 e0] pre]; cbn [app] in E; inversion E; subst.
      * cbn [metrics] in N, T. apply K2, F1; auto.
      * rewrite Sp in N, T. apply B2. right. exists pre, e', post; auto.
Qed.

Theorem C166_metric_values : forall s index defs todo out,
  evaluate is_none builtins prim1 prim2 items collect known get wants builds s index defs todo = Running out ->
  exists kw, kwargs s index defs = Running kw /\
  forall n v, aget n out = Some v <->
    exists pre e post, todo = pre ++ (n, e) :: post /\
      let before := mets (folder_at s index) kw (metric_globals s) pre [] in
      aget n before = None /\ tryv (folder_at s index) (over kw before) (metric_globals s) e = Some v.
Proof.
  intros s index defs todo out H. unfold evaluate in H.
  destruct (kwargs s index defs) as [kw| |]; try discriminate. inversion H; subst out. exists kw. split; auto.
  intros n v. destruct (metrics_run (folder_at s index) kw (metric_globals s) todo []) as (_ & B).
  rewrite B. cbn. split; [intros [X|X]; [discriminate|auto]|auto].
Qed.
Print Assumptions C166_metric_values.

(** What a name stands for in an expression: the folder's own argument, then
    the metrics computed before, then the gathered arguments, then the library,
    the dimensions and the inputs. *)
Theorem C166_precedence : forall s index f kw before x,
  (nth_error (folder_kwargs s) index = Some (Some f) \/ List.length (folder_kwargs s) <= index /\ f = []) ->
  tryv (folder_at s index) (over kw before) (metric_globals s) (EName x)
  = orelse (aget x f) (orelse (aget x before) (orelse (aget x kw) (orelse (aget x (library s))
      (orelse (aget x (in_dims s)) (orelse (aget x (in_vars s)) (builtins x)))))) /\
  tryv (folder_at s index) kw (keyword_globals s) (EName x)
  = orelse (aget x f) (orelse (aget x kw) (orelse (aget x (library s))
      (orelse (if String.eqb x "outputs" then Some (out_self s) else None)
      (orelse (aget x (out_vars s)) (orelse (aget x (in_dims s)) (orelse (aget x (in_vars s)) (builtins x))))))).
Proof.
  intros s index f kw before x F0.
  assert (F : folder_at s index = Some f).
  { unfold folder_at. destruct F0 as [F0|(F0 & ->)]; [apply nth_error_nth, F0|apply nth_overflow, F0]. }
  rewrite F. unfold try. cbn [ev]. unfold metric_globals, keyword_globals.
  rewrite !aget_over. cbn [aget orelse].
  split.
  - destruct (aget x f), (aget x before), (aget x kw), (aget x (library s)), (aget x (in_dims s)), (aget x (in_vars s)); auto.
  - destruct (aget x f), (aget x kw), (aget x (library s)), (String.eqb x "outputs"), (aget x (out_vars s)), (aget x (in_dims s)), (aget x (in_vars s)); auto.
Qed.
Print Assumptions C166_precedence.

(** * C167 *)

(** An expression for the name of a sample is never evaluated. *)
Theorem C167_sample_expression_ignored : forall s index pre post k e e', known k = true ->
  kwargs s index (pre ++ (k, e) :: post) = kwargs s index (pre ++ (k, e') :: post).
Proof.
  intros s index pre post k e e' K. unfold keyword_args.
  assert (R : raw_keys known (pre ++ (k, e) :: post) = raw_keys known (pre ++ (k, e') :: post)).
  { unfold raw_keys. rewrite !map_app; auto. }
  rewrite R. destruct (gather get _ []); auto.
  rewrite !keyword_defs_filter, !filter_app. cbn [filter fst]. rewrite K; auto.
Qed.
Print Assumptions C167_sample_expression_ignored.

Lemma keywords_other : forall folder globs defs acc env x, ~ In x (map fst defs) ->
  kws folder globs defs acc = Running env -> aget x env = aget x acc.
Proof.
  intros folder globs defs; induction defs as [|[k e] r IH]; intros acc env x N H; cbn [keywords map fst In] in *.
  - inversion H; auto.
  - destruct (wants e && negb (builds e)); [discriminate|].
    assert (Nk : x <> k) by auto. assert (Nr : ~ In x (map fst r)) by auto.
    destruct (undefined is_none k acc); [|eauto].
    destruct (tryv folder acc globs e) as [v|]; [|eauto].
    destruct (is_none v); [eauto|]. rewrite (IH _ _ _ Nr H). apply aget_aset_other; auto.
Qed.

(** Full property: the name of a definition stands for the value of its
    expression.  Holds, as an equation between the values the command ends up
    with, for a name that is not that of a sample, is defined once, and whose
    expression mentions neither itself nor a name defined after it. *)
Theorem C167_equation_partial : forall s index pre post k e env, proper ->
  known k = false -> ~ In k (map fst pre) -> ~ In k (map fst post) ->
  (forall x, mentions e x -> x <> k /\ (In x (map fst post) -> known x = true)) ->
  kwargs s index (pre ++ (k, e) :: post) = Running env ->
  aget k env = match tryv (folder_at s index) env (keyword_globals s) e with
               | Some v => if is_none v then None else Some v
               | None => None
               end.
Proof.
  intros s index pre post k e env P Kn Kp Kq M H. unfold keyword_args in *.
  destruct (gather get (raw_keys known (pre ++ (k, e) :: post)) []) as [acc| |] eqn:G; try discriminate.
  destruct (gather_run _ _ _ G) as (A & _).
  assert (Ak : forall j v, aget j acc = Some v -> known j = true /\ get j = Got v).
  { intros j v E. apply A in E. rewrite raw_keys_In in E. destruct E as [E|(E & _)]; [tauto|discriminate]. }
  assert (D : defined acc) by (intros j v E; apply (P j v), (Ak j v E)).
  rewrite keyword_defs_filter in *. rewrite filter_app in H. cbn [filter fst] in H. rewrite Kn in H. cbn [negb] in H.
  set (P0 := filter _ pre) in *. set (Q := filter _ post) in *. rewrite keywords_app in H.
  destruct (kws (folder_at s index) (keyword_globals s) P0 acc) as [env0| |] eqn:E0; try discriminate.
  assert (NQ : ~ In k (map fst Q)).
  { intro I1. apply in_map_iff in I1. destruct I1 as ([k' e'] & <- & I1). apply filter_In in I1. apply Kq.
    destruct I1 as [I1 _]; apply (in_map fst) in I1; auto. }
  assert (NP : ~ In k (map fst P0)).
  { intro I1. apply in_map_iff in I1. destruct I1 as ([k' e'] & <- & I1). apply filter_In in I1. destruct I1 as [I1 _]. apply Kp.
    apply (in_map fst) in I1; auto. }
  assert (Nk : aget k env0 = None).
  { rewrite (keywords_other _ _ _ _ _ _ NP E0). destruct (aget k acc) as [v|] eqn:E; auto. apply Ak in E. destruct E; congruence. }
  assert (NoQ : forall x, mentions e x -> ~ In x (map fst ((k, e) :: Q))).
  { intros x Hx [E|I1]; cbn [fst] in *; [destruct (M x Hx); congruence|].
    apply in_map_iff in I1. destruct I1 as ([k' e'] & <- & I1). apply filter_In in I1. destruct I1 as [I1 I2]. cbn [fst] in *.
    destruct (M _ Hx) as [_ Mx]. rewrite Mx in I2; [discriminate|]. apply (in_map fst) in I1; auto. }
  rewrite (try_locs (folder_at s index) env env0 (keyword_globals s) e).
  2:{ intros x Hx. apply (keywords_other _ _ _ _ _ _ (NoQ x Hx) H). }
  cbn [keywords] in H. destruct (wants e && negb (builds e)); [discriminate|].
  unfold undefined in H. rewrite Nk in H.
  destruct (tryv (folder_at s index) env0 (keyword_globals s) e) as [v|].
  - rewrite (keywords_other _ _ _ _ _ _ NQ H). destruct (is_none v); auto. apply aget_aset_same.
  - rewrite (keywords_other _ _ _ _ _ _ NQ H); auto.
Qed.
Print Assumptions C167_equation_partial.

(** The body of a lambda does not see what the definitions stand for. *)
Theorem C167_inner_names : forall x src body locs locs' globs,
  value [] locs globs src = value [] locs' globs src ->
  value [] locs globs (EEach x src body) = value [] locs' globs (EEach x src body).
Proof. intros x src body locs locs' globs H. cbn [ev]. rewrite H. auto. Qed.
Print Assumptions C167_inner_names.

(** A folder argument that is not a dictionary: no metric has a value, and no
    error is raised. *)
Theorem C167_bad_folder_argument : forall s index defs todo, nth_error (folder_kwargs s) index = Some None ->
  (forall k, In k (raw_keys known defs) -> get k <> Fatal) -> (forall k e, In (k, e) defs -> wants e = false) ->
  evaluate is_none builtins prim1 prim2 items collect known get wants builds s index defs todo = Running [].
Proof.
  intros s index defs todo F0 G W.
  assert (F : folder_at s index = None) by (unfold folder_at; apply nth_error_nth, F0).
  unfold evaluate, keyword_args.
  assert (X : forall keys acc0, (forall x, In x keys -> get x <> Fatal) -> exists acc', gather get keys acc0 = Running acc').
  { induction keys as [|x r IH]; intros acc0 Hf; cbn; eauto.
    destruct (get x) eqn:E; [apply IH|apply IH|exfalso; apply (Hf x); cbn; auto]; intros; apply Hf; cbn; auto. }
  destruct (X _ [] G) as (acc & ->). rewrite F, keyword_defs_filter.
  assert (Y : forall l a, (forall k e, In (k, e) l -> wants e = false) -> exists a', kws None (keyword_globals s) l a = Running a').
  { induction l as [|[k e] r IH]; intros a Hw; cbn [keywords]; eauto.
    rewrite (Hw k e) by (left; auto). cbn [andb try]. destruct (undefined is_none k a); apply IH; intros; eapply Hw; right; eauto. }
  destruct (Y (filter (fun d => negb (known (fst d))) defs) acc) as (a' & ->).
  { intros k e I1. apply filter_In in I1. eapply W. apply I1. }
  f_equal. induction todo as [|[n e] r IH]; cbn [metrics aget try]; auto.
Qed.
Print Assumptions C167_bad_folder_argument.
End Spec.

(** * Examples for C166, C167: integers with None *)

Definition opv := option nat.
Definition onone (v : opv) : bool := match v with None => true | Some _ => false end.
Definition oprim1 (f : string) (v : opv) : option opv :=
  match v with Some n => if String.eqb f "none" then Some None else Some (Some (S n)) | None => None end.
Definition oprim2 (f : string) (a b : opv) : option opv :=
  match a, b with Some x, Some y => Some (Some (x + y)) | _, _ => None end.
Definition oitems (v : opv) : option (list opv) := match v with Some n => Some (map Some (seq 0 n)) | None => None end.
Definition ocollect (l : list opv) : opv := fold_right (fun a b => match a, b with Some x, Some y => Some (x + y) | _, _ => None end) (Some 0) l.
Definition ksession : session opv := mksession [("cost_matrix", Some 100)] [("origin", Some 7)] [("table", Some 50)]
  (Some 999) [("np", Some 1)] [Some [("w", Some 3)]; None].
Definition kget (k : string) : sample opv := if String.eqb k "table" then Got (Some 50) else Skipped.
Definition keval := evaluate onone (fun _ => None) oprim1 oprim2 oitems ocollect data_name kget (fun _ => false) (fun _ => true).
Definition kkw := keyword_args onone (fun _ => None) oprim1 oprim2 oitems ocollect data_name kget (fun _ => false) (fun _ => true).

Example C166_nonvacuous :
  kkw ksession 0 [("a", EBin "+" (EName "table") (EName "origin")); ("table", EName "table"); ("b", EUn "+" (EName "a"));
                  ("a", EConst (Some 0)); ("c", EName "d"); ("d", EConst (Some 4))]
  = Running [("table", Some 50); ("a", Some 57); ("b", Some 58); ("d", Some 4)] /\
  keval ksession 0 [("a", EName "table"); ("table", EName "table")]
    [("m", EBin "+" (EName "a") (EName "w")); ("n", EBin "+" (EName "m") (EName "cost_matrix")); ("o", EName "zzz")]
  = Running [("m", Some 53); ("n", Some 153)].
Proof. split; vm_compute; reflexivity. Qed.

(** --evaluation_kwargs sigma=0: the expression is a value, but the name has
    none. *)
Theorem C167_sample_name_refuted :
  exists env, kkw ksession 0 [("sigma", EConst (Some 0)); ("x", EUn "+" (EName "sigma"))] = Running env /\
  aget "sigma" env = None /\ aget "x" env = None.
Proof. exists []. repeat split; vm_compute; reflexivity. Qed.
Print Assumptions C167_sample_name_refuted.

(** A definition that fails: a metric that mentions it gets the dimension of
    the same name instead of failing. *)
Theorem C167_fallback_refuted :
  exists s defs todo, keval s 0 defs todo = Running [("m", Some 8)] /\
  defs = [("origin", EName "not_there")] /\ todo = [("m", EUn "+" (EName "origin"))].
Proof. exists ksession. do 2 eexists. split; [|split; reflexivity]. vm_compute; reflexivity. Qed.
Print Assumptions C167_fallback_refuted.

(** A defined name inside a lambda: the metric has no value. *)
Theorem C167_lambda_refuted :
  keval ksession 0 [("a", EConst (Some 5))]
    [("m", EEach "x" (EName "w") (EBin "+" (EName "x") (EName "a"))); ("n", EBin "+" (EName "w") (EName "a"))]
  = Running [("n", Some 8)].
Proof. vm_compute; reflexivity. Qed.
Print Assumptions C167_lambda_refuted.

(** The same name in two definitions: the second is not used, and None counts
    as not defined. *)
Example C167_nonvacuous :
  kkw ksession 0 [("a", EUn "none" (EConst (Some 0))); ("a", EConst (Some 1)); ("b", EBin "+" (EName "a") (EName "table"));
                  ("table", EName "table"); ("a", EConst (Some 2))]
  = Running [("table", Some 50); ("a", Some 1); ("b", Some 51)] /\
  keval ksession 1 [("a", EConst (Some 5))] [("m", EName "a")] = Running [].
Proof. split; vm_compute; reflexivity. Qed.

(** * C168 *)

Section Samples.
Context {V : Type}.
Variable s : source V.

(** Where the value of a name comes from (every name but the intensity of an
    experiment with an intensity model). *)
Inductive comes_from (x : string) : V -> Prop :=
| from_input_array : forall v, train_name x = true -> input_attr s x = Some (true, v) -> comes_from x v
| from_input : forall v w, train_name x = true -> train_typed x = true -> input_attr s x = Some (false, v) ->
    to_tensor s x v = Some w -> comes_from x w
| from_validation_input : forall b v, train_name x = false -> validation_name x = true ->
    input_attr s x = Some (b, v) -> comes_from x v
| from_validation_file : forall v, train_name x = false -> validation_name x = true ->
    input_attr s x = None -> val_file s x = Some (Some v) -> comes_from x v
| from_recorded : forall n v, train_name x = false -> validation_name x = false -> recorded s x = Some (n, v) ->
    n <= 1 -> (x = "beta" -> has_sim s = false) -> comes_from x v
| from_recorded_beta : forall n v, x = "beta" -> has_sim s = true -> recorded s x = Some (n, v) -> n <= 1 ->
    comes_from x (times_bmax s v).

Lemma get_plain_spec : forall x v, get_plain s x = Got v <-> comes_from x v.
Proof.
  intros x v. unfold get_plain. split.
  - destruct (train_name x) eqn:T.
    + destruct (input_attr s x) as [[[|] u]|] eqn:I1; try discriminate.
      * intro E; inversion E; subst. eapply from_input_array; eauto.
      * destruct (train_typed x) eqn:Ty; try discriminate. destruct (to_tensor s x u) eqn:C; try discriminate.
        intro E; inversion E; subst. eapply from_input; eauto.
    + destruct (validation_name x) eqn:W.
      * destruct (input_attr s x) as [[b u]|] eqn:I1.
        -- intro E; inversion E; subst. eapply from_validation_input; eauto.
        -- destruct (val_file s x) as [[u|]|] eqn:F; try discriminate. intro E; inversion E; subst.
           eapply from_validation_file; eauto.
      * destruct (recorded s x) as [[n u]|] eqn:R; try discriminate.
        destruct (Nat.ltb_spec 1 n) as [L|L]; try discriminate.
        destruct (String.eqb x "beta") eqn:B.
        -- apply String.eqb_eq in B. destruct (has_sim s) eqn:S1; cbn [andb]; intro E; inversion E; subst v.
           ++ eapply from_recorded_beta; eauto.
           ++ eapply from_recorded; eauto.
        -- apply String.eqb_neq in B. cbn [andb]. intro E; inversion E; subst v.
           eapply from_recorded; eauto. intro; contradiction.
  - intros H; destruct H as [v T I1|v w T Ty I1 C|b v T W I1|v T W I1 F|n v T W R L B|n v B S1 R L].
    + rewrite T, I1; auto.
    + rewrite T, I1, Ty, C; auto.
    + rewrite T, W, I1; auto.
    + rewrite T, W, I1, F; auto.
    + rewrite T, W, R. destruct (Nat.ltb_spec 1 n) as [L'|_]; [lia|].
      destruct (String.eqb x "beta") eqn:E; auto. apply String.eqb_eq in E. rewrite (B E); auto.
    + subst x. rewrite R, S1. change (train_name "beta") with false. change (validation_name "beta") with false.
      destruct (Nat.ltb_spec 1 n) as [L'|_]; [lia|]. auto.
Qed.

(** C168: a sample has a value exactly when its source has it, and is skipped
    exactly when it is a missing validation or recorded array. *)
Theorem C168_sources : forall x, (x = "intensity" -> has_sim s = false) ->
  (forall v, get_sample s x = Got v <-> comes_from x v) /\
  (get_sample s x = Skipped <->
     train_name x = false /\
     (if validation_name x then input_attr s x = None /\ val_file s x = None else recorded s x = None)).
Proof.
  intros x H. unfold get_sample.
  assert (E : String.eqb x "intensity" && has_sim s = false).
  { destruct (String.eqb x "intensity") eqn:E; auto. apply String.eqb_eq in E. cbn. auto. }
  rewrite E. split; [intro; apply get_plain_spec|]. unfold get_plain.
  destruct (train_name x) eqn:T.
  - destruct (input_attr s x) as [[[|] u]|]; split; try discriminate; try (intros [A _]; discriminate).
    destruct (train_typed x); [|discriminate]. destruct (to_tensor s x u); discriminate.
  - destruct (validation_name x).
    + destruct (input_attr s x) as [[b u]|]; split; try discriminate; try (intros (_ & A & B); discriminate).
      * destruct (val_file s x) as [[u|]|]; try discriminate; auto.
      * intros (_ & _ & B). rewrite B; auto.
    + destruct (recorded s x) as [[n u]|]; split; try discriminate; auto.
      * destruct (1 <? n); [discriminate|]. destruct (String.eqb x "beta" && has_sim s); discriminate.
      * intros (_ & A); discriminate.
Qed.
Print Assumptions C168_sources.

Lemma got_all_spec : forall (l : list (sample V)) (vs : list V), got_all l = Some vs <-> l = map Got vs.
Proof.
  induction l as [|[v| |] r IH]; intros vs; cbn [got_all].
  - split; intro H; [inversion H; auto|destruct vs; [auto|discriminate]].
  - destruct (got_all r) as [ws|] eqn:E.
    + split; intro H.
      * inversion H; subst. cbn. f_equal. apply IH; auto.
      * destruct vs as [|w vs]; [discriminate|]. cbn in H. inversion H as [[H1 H2]]; subst.
        assert (X : Some ws = Some vs) by (apply IH; auto). inversion X; auto.
    + split; intro H; [discriminate|]. destruct vs as [|w vs]; [discriminate|]. cbn in H. inversion H; subst.
      assert (X : None = Some vs) by (apply IH; auto). discriminate.
  - split; intro H; [discriminate|]. destruct vs; discriminate.
  - split; intro H; [discriminate|]. destruct vs; discriminate.
Qed.

(** The intensity of an experiment with an intensity model is computed from the
    cost matrix, the origin demand of a production constrained model, the grand
    total, and the recorded parameters (beta times bmax) and attraction; it is
    never skipped: when one of them is missing the command ends. *)
Theorem C168_intensity : forall m, has_sim s = true -> sim_name s = m ->
  (forall v, get_sample s "intensity" = Got v <->
    exists cost total al be la,
      get_plain s "cost_matrix" = Got cost /\ get_plain s "grand_total" = Got total /\
      get_plain s "alpha" = Got al /\ get_plain s "beta" = Got be /\ get_plain s "log_destination_attraction" = Got la /\
      ((m = "TotallyConstrained" /\ flow s [cost; total] [al; be; la] = Some v) \/
       (m = "ProductionConstrained" /\ exists od, get_plain s "origin_demand" = Got od /\
          flow s [cost; od; total] [al; be; la] = Some v))) /\
  get_sample s "intensity" <> Skipped.
Proof.
  intros m S1 Sm. unfold get_sample. rewrite S1, Sm. clear Sm. cbn [String.eqb Ascii.eqb Bool.eqb andb]. split.
  - intro v. unfold intensity_inputs, intensity_outputs.
    destruct (String.eqb m "TotallyConstrained") eqn:T.
    + apply String.eqb_eq in T. subst m. cbn [orb map got_all].
      destruct (get_plain s "cost_matrix") as [c| |]; destruct (get_plain s "grand_total") as [t| |];
        try (split; [discriminate|intros (c' & t' & a' & b' & l' & X1 & X2 & _); discriminate]).
      destruct (get_plain s "alpha") as [a| |]; destruct (get_plain s "beta") as [b| |];
        destruct (get_plain s "log_destination_attraction") as [l| |];
        try (split; [discriminate|intros (c' & t' & a' & b' & l' & X1 & X2 & X3 & X4 & X5 & _); discriminate]).
      split.
      * destruct (flow s [c; t] [a; b; l]) as [w|] eqn:F; [|discriminate]. intro E; inversion E; subst.
        exists c, t, a, b, l. repeat split; auto.
      * intros (c' & t' & a' & b' & l' & X1 & X2 & X3 & X4 & X5 & [(_ & F)|(X & _)]); [|discriminate].
        inversion X1; inversion X2; inversion X3; inversion X4; inversion X5; subst. rewrite F; auto.
    + destruct (String.eqb m "ProductionConstrained") eqn:Pc.
      * apply String.eqb_eq in Pc. subst m. cbn [orb map got_all].
        destruct (get_plain s "cost_matrix") as [c| |]; destruct (get_plain s "grand_total") as [t| |];
          destruct (get_plain s "origin_demand") as [o| |];
          try (split; [discriminate|intros (c' & t' & a' & b' & l' & X1 & X2 & _ & _ & _ & [(X & _)|(_ & o' & X & _)]); discriminate]).
        destruct (get_plain s "alpha") as [a| |]; destruct (get_plain s "beta") as [b| |];
          destruct (get_plain s "log_destination_attraction") as [l| |];
          try (split; [discriminate|intros (c' & t' & a' & b' & l' & X1 & X2 & X3 & X4 & X5 & _); discriminate]).
        split.
        -- destruct (flow s [c; o; t] [a; b; l]) as [w|] eqn:F; [|discriminate]. intro E; inversion E; subst.
           exists c, t, a, b, l. repeat split; auto. right. split; auto. exists o; auto.
        -- intros (c' & t' & a' & b' & l' & X1 & X2 & X3 & X4 & X5 & [(X & _)|(_ & o' & X6 & F)]); [discriminate|].
           inversion X1; inversion X2; inversion X3; inversion X4; inversion X5; inversion X6; subst. rewrite F; auto.
      * cbn [orb]. split; [discriminate|].
        intros (c' & t' & a' & b' & l' & _ & _ & _ & _ & _ & [(X & _)|(X & _)]); subst m; discriminate.
  - destruct (intensity_inputs m); [|discriminate]. destruct (intensity_outputs m); [|discriminate].
    destruct (got_all _); [|discriminate]. destruct (got_all _); [|discriminate]. destruct (flow s _ _); discriminate.
Qed.
Print Assumptions C168_intensity.

(** Full property: a sample that is not available is left out and the command
    goes on.  Holds for the names that are not those of training inputs (nor of
    the intensity of a model): the other samples are as without it. *)
Theorem C168_missing_left_out_partial : forall pre post x acc, get_sample s x = Skipped ->
  gather (get_sample s) (pre ++ x :: post) acc = gather (get_sample s) (pre ++ post) acc.
Proof.
  intros pre post x acc H. revert acc; induction pre as [|y r IH]; intro acc; cbn [app gather].
  - rewrite H; auto.
  - destruct (get_sample s y); auto.
Qed.
Print Assumptions C168_missing_left_out_partial.

(** A training input that has not been read ends the command, whatever else is
    asked for. *)
Theorem C168_missing_input_ends : forall pre post x acc, train_name x = true -> input_attr s x = None ->
  gather (get_sample s) (pre ++ x :: post) acc = Exits.
Proof.
  intros pre post x acc T N.
  assert (G : get_sample s x = Fatal).
  { unfold get_sample. destruct (String.eqb x "intensity") eqn:E.
    - apply String.eqb_eq in E; subst. discriminate.
    - cbn [andb]. unfold get_plain. rewrite T, N; auto. }
  revert acc; induction pre as [|y r IH]; intro acc; cbn [app gather].
  - rewrite G; auto.
  - destruct (get_sample s y); auto.
Qed.
Print Assumptions C168_missing_input_ends.

(** So does a name of TRAIN_SCHEMA without a type, even when it is read. *)
Theorem C168_untyped_ends : forall x, In x ["margins"; "cells_subset"; "dims"; "to_learn"; "true_parameters"; "dataset"] ->
  (forall v, input_attr s x <> Some (true, v)) -> data_name x = true /\ get_sample s x = Fatal.
Proof.
  intros x H N.
  assert (T : data_name x = true /\ train_name x = true /\ train_typed x = false /\ String.eqb x "intensity" = false).
  { cbn [In] in H. repeat (destruct H as [<-|H]; [vm_compute; auto|]). destruct H. }
  destruct T as (T0 & T1 & T2 & T3). split; auto. unfold get_sample. rewrite T3. cbn [andb]. unfold get_plain. rewrite T1, T2.
  destruct (input_attr s x) as [[[|] v]|]; auto. exfalso; apply (N v); auto.
Qed.
Print Assumptions C168_untyped_ends.
End Samples.

Definition ksource : source nat := mksource true "ProductionConstrained"
  (fun x => if String.eqb x "cost_matrix" then Some (false, 10) else if String.eqb x "origin_demand" then Some (false, 20)
            else if String.eqb x "grand_total" then Some (false, 30)
            else if String.eqb x "region_geometries" then Some (false, 40)
            else if String.eqb x "test_cells" then Some (false, 50) else None)
  (fun _ v => Some (v + 1))
  (fun x => if String.eqb x "validation_cells" then Some (Some 60) else None)
  (fun x => if String.eqb x "table" then Some (2, 70) else if memb x ["alpha"; "beta"; "log_destination_attraction"; "sign"] then Some (1, 5) else None)
  (fun v => 100 * v)
  (fun a b => Some (fold_right plus 0 a + fold_right plus 0 b)).
Definition kkeys := raw_keys (V := nat) data_name.

Example C168_nonvacuous :
  gather (get_sample ksource) ["intensity"; "beta"; "test_cells"; "validation_cells"; "train_cells"; "theta_acc"; "sign"] []
  = Running [("intensity", 573); ("beta", 500); ("test_cells", 50); ("validation_cells", 60); ("sign", 5)].
Proof. vm_compute; reflexivity. Qed.

(** The full property fails: a missing training input, and a collection of two
    arrays, end the command. *)
Theorem C168_missing_refuted :
  gather (get_sample ksource) ["alpha"; "destination_demand"] [] = Exits /\
  gather (get_sample ksource) ["alpha"; "table"] [] = Exits.
Proof. split; vm_compute; reflexivity. Qed.
Print Assumptions C168_missing_refuted.

(** The geometries of the regions are never available as a sample, although the
    name is accepted and the inputs have them. *)
Theorem C168_geometries_refuted :
  data_name "region_geometries" = true /\ input_attr ksource "region_geometries" = Some (false, 40) /\
  get_sample ksource "region_geometries" = Skipped.
Proof. repeat split; vm_compute; reflexivity. Qed.
Print Assumptions C168_geometries_refuted.

(** * C169 *)

Lemma mapM_inv : forall {A B} (f : A -> res B) l ys, mapM f l = Ok ys ->
  forall y, In y ys <-> exists x, In x l /\ f x = Ok y.
Proof.
  intros A B f; induction l as [|x r IH]; intros ys H y; cbn [mapM] in H.
  - inversion H; subst. split; [intros []|intros (x & [] & _)].
  - destruct (f x) as [u|] eqn:E; cbn [rbind] in H; [|discriminate].
    destruct (mapM f r) as [us|] eqn:E2; cbn [rbind] in H; [|discriminate]. inversion H; subst. cbn [In].
    rewrite (IH us eq_refl). split.
    + intros [<-|(z & Z1 & Z2)]; [exists x; auto|exists z; auto].
    + intros (z & [<-|Z1] & Z2); [left; congruence|right; exists z; auto].
Qed.
Lemma mapM_total : forall {A B} (f : A -> res B) l, (forall x, In x l -> exists y, f x = Ok y) -> exists ys, mapM f l = Ok ys.
Proof.
  intros A B f; induction l as [|x r IH]; intros H; cbn [mapM]; eauto.
  destruct (H x (or_introl eq_refl)) as (y & ->). destruct IH as (ys & ->); [intros; apply H; right; auto|]. cbn; eauto.
Qed.

Lemma loaded_In : forall c asked l x, loaded_names c asked = Ok l ->
  (In x l <-> exists sam ys, In sam asked /\ In sam output_schema /\ names_for c sam = Ok ys /\ In x ys).
Proof.
  intros c asked l x H. unfold loaded_names in H.
  destruct (mapM (names_for c) (filter (fun y => memb y output_schema) asked)) as [ls|] eqn:E; cbn [rbind] in H; [|discriminate].
  inversion H; subst l. rewrite in_concat. split.
  - intros (ys & Hy & Hx). apply (mapM_inv _ _ _ E) in Hy. destruct Hy as (sam & Hs & En). apply filter_In in Hs. destruct Hs as [S1 S2].
    apply memb_In in S2. exists sam, ys; auto.
  - intros (sam & ys & H1 & H2 & H3 & H4). exists ys. split; auto. apply (mapM_inv _ _ _ E). exists sam. split; auto.
    apply filter_In. split; auto. apply memb_In; auto.
Qed.

(** The names of arrays that an experiment of a type records: its list, with
    the losses instead of 'loss' and the learned parameters instead of 'theta'. *)
Definition records (c : stored) (outs : list string) (x : string) : Prop :=
  (In x outs /\ x <> "loss" /\ x <> "theta") \/
  (In "loss" outs /\ exists ls, losses c = Some ls /\ In x (ls ++ ["total_loss"])) \/
  (In "theta" outs /\ In x ["alpha"; "beta"; "delta"; "kappa"; "sigma"]).

Definition listed_loss (c : stored) : Prop := forall ls x, losses c = Some ls -> In x ls -> In x loss_keys.

(** C169 full property: every array that is recorded and asked for is read.
    Holds except for the intensity of a configuration with an intensity model. *)
Theorem C169_recorded_read_partial : forall c outs asked l x,
  experiment_outputs (exp_type c) = Some outs -> loaded_names c asked = Ok l -> listed_loss c ->
  In x asked -> In x output_schema -> records c outs x -> (x = "intensity" -> sim_models c = None) -> In x l.
Proof.
  intros c outs asked l x T L Ll A S R I1.
  apply (proj2 (loaded_In _ _ _ _ L)).
  assert (N : exists ys, names_for c x = Ok ys /\ In x ys); [|destruct N as (ys & N1 & N2); exists x, ys; auto].
  unfold names_for.
  assert (E : match String.eqb x "intensity", sim_models c with true, Some _ => False | _, _ => True end).
  { destruct (String.eqb x "intensity") eqn:E; auto. apply String.eqb_eq in E. rewrite (I1 E); auto. }
  assert (G : forall (P : list string -> res (list string)) Q, match String.eqb x "intensity", sim_models c with true, Some ms => P ms | _, _ => Q end = Q).
  { intros P Q. destruct (String.eqb x "intensity"); auto. destruct (sim_models c); auto. destruct E. }
  assert (Par : memb "theta" outs = true -> In x ["alpha"; "beta"; "delta"; "kappa"; "sigma"] -> mem x parameter_defaults = true).
  { intros _ H. cbn [In] in H. repeat (destruct H as [<-|H]; [reflexivity|]). destruct H. }
  assert (Base : exists ys, match experiment_outputs (exp_type c) with
      | None => Raise EKey
      | Some outs0 =>
        match losses c with
        | Some ls =>
          if memb x loss_keys && memb "loss" outs0 then Ok (if memb x (ls ++ ["total_loss"]) then [x] else [])
          else if memb x outs0 then Ok [x] else if memb "theta" outs0 && mem x parameter_defaults then Ok [x] else Ok []
        | None => if memb x outs0 then Ok [x] else if memb "theta" outs0 && mem x parameter_defaults then Ok [x] else Ok []
        end
      end = Ok ys /\ In x ys).
  { rewrite T. destruct R as [(R & R1 & R2)|[(R & ls & R1 & R2)|(R & R1)]].
    - apply memb_In in R as R'.
      destruct (losses c) as [ls|]; rewrite R'; [|exists [x]; cbn; auto].
      destruct (memb x loss_keys && memb "loss" outs) eqn:B; [|exists [x]; cbn; auto].
      (* no experiment lists a loss other than 'loss' *)
      exfalso. apply andb_prop in B. destruct B as [B _]. apply memb_In in B.
      assert (C : forall outs', experiment_outputs (exp_type c) = Some outs' -> forall y, In y outs' -> In y loss_keys -> y = "loss").
      { unfold experiment_outputs. intros outs' Ho. apply aget_In in Ho. cbn [In] in Ho.
        repeat (destruct Ho as [Ho|Ho];
          [inversion Ho; subst outs'; intros y Hy Hl; cbn in Hy;
           repeat (destruct Hy as [<-|Hy]; [cbn in Hl; try reflexivity; exfalso; repeat (destruct Hl as [Hl|Hl]; [discriminate|]); exact Hl|]); destruct Hy|]).
        destruct Ho. }
      apply R1. apply (C outs T); auto.
    - rewrite R1. apply memb_In in R. rewrite R.
      assert (Hl : memb x loss_keys = true).
      { apply memb_In. apply in_app_or in R2. destruct R2 as [R2|R2]; [apply (Ll ls); auto|].
        cbn in R2. destruct R2 as [<-|[]]. vm_compute; tauto. }
      rewrite Hl. cbn [andb]. apply memb_In in R2. rewrite R2. exists [x]; cbn; auto.
    - apply memb_In in R as R'. rewrite R', (Par R' R1). cbn [andb].
      assert (Hl : memb x loss_keys = false) by (cbn [In] in R1; repeat (destruct R1 as [<-|R1]; [reflexivity|]); destruct R1).
      destruct (losses c); [rewrite Hl; cbn [andb]|]; destruct (memb x outs); exists [x]; cbn; auto. }
  destruct Base as (ys & B1 & B2). exists ys. split; auto. etransitivity; [apply G|exact B1].
Qed.
Print Assumptions C169_recorded_read_partial.

(** Nothing is read that was not asked for, but the parts of an intensity. *)
Theorem C169_only_asked : forall c asked l x, loaded_names c asked = Ok l -> In x l ->
  In x asked \/
  (In "intensity" asked /\ sim_models c <> None /\ In x ["alpha"; "beta"; "log_destination_attraction"; "sign"]).
Proof.
  intros c asked l x L H. apply (proj1 (loaded_In _ _ _ _ L)) in H.
  destruct H as (sam & ys & A & S & N & H). unfold names_for in N.
  assert (Rest : forall (R : res (list string)), R = Ok ys -> (forall zs, R = Ok zs -> zs = [] \/ zs = [sam]) -> In x asked).
  { intros R E F. destruct (F ys E) as [E'|E']; rewrite E' in H; [destruct H|]. destruct H as [<-|[]]; auto. }
  assert (Rest2 : match experiment_outputs (exp_type c) with
      | None => Raise EKey
      | Some outs0 =>
        match losses c with
        | Some ls =>
          if memb sam loss_keys && memb "loss" outs0 then Ok (if memb sam (ls ++ ["total_loss"]) then [sam] else [])
          else if memb sam outs0 then Ok [sam] else if memb "theta" outs0 && mem sam parameter_defaults then Ok [sam] else Ok []
        | None => if memb sam outs0 then Ok [sam] else if memb "theta" outs0 && mem sam parameter_defaults then Ok [sam] else Ok []
        end
      end = Ok ys -> In x asked).
  { intro E. apply (Rest _ E). intros zs.
    destruct (experiment_outputs (exp_type c)) as [outs|]; [|discriminate].
    destruct (losses c) as [ls|].
    - destruct (memb sam loss_keys && memb "loss" outs); [destruct (memb sam (ls ++ ["total_loss"])); intro Z; inversion Z; auto|].
      destruct (memb sam outs); [intro Z; inversion Z; auto|].
      destruct (memb "theta" outs && mem sam parameter_defaults); intro Z; inversion Z; auto.
    - destruct (memb sam outs); [intro Z; inversion Z; auto|].
      destruct (memb "theta" outs && mem sam parameter_defaults); intro Z; inversion Z; auto. }
  destruct (String.eqb sam "intensity") eqn:E; [|left; apply Rest2; exact N].
  destruct (sim_models c) as [models|] eqn:M; [|left; apply Rest2; exact N].
  right. apply String.eqb_eq in E. subst sam. split; auto. split; [discriminate|].
  destruct (mapM _ models) as [ls|] eqn:L1; cbn [rbind] in N; [|discriminate].
  destruct (experiment_outputs (exp_type c)) as [outs|]; [|discriminate]. inversion N; subst ys.
  apply in_app_or in H. destruct H as [H|H].
  - apply in_concat in H. destruct H as (zs & Z1 & Z2). apply (mapM_inv _ _ _ L1) in Z1. destruct Z1 as (m & _ & Z1).
    unfold intensity_outputs in Z1. destruct (String.eqb m "TotallyConstrained" || String.eqb m "ProductionConstrained"); [|discriminate].
    inversion Z1; subst zs. cbn in *. tauto.
  - destruct (memb "sign" outs); [|destruct H]. cbn in *. tauto.
Qed.
Print Assumptions C169_only_asked.

(** The parts of an intensity are read, with the signs where they are recorded. *)
Theorem C169_intensity_parts : forall c outs asked l models m, loaded_names c asked = Ok l ->
  experiment_outputs (exp_type c) = Some outs ->
  In "intensity" asked -> sim_models c = Some models -> In m models ->
  In "alpha" l /\ In "beta" l /\ In "log_destination_attraction" l /\ (In "sign" outs -> In "sign" l).
Proof.
  intros c outs asked l models m L T A M Hm.
  assert (N : exists ys, names_for c "intensity" = Ok ys).
  { unfold loaded_names in L.
    destruct (mapM (names_for c) (filter (fun y => memb y output_schema) asked)) as [ls|] eqn:E; cbn [rbind] in L; [|discriminate].
    assert (X : In "intensity" (filter (fun y => memb y output_schema) asked)) by (apply filter_In; split; auto).
    clear L. revert ls E X. generalize (filter (fun y => memb y output_schema) asked). intros l0; induction l0 as [|z r IH]; intros ls E X; [destruct X|].
    cbn [mapM] in E. destruct (names_for c z) as [u|] eqn:E1; cbn [rbind] in E; [|discriminate].
    destruct X as [X|X]; [subst; eauto|]. destruct (mapM (names_for c) r) as [us|] eqn:E2; [|discriminate]. eapply IH; eauto. }
  destruct N as (ys & N).
  assert (S : In "intensity" output_schema) by (vm_compute; tauto).
  assert (G : forall x, In x ys -> In x l) by (intros x Hx; apply (proj2 (loaded_In _ _ _ _ L)); exists "intensity", ys; auto).
  unfold names_for in N. cbn [String.eqb Ascii.eqb Bool.eqb] in N. rewrite M, T in N.
  destruct (mapM _ models) as [ls|] eqn:L1; cbn [rbind] in N; [|discriminate]. inversion N; subst ys.
  assert (X : In ["alpha"; "beta"; "log_destination_attraction"] ls).
  { assert (Y : exists y, In y ls /\ (match intensity_outputs m with Some l => Ok l | None => Raise EKey end) = Ok y).
    { clear -L1 Hm. revert ls L1; induction models as [|z r IH]; intros ls E; [destruct Hm|].
      cbn [mapM] in E. destruct (intensity_outputs z) as [u|] eqn:E1; cbn [rbind] in E; [|discriminate].
      destruct (mapM _ r) as [us|] eqn:E2; cbn [rbind] in E; [|discriminate]. inversion E; subst.
      destruct Hm as [->|Hm]; [exists u; rewrite E1; cbn; auto|]. destruct (IH Hm us eq_refl) as (y & Y1 & Y2). exists y; cbn; auto. }
    destruct Y as (y & Y1 & Y2). unfold intensity_outputs in Y2.
    destruct (String.eqb m "TotallyConstrained" || String.eqb m "ProductionConstrained"); [|discriminate]. inversion Y2; subst; auto. }
  repeat split; try (apply G, in_or_app; left; apply in_concat; eexists; split; [exact X|cbn; tauto]).
  intro Hs. apply G, in_or_app; right. apply memb_In in Hs. rewrite Hs. cbn; auto.
Qed.
Print Assumptions C169_intensity_parts.

(** No error for a known type and known models. *)
Theorem C169_no_error : forall c asked outs, experiment_outputs (exp_type c) = Some outs ->
  (forall models m, sim_models c = Some models -> In m models -> m = "TotallyConstrained" \/ m = "ProductionConstrained") ->
  exists l, loaded_names c asked = Ok l.
Proof.
  intros c asked outs T M. unfold loaded_names.
  destruct (mapM_total (names_for c) (filter (fun y => memb y output_schema) asked)) as (ys & ->); [|cbn; eauto].
  intros x _. unfold names_for. rewrite T.
  assert (Base : exists ys, match losses c with
        | Some ls =>
          if memb x loss_keys && memb "loss" outs then Ok (if memb x (ls ++ ["total_loss"]) then [x] else [])
          else if memb x outs then Ok [x] else if memb "theta" outs && mem x parameter_defaults then Ok [x] else Ok []
        | None => if memb x outs then Ok [x] else if memb "theta" outs && mem x parameter_defaults then Ok [x] else Ok []
        end = Ok ys).
  { destruct (losses c) as [ls|]; [destruct (memb x loss_keys && memb "loss" outs); eauto|];
      destruct (memb x outs); eauto; destruct (memb "theta" outs && mem x parameter_defaults); eauto. }
  destruct (String.eqb x "intensity"); [|exact Base].
  destruct (sim_models c) as [models|] eqn:E; [|exact Base].
  destruct (mapM_total (fun m => match intensity_outputs m with Some l => Ok l | None => Raise EKey end) models) as (ls & ->); [|cbn; eauto].
  intros m Hm. destruct (M models m eq_refl Hm) as [-> | ->]; cbn; eauto.
Qed.
Print Assumptions C169_no_error.

Example C169_nonvacuous :
  loaded_names (mkstored "JointTableSIM_NN" (Some ["TotallyConstrained"]) (Some ["table_loss"]))
    ["table"; "table_loss"; "total_loss"; "dest_attraction_ts_loss"; "alpha"; "compute_time"; "sign"]
  = Ok ["table"; "table_loss"; "total_loss"; "alpha"; "compute_time"] /\
  loaded_names (mkstored "JointTableSIM_MCMC" (Some ["ProductionConstrained"]) None) ["intensity"; "cost_matrix"]
  = Ok ["alpha"; "beta"; "log_destination_attraction"; "sign"].
Proof. split; vm_compute; reflexivity. Qed.

(** The computing time of a SIM_MCMC run is asked for and not read, unlike that
    of every other sampler. *)
Theorem C169_compute_time_refuted :
  loaded_names (mkstored "SIM_MCMC" None None) ["compute_time"; "theta_acc"; "sign"] = Ok ["sign"] /\
  loaded_names (mkstored "JointTableSIM_MCMC" None None) ["compute_time"; "theta_acc"; "sign"] = Ok ["compute_time"; "theta_acc"; "sign"].
Proof. split; vm_compute; reflexivity. Qed.
Print Assumptions C169_compute_time_refuted.

(** A comparison experiment records its intensity; with an intensity model in
    its configuration, other arrays are read instead. *)
Theorem C169_comparison_refuted :
  exists c outs l, experiment_outputs (exp_type c) = Some outs /\ In "intensity" outs /\
  loaded_names c ["intensity"] = Ok l /\ ~ In "intensity" l.
Proof.
  exists (mkstored "GBRT_Comparison" (Some ["TotallyConstrained"]) None), ["intensity"; "compute_time"],
    ["alpha"; "beta"; "log_destination_attraction"].
  split; [reflexivity|]. split; [cbn; auto|]. split; [vm_compute; reflexivity|].
  cbn. intuition discriminate.
Qed.
Print Assumptions C169_comparison_refuted.
