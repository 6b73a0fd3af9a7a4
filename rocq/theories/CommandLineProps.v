(** Theorems about the command line parsers: C54, C59, C85. *)
From Coq Require Import List ZArith Lia Bool Arith String Ascii.
From Verif Require Import Base PyMonad Schema SchemaProps CommandLine.
Import ListNotations.
Local Open Scope string_scope.

Lemma sget_sset : forall {A} k k' (v : A) l,
  sget k (sset k' v l) = if String.eqb k k' then Some v else sget k l.
Proof.
  intros A k k' v l. induction l as [|[x w] l IH]; cbn [sset sget].
  - destruct (String.eqb k k'); auto.
  - destruct (String.eqb_spec k' x) as [->|H]; cbn [sget].
    + destruct (String.eqb k x); auto.
    + rewrite IH. destruct (String.eqb_spec k x) as [->|H2]; auto.
      destruct (String.eqb_spec x k'); [congruence|auto].
Qed.

(** * Coordinate slices *)

Section SliceProps.
  Context {T : Type}.
  Variable teqb : T -> T -> bool.
  Hypothesis teqb_spec : forall a b, teqb a b = true <-> a = b.
  Variable parse : string -> T.

  (** The values a request names: the parts of a text between "_" signs. *)
  Definition requested (v : slice_value) (t : T) : Prop :=
    match v with
    | VText s => exists p, In p (split_on "_" s) /\ t = parse p
    | VOther u => t = u
    end.

  (** A text of one character, or with a "_" in it. *)
  Definition splittable (v : slice_value (T := T)) : Prop :=
    match v with VText s => (0 < count_char "_" s)%nat \/ String.length s = 1%nat | VOther _ => True end.

  Lemma set_add_in : forall t l x, In x (set_add teqb t l) <-> x = t \/ In x l.
  Proof.
    intros t l x. unfold set_add. destruct (existsb (teqb t) l) eqn:E.
    - apply existsb_exists in E as (y & Hy & E). apply teqb_spec in E; subst.
      split; [auto|]. intros [->|]; auto.
    - rewrite in_app_iff. cbn. intuition congruence.
  Qed.

  Lemma to_set_in : forall l x, In x (to_set teqb l) <-> In x l.
  Proof.
    intros l x. unfold to_set.
    assert (G : forall s, In x (fold_left (fun s t => set_add teqb t s) l s) <-> In x l \/ In x s).
    { induction l as [|t l IH]; intro s; cbn [fold_left]; [cbn; tauto|].
      rewrite IH, set_add_in. cbn. intuition congruence. }
    rewrite G. cbn. tauto.
  Qed.

  Lemma text_values_in : forall s x, splittable (VText s) -> In x (text_values parse s) <-> requested (VText s) x.
  Proof.
    intros s x H. unfold text_values, requested. rewrite in_map_iff. cbn [splittable] in H.
    destruct (0 <? count_char "_" s)%nat eqn:E.
    - split; intros (p & A & B); exists p; auto.
    - apply Nat.ltb_ge in E. destruct H as [H|H]; [lia|].
      rewrite split_on_none by lia. destruct s as [|c [|c' s]]; try discriminate. cbn.
      split; intros (p & A & B); exists p; intuition congruence.
  Qed.

  (** What the parser keeps for a key: the values of the first slice for it and
      of the later slices whose value is not a text. *)
  Fixpoint kept (k : string) (l : list (string * slice_value)) (seen : bool) (t : T) : Prop :=
    match l with
    | [] => False
    | (k', v) :: l' =>
      if String.eqb k k' then
        match v with
        | VText s => (seen = false /\ In t (text_values parse s)) \/ kept k l' true t
        | VOther u => t = u \/ kept k l' true t
        end
      else kept k l' seen t
    end.

  Lemma slice_fold : forall l k slices t,
    (exists vs, sget k (fold_left (slice_one teqb parse) l slices) = Some vs /\ In t vs) <->
    (exists vs, sget k slices = Some vs /\ In t vs) \/
    kept k l (match sget k slices with Some _ => true | None => false end) t.
  Proof.
    induction l as [|[k' v] l IH]; intros k slices t; cbn [fold_left].
    - cbn. tauto.
    - rewrite IH. clear IH. cbn [kept]. unfold slice_one.
      destruct (String.eqb_spec k k') as [->|Hne].
      + destruct (sget k' slices) as [old|] eqn:E.
        * destruct v as [s|u].
          -- rewrite E. intuition congruence.
          -- rewrite sget_sset, String.eqb_refl. split.
             ++ intros [(vs & E1 & H)|H]; [|auto]. injection E1 as <-. apply set_add_in in H as [->|H]; eauto.
             ++ intros [(vs & E1 & H)|[->|H]]; auto.
                ** injection E1 as <-. left. eexists; split; [reflexivity|]. apply set_add_in; auto.
                ** left. eexists; split; [reflexivity|]. apply set_add_in; auto.
        * destruct v as [s|u]; rewrite sget_sset, String.eqb_refl; split.
          -- intros [(vs & E1 & H)|H]; [|auto]. injection E1 as <-. apply (proj1 (to_set_in _ _)) in H. auto.
          -- intros [(vs & E1 & H)|[[_ H]|H]]; [discriminate| |auto].
             left. eexists; split; [reflexivity|]. apply to_set_in; auto.
          -- intros [(vs & E1 & H)|H]; [|auto]. injection E1 as <-. destruct H as [->|[]]. auto.
          -- intros [(vs & E1 & H)|[->|H]]; [discriminate| |auto].
             left. eexists; split; [reflexivity|]. cbn; auto.
      + assert (Hk : forall w, sget k (sset k' w slices) = sget k slices).
        { intro w. rewrite sget_sset. destruct (String.eqb_spec k k'); congruence. }
        destruct (sget k' slices); destruct v; rewrite ?Hk; tauto.
  Qed.

  (** C54, exact behaviour of the parser for every list of slices. *)
  Theorem C54_kept_values_partial : forall l k t,
    (exists vs, sget k (parse_slice_by teqb parse l) = Some vs /\ In t vs) <-> kept k l false t.
  Proof.
    intros l k t. unfold parse_slice_by. rewrite slice_fold. cbn. split; [|auto].
    intros [(vs & E & _)|H]; [discriminate|auto].
  Qed.

  (** C54 for slices with distinct keys: exactly the requested values are kept. *)
  Theorem C54_distinct_keys_partial : forall l k v,
    NoDup (map fst l) -> In (k, v) l -> splittable v ->
    forall t, (exists vs, sget k (parse_slice_by teqb parse l) = Some vs /\ In t vs) <-> requested v t.
  Proof.
    intros l k v Hnd Hin Hs t. rewrite C54_kept_values_partial.
    assert (Hno : forall l seen, ~ In k (map fst l) -> ~ kept k l seen t).
    { induction l0 as [|[k' v'] l0 IH]; intros seen H; cbn [kept]; auto.
      destruct (String.eqb_spec k k') as [->|]; [exfalso; apply H; cbn; auto|]. apply IH. cbn in H; tauto. }
    induction l as [|[k' v'] l IH]; [destruct Hin|]. inversion Hnd; subst. cbn [kept].
    destruct Hin as [E|Hin].
    - injection E as -> ->. rewrite String.eqb_refl. destruct v as [s|u].
      + rewrite <- text_values_in by auto. split; [intros [[_ H]|H]; auto; exfalso; eapply Hno; eauto|auto].
      + cbn. split; [intros [H|H]; auto; exfalso; eapply Hno; eauto|auto].
    - destruct (String.eqb_spec k k') as [->|Hne].
      + exfalso. apply H1. change k' with (fst (k', v)). apply in_map; auto.
      + apply IH; auto.
  Qed.
End SliceProps.
Print Assumptions C54_kept_values_partial.
Print Assumptions C54_distinct_keys_partial.

(** C54 as stated is false: of two slices for one key only the first is kept. *)
Theorem C54_union_refuted :
  exists l k v t, In (k, v) l /\ splittable v /\ requested (fun s => s) v t /\
    ~ exists vs, sget k (parse_slice_by String.eqb (fun s => s) l) = Some vs /\ In t vs.
Proof.
  exists [("iter", VText "1_2"); ("iter", VText "3_4")], "iter", (VText "3_4"), "3".
  split; [cbn; auto|]. split; [cbn; left; lia|]. split; [exists "3"; cbn; auto|].
  intros (vs & E & H). cbn in E. injection E as <-. cbn in H. intuition discriminate.
Qed.
Print Assumptions C54_union_refuted.

(** It is false even for a single slice: a text without "_" is taken apart into
    its characters. *)
Theorem C54_single_value_refuted :
  exists k s t, requested (fun s => s) (VText s) t /\
    ~ exists vs, sget k (parse_slice_by String.eqb (fun s => s) [(k, VText s)]) = Some vs /\ In t vs.
Proof.
  exists "iter", "10", "10". split; [exists "10"; cbn; auto|].
  intros (vs & E & H). cbn in E. injection E as <-. cbn in H. intuition discriminate.
Qed.
Print Assumptions C54_single_value_refuted.

Example C54_nonvacuous :
  (forall a b, String.eqb a b = true <-> a = b) /\
  NoDup (map fst [("iter", VText "10_20"); ("seed", VOther "7")]) /\
  splittable (T := string) (VText "10_20") /\
  parse_slice_by String.eqb (fun s => s) [("iter", VText "10_20"); ("seed", VOther "7")]
    = [("iter", ["10"; "20"]); ("seed", ["7"])].
Proof.
  split; [apply String.eqb_eq|]. split; [repeat constructor; cbn; intuition discriminate|].
  split; [cbn; left; lia|reflexivity].
Qed.

(** * Dimensions *)

(** C59 as stated is false for dimensions: of two groups only the last is kept. *)
Theorem C59_dims_refuted :
  exists name vs r, dims_to_list [(name, vs)] = Ok r /\ In (Some "a&b") vs /\
    ~ (forall n gs, In (n, gs) r -> In ["a"; "b"] gs).
Proof.
  exists "table", [Some "a&b"; Some "c"]. eexists. split; [reflexivity|]. split; [cbn; auto|].
  intro H. specialize (H "table" [["c"]] (or_introl eq_refl)). cbn in H. intuition discriminate.
Qed.
Print Assumptions C59_dims_refuted.

(** C59 for dimensions, the part that holds: options with one group each. *)
Theorem C59_one_group_partial : forall l,
  (forall name vs, In (name, vs) l -> exists s, vs = [Some s] /\ s <> "") ->
  dims_to_list l = Ok (map (fun o => (fst o, match snd o with [Some s] => [split_on "&" s] | _ => [] end)) l).
Proof.
  intros l H. unfold dims_to_list. generalize (@None (list (list string))) as tup.
  induction l as [|[name vs] l IH]; intro tup; cbn [dims_items map]; auto.
  destruct (H name vs (or_introl eq_refl)) as (s & -> & Hs).
  unfold dims_values. cbn [fold_left]. destruct s as [|c s]; [congruence|].
  rewrite IH by (intros n0 v0 H0; apply (H n0 v0); cbn; auto). reflexivity.
Qed.
Print Assumptions C59_one_group_partial.

(** * Statistics *)

(** The pairs (statistic, dimensions) a user asks for: part by part, the j-th
    statistic of a part with the j-th dimensions of that part. *)
Definition asked (stat dim : string) : list stat_dims :=
  List.concat (map (fun p => combine (split_on "|" (fst p))
                                     (map (fun d => if String.eqb d "" then None else Some (split_on "+" d))
                                          (split_on "|" (snd p))))
                   (combine (split_on "&" stat) (split_on "&" dim))).

Lemma asked_model : forall stat dim, asked stat dim =
  List.concat (map (fun p => substatistics (fst p) (snd p)) (combine (split_on "&" stat) (split_on "&" dim))).
Proof.
  intros. unfold asked, substatistics. f_equal. apply map_ext. intros [a b]. cbn [fst snd]. f_equal.
  apply map_ext. intros []; reflexivity.
Qed.

(** As many parts, and in every part as many statistics as dimension groups. *)
Definition matching (stat dim : string) : Prop :=
  List.length (split_on "&" stat) = List.length (split_on "&" dim) /\
  forall s d, In (s, d) (combine (split_on "&" stat) (split_on "&" dim)) ->
    List.length (split_on "|" s) = List.length (split_on "|" d).

Fixpoint flatten_entries (l : list entry) : list stat_dims :=
  match l with
  | [] => []
  | Sub x :: l' => (x ++ flatten_entries l')%list
  | Nested xs :: l' => (List.concat xs ++ flatten_entries l')%list
  end.

Lemma flatten_app : forall a b, flatten_entries (a ++ b) = (flatten_entries a ++ flatten_entries b)%list.
Proof. induction a as [|[x|xs] a IH]; intro b; cbn [app flatten_entries]; auto; rewrite IH, app_assoc; auto. Qed.
Lemma flatten_subs : forall l, flatten_entries (map Sub l) = List.concat l.
Proof. induction l; cbn; congruence. Qed.

Lemma combine_nil_r : forall {A B} (l : list A), combine l (@nil B) = [].
Proof. destruct l; auto. Qed.

(** C59, statistics, the part that holds: when every part has as many statistics as
    dimension groups the parser succeeds, and whatever the order and repetition of
    metrics, flattening a metric's entry gives exactly the pairs asked for, in
    order; none is lost. *)
Theorem C59_statistics_flat_partial : forall l,
  (forall m s d, In (m, s, d) l -> matching s d) ->
  exists r, unpack_statistics l = Ok r /\
    forall metric,
      match sget metric r with
      | Some es => flatten_entries es = List.concat (map (fun o => asked (snd (fst o)) (snd o))
                       (filter (fun o => String.eqb metric (fst (fst o))) l))
      | None => forall s d, ~ In (metric, s, d) l
      end.
Proof.
  intros l Hm. unfold unpack_statistics.
  assert (G : forall l st, (forall m s d, In (m, s, d) l -> matching s d) ->
    exists r, unpack_all st l = Ok r /\ forall metric,
      match sget metric r with
      | Some es => flatten_entries es =
          ((match sget metric st with Some e0 => flatten_entries e0 | None => [] end) ++
           List.concat (map (fun o => asked (snd (fst o)) (snd o))
                       (filter (fun o => String.eqb metric (fst (fst o))) l)))%list
      | None => sget metric st = None /\ forall s d, ~ In (metric, s, d) l
      end).
  { clear. induction l as [|[[m s] d] l IH]; intros st Hm.
    - exists st. split; [reflexivity|]. intro metric. cbn. destruct (sget metric st); auto. rewrite app_nil_r; auto.
    - cbn [unpack_all]. unfold unpack_one.
      destruct (Hm m s d (or_introl eq_refl)) as [Hl _]. rewrite Hl, Nat.eqb_refl.
      set (subs := map (fun p => substatistics (fst p) (snd p)) (combine (split_on "&" s) (split_on "&" d))).
      assert (E : exists st1, match sget m st with
           | Some old => Ok (sset m (old ++ [Nested subs])%list st)
           | None => Ok (sset m (map Sub subs) st) end = Ok st1 /\
           forall metric, sget metric st1 = if String.eqb metric m
             then match sget m st with Some old => Some (old ++ [Nested subs])%list | None => Some (map Sub subs) end
             else sget metric st).
      { destruct (sget m st); eexists; (split; [reflexivity|]); intro; rewrite sget_sset; auto. }
      destruct E as (st1 & E & Hst1). rewrite E. cbn [rbind].
      destruct (IH st1 ltac:(intros; eapply Hm; cbn; eauto)) as (r & Er & Hr).
      exists r. split; auto. intro metric. specialize (Hr metric). rewrite Hst1 in Hr. cbn [filter fst snd].
      destruct (String.eqb_spec metric m) as [Hmm|Hne]; [try subst metric|].
      + destruct (sget m r) as [es|].
        * rewrite Hr. cbn [map List.concat fst snd]. rewrite (asked_model s d). fold subs.
          destruct (sget m st) as [old|].
          -- rewrite flatten_app. cbn [flatten_entries]. rewrite app_nil_r, app_assoc. auto.
          -- rewrite flatten_subs. auto.
        * destruct Hr as [Hr _]. destruct (sget m st); discriminate.
      + destruct (sget metric r) as [es|]; auto.
        destruct Hr as [H1 H2]. split; auto. intros s' d' [H|H]; [congruence|]. eapply H2; eauto. }
  destruct (G l [] Hm) as (r & E & Hr). exists r. split; auto. intro metric. specialize (Hr metric). cbn in Hr.
  destruct (sget metric r); auto. apply Hr.
Qed.
Print Assumptions C59_statistics_flat_partial.

(** Matching options lose no statistic: every statistic name of every part occurs. *)
Theorem C59_no_statistic_lost_partial : forall stat dim p s d name,
  matching stat dim -> In (s, d) (combine (split_on "&" stat) (split_on "&" dim)) ->
  p = (s, d) -> In name (split_on "|" s) -> exists ds, In (name, ds) (asked stat dim).
Proof.
  intros stat dim p s d name [_ Hm] Hin _ Hname. specialize (Hm s d Hin).
  rewrite asked_model. unfold substatistics. apply (In_nth _ _ "") in Hname as (i & Hi & <-).
  exists (nth i (map unpack_dim (split_on "|" d)) None).
  apply in_concat. exists (combine (split_on "|" s) (map unpack_dim (split_on "|" d))). split.
  - apply in_map_iff. exists (s, d). auto.
  - rewrite <- combine_nth by (rewrite map_length; auto).
    apply nth_In. rewrite combine_length, map_length. lia.
Qed.
Print Assumptions C59_no_statistic_lost_partial.

(** C59 as stated is false for statistics: with fewer dimension groups than
    statistics the surplus statistics are dropped without an error. *)
Theorem C59_statistics_dropped_refuted :
  exists m s d r, unpack_statistics [(m, s, d)] = Ok r /\ In "var" (split_on "|" s) /\
    forall es ds, sget m r = Some es -> ~ In ("var", ds) (flatten_entries es).
Proof.
  exists "srmse", "mean|var", "iter". eexists. split; [reflexivity|]. split; [cbn; auto|].
  intros es ds E H. cbn in E. injection E as <-. cbn in H. intuition discriminate.
Qed.
Print Assumptions C59_statistics_dropped_refuted.

(** Nor is the shape uniform: a metric given twice has its second list nested one
    level deeper than its first. *)
Theorem C59_repeated_metric_refuted :
  exists l r es, unpack_statistics l = Ok r /\ sget "srmse" r = Some es /\
    exists x y, es = [Sub x; Nested y].
Proof.
  exists [("srmse", "mean", "iter"); ("srmse", "var", "seed")]. eexists _, _.
  split; [reflexivity|]. split; [reflexivity|]. eexists _, _. reflexivity.
Qed.
Print Assumptions C59_repeated_metric_refuted.

Example C59_nonvacuous :
  matching "mean|var&mean" "iter|&seed+iter" /\
  unpack_statistics [("srmse", "mean|var&mean", "iter|&seed+iter")] =
    Ok [("srmse", [Sub [("mean", Some ["iter"]); ("var", None)]; Sub [("mean", Some ["seed"; "iter"])]])] /\
  dims_to_list [("table", [Some "a&b"]); ("intensity", [Some "c"])] =
    Ok [("table", [["a"; "b"]]); ("intensity", [["c"]])].
Proof.
  split; [|split; reflexivity]. split; [reflexivity|].
  intros s d H. cbn in H. destruct H as [H|[H|[]]]; injection H as <- <-; reflexivity.
Qed.

(** * Keyword arguments *)

(** The text neither begins nor ends with a space. *)
Definition no_outer_spaces (s : string) : Prop :=
  (forall t, s <> " " ++ t) /\ (forall t, s <> t ++ " ").

Lemma lstrip_id : forall s, (forall t, s <> " " ++ t) -> lstrip s = s.
Proof.
  destruct s as [|c s]; intro H; auto. cbn [lstrip].
  destruct c as [[] [] [] [] [] [] [] []]; try reflexivity. exfalso. apply (H s). reflexivity.
Qed.

Lemma rstrip_id : forall s, (forall t, s <> t ++ " ") -> rstrip s = s.
Proof.
  induction s as [|c s IH]; intro H; auto. cbn [rstrip].
  rewrite IH by (intros t E; apply (H (String c t)); cbn; congruence).
  destruct s; auto. destruct (Ascii.eqb_spec c " ") as [->|]; auto. exfalso. apply (H ""). reflexivity.
Qed.

Lemma strip_id : forall s, no_outer_spaces s -> strip s = s.
Proof. intros s [H1 H2]. unfold strip. rewrite rstrip_id by auto. apply lstrip_id; auto. Qed.

Lemma split_first_app : forall c a b, count_char c a = 0%nat -> split_first c (a ++ String c b) = Some (a, b).
Proof.
  intros c a b. induction a as [|x a IH]; intro H; cbn [append split_first].
  - rewrite Ascii.eqb_refl. auto.
  - cbn in H. destruct (Ascii.eqb x c); [discriminate|]. rewrite IH; auto.
Qed.

Lemma split_first_none : forall c a, count_char c a = 0%nat -> split_first c a = None.
Proof.
  intros c a. induction a as [|x a IH]; intro H; cbn [split_first]; auto.
  cbn in H. destruct (Ascii.eqb x c); [discriminate|]. rewrite IH; auto.
Qed.

(** C85: every option "key=value" is kept, in order, with the value complete - any
    further "=" belongs to the value - and an option without "=" stands for
    itself. *)
Theorem C85_keyword_arguments : forall l : list (string * option string),
  (forall k v, In (k, v) l -> count_char "=" k = 0%nat /\ no_outer_spaces k /\
     match v with Some s => no_outer_spaces s | None => True end) ->
  evaluate_kwargs_callback (map (fun p => match snd p with Some v => fst p ++ "=" ++ v | None => fst p end) l)
  = map (fun p => (fst p, match snd p with Some v => v | None => fst p end)) l.
Proof.
  intros l H. unfold evaluate_kwargs_callback. rewrite map_map. apply map_ext_in.
  intros [k v] Hin. destruct (H k v Hin) as (Hc & Hk & Hv). cbn [fst snd]. unfold kwarg_of. destruct v as [v|].
  - change (k ++ "=" ++ v) with (k ++ String "=" v). rewrite split_first_app by auto. rewrite !strip_id; auto.
  - rewrite split_first_none by auto. rewrite strip_id; auto.
Qed.
Print Assumptions C85_keyword_arguments.

Example C85_nonvacuous :
  evaluate_kwargs_callback [" srmse = MathUtils.srmse(a=1) "; "table"] =
    [("srmse", "MathUtils.srmse(a=1)"); ("table", "table")] /\
  no_outer_spaces "f(a=1, b=2)".
Proof.
  split; [reflexivity|]. split; intros t E; [discriminate|].
  assert (H : rstrip "f(a=1, b=2)" = rstrip (t ++ " ")) by (rewrite <- E; reflexivity).
  assert (G : forall t, rstrip (t ++ " ") <> t ++ " ").
  { clear. induction t as [|c t IH]; cbn [append rstrip]; [discriminate|]. intro H.
    destruct (rstrip (t ++ " ")) eqn:E; [|congruence].
    destruct (Ascii.eqb c " "); destruct t; discriminate. }
  apply (G t). rewrite <- H, <- E. reflexivity.
Qed.
