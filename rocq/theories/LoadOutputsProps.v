(** Theorems about loading the samples of a run (C186-C188). *)
From Coq Require Import List String ZArith QArith Qabs Bool Arith Lia Lqa.
From Verif Require Import Base PyMonad Inputs InputsProps Recorder RecorderProps Evaluate LoadOutputs.
Import ListNotations.
Open Scope Q_scope.
Open Scope string_scope.
Open Scope nat_scope.
Open Scope list_scope.

Lemma bind_inv : forall A B (x : res A) (f : A -> res B) r, rbind x f = Ok r -> exists a, x = Ok a /\ f a = Ok r.
Proof. intros A B [a|e] f r H; [now exists a|discriminate]. Qed.

(** ** C186: what was recorded is what is loaded *)

(** The samples that a run records row by row. *)
Definition row_sample (x : string) : Prop := out_iterable x = Ok true.

(** The coordinates that an array with [n] rows should have: those of the sweep,
    then the rows, then the dimensions of its schema. *)
Definition positions (n : nat) : list cval := map (fun k => CRow (S k)) (seq 0 n).
Definition axis_labels (sizes : string -> nat) (n : nat) (x : string) : list (string * list cval) :=
  ("iter", positions n) :: map (fun d => (d, positions (sizes d))) (out_dims x).
Lemma axis_labels_eq : forall sizes n x,
  axis_labels sizes n x = ("iter", labels n) :: map (fun d => (d, labels (sizes d))) (out_dims x).
Proof.
  assert (E : forall n, positions n = labels n).
  { intros n. unfold positions, labels. rewrite <- seq_shift, map_map. reflexivity. }
  intros sizes n x. unfold axis_labels. rewrite E. f_equal. apply map_ext. intros d. now rewrite E.
Qed.

Lemma add_dims_spec : forall sizes ds g, exists g', add_dims (map sizes ds) ds g = Ok g' /\
  (forall d, In d ds -> aget d g' = Some (labels (sizes d))) /\
  (forall d, ~ In d ds -> aget d g' = aget d g).
Proof.
  intros sizes ds. induction ds as [|d ds IH]; intro g.
  - exists g. split; [reflexivity|]. split; [contradiction|reflexivity].
  - cbn [map add_dims]. destruct (IH (aset d (labels (sizes d)) g)) as [g' [E [A B]]]. exists g'. split; [exact E|]. split.
    + intros d' [<-|K]; [|now apply A]. destruct (in_dec string_dec d ds) as [K|K]; [now apply A|].
      rewrite B by exact K. apply aget_aset_same.
    + intros d' K. rewrite B by (intro; apply K; now right). apply aget_aset_other. intros ->. apply K. now left.
Qed.

Lemma out_dims_iter : forall x, ~ In "iter" (out_dims x).
Proof.
  intros x. unfold out_dims. destruct (memb x _); [cbn; intros [K|[K|[]]]; discriminate|].
  destruct (String.eqb x _); [cbn; intros [K|[K|[]]]; discriminate|].
  destruct (memb x _); [cbn; intros [K|[K|[]]]; discriminate|intros []].
Qed.

(** One dataset: its entries are stored, and its labels overwrite those before. *)
Lemma read_one_spec : forall asked sizes cells st x g vs, row_sample x ->
  exists g' vs', read_one asked (g, vs) (dataset_of sizes cells st x) = Ok (g', vs') /\
    (In x asked ->
       vs' = aset x (flat_map (cells x) (st x)) vs /\ aget "iter" g' = Some (labels (List.length (st x))) /\
       (forall d, In d (out_dims x) -> aget d g' = Some (labels (sizes d))) /\
       (forall d, d <> "iter" -> ~ In d (out_dims x) -> aget d g' = aget d g)) /\
    (~ In x asked -> g' = g /\ vs' = vs).
Proof.
  intros asked sizes cells st x g vs R. unfold read_one, dataset_of. cbn [ds_name ds_shape ds_vals fst snd].
  destruct (memb x asked) eqn:M.
  - cbn [negb]. rewrite R. cbn [rbind].
    destruct (add_dims_spec sizes (out_dims x) (aset "iter" (labels (List.length (st x))) g)) as [g' [E [A B]]].
    rewrite E. cbn [rbind]. exists g', (aset x (flat_map (cells x) (st x)) vs). split; [reflexivity|].
    assert (In x asked) by (unfold memb in M; apply existsb_exists in M as [y [Y Z]]; apply String.eqb_eq in Z; now subst).
    split; [|contradiction]. intros _. split; [reflexivity|]. split; [rewrite B by apply out_dims_iter; apply aget_aset_same|].
    split; [exact A|]. intros d N K. rewrite B by exact K. now apply aget_aset_other.
  - cbn [negb]. exists g, vs. split; [reflexivity|].
    assert (~ In x asked).
    { intro K. assert (memb x asked = true); [|congruence]. unfold memb. apply existsb_exists. exists x. split; [exact K|apply String.eqb_refl]. }
    split; [contradiction|]. intros _. now split.
Qed.

(** All datasets: every asked sample is stored, in order; the dimensions have
    their labels, and "iter" those of the last asked sample. *)
Lemma read_all_spec : forall asked sizes cells st names g vs,
  (forall x, In x names -> row_sample x) -> NoDup names -> (forall x, In x names -> aget x vs = None) ->
  exists g', foldM (read_one asked) (map (dataset_of sizes cells st) names) (g, vs) =
      Ok (g', vs ++ map (fun x => (x, flat_map (cells x) (st x))) (filter (fun x => memb x asked) names)) /\
    (forall x d, In x names -> memb x asked = true -> In d (out_dims x) -> aget d g' = Some (labels (sizes d))) /\
    (forall d, aget d g = Some (labels (sizes d)) -> d <> "iter" -> aget d g' = Some (labels (sizes d))) /\
    match rev (filter (fun x => memb x asked) names) with
    | [] => aget "iter" g' = aget "iter" g
    | x :: _ => aget "iter" g' = Some (labels (List.length (st x)))
    end.
Proof.
  intros asked sizes cells st names. induction names as [|x names IH]; intros g vs R ND Fr.
  - exists g. cbn [map foldM filter rev app]. rewrite app_nil_r. repeat split; auto; intros; contradiction.
  - inversion ND as [|? ? Nx ND']; subst. cbn [map foldM].
    destruct (read_one_spec asked sizes cells st x g vs (R x (or_introl eq_refl))) as (g1 & vs1 & E & A & B).
    rewrite E. cbn [rbind]. cbn [filter]. destruct (memb x asked) eqn:M.
    + assert (K : In x asked) by (unfold memb in M; apply existsb_exists in M as [y [Y Z]]; apply String.eqb_eq in Z; now subst).
      destruct (A K) as (V1 & I1 & D1 & O1).
      assert (S : forall (l : list (string * list Z)) v, aget x l = None -> aset x v l = l ++ [(x, v)]).
      { clear. induction l as [|[k w] l IH]; intros v H; [reflexivity|]. cbn [aget] in H. cbn [aset app].
        destruct (String.eqb x k); [discriminate|]. now rewrite IH. }
      rewrite S in V1 by (apply Fr; now left). subst vs1.
      destruct (IH g1 (vs ++ [(x, flat_map (cells x) (st x))])) as (g' & E' & P1 & P2 & P3).
      { intros y Y. apply R. now right. } { exact ND'. }
      { intros y Y. assert (Q : aget y vs = None) by (apply Fr; now right).
        assert (y <> x) by (intros ->; contradiction). clear - Q H. induction vs as [|[k w] vs IH]; cbn [app aget] in *.
        - destruct (String.eqb_spec y x); [contradiction|reflexivity].
        - destruct (String.eqb y k); [discriminate|now apply IH]. }
      exists g'. split; [rewrite E'; cbn [map]; now rewrite <- app_assoc|].
      split; [|split].
      * intros y d [<-|Y] My Kd; [|now apply (P1 y)]. apply P2; [now apply D1|]. intros ->. now apply (out_dims_iter x).
      * intros d Kd Nd. apply P2; [|exact Nd]. destruct (in_dec string_dec d (out_dims x)) as [Q|Q]; [now apply D1|].
        now rewrite O1.
      * cbn [rev]. destruct (rev (filter (fun y => memb y asked) names)) as [|y r]; [cbn [app]; now rewrite P3|exact P3].
    + assert (K : ~ In x asked).
      { intro K. assert (memb x asked = true); [|congruence]. unfold memb. apply existsb_exists. exists x. split; [exact K|apply String.eqb_refl]. }
      destruct (B K) as [-> ->].
      destruct (IH g vs) as (g' & E' & P1 & P2 & P3); [intros; apply R; now right|exact ND'|intros; apply Fr; now right|].
      exists g'. split; [exact E'|]. split; [|split; [exact P2|exact P3]].
      intros y d [<-|Y] My Kd; [congruence|now apply (P1 y)].
Qed.

(** The coordinates that the swept values should become. *)
Definition sweep_coords (reading : string -> option Q) (sweep : list (string * string)) : list (string * list cval) :=
  flat_map (fun kv => match coordinate reading (fst kv) (snd kv) with Ok v => [(fst kv, v)] | Raise _ => [] end) sweep.
Definition castable (reading : string -> option Q) (sweep : list (string * string)) : Prop :=
  forall k t, In (k, t) sweep -> exists v, coordinate reading k t = Ok [v].

Lemma aset_new_key : forall V (l : list (string * V)) x v, aget x l = None -> aset x v l = l ++ [(x, v)].
Proof.
  induction l as [|[k w] l IH]; intros x v H; [reflexivity|]. cbn [aget] in H. cbn [aset app].
  destruct (String.eqb x k); [discriminate|]. now rewrite IH.
Qed.
Lemma aget_app_none : forall V (l l' : list (string * V)) x, aget x l = None -> aget x (l ++ l') = aget x l'.
Proof.
  induction l as [|[k w] l IH]; intros l' x H; [reflexivity|]. cbn [aget app] in *. destruct (String.eqb x k); [discriminate|auto].
Qed.
Lemma local_spec : forall reading sweep acc, castable reading sweep -> NoDup (map fst sweep) ->
  (forall k, In k (map fst sweep) -> aget k acc = None) ->
  foldM (fun acc kv => do v <- coordinate reading (fst kv) (snd kv) ; Ok (aset (fst kv) v acc)) sweep acc =
  Ok (acc ++ sweep_coords reading sweep).
Proof.
  intros reading sweep. induction sweep as [|[k t] sweep IH]; intros acc C ND Fr.
  - cbn [foldM]. unfold sweep_coords. cbn [flat_map]. now rewrite app_nil_r.
  - cbn [foldM fst snd]. destruct (C k t (or_introl eq_refl)) as [v V]. rewrite V. cbn [rbind].
    cbn [map fst] in ND, Fr. inversion ND as [|? ? Nk ND']; subst.
    rewrite aset_new_key by (apply Fr; now left). rewrite IH; [|intros k' t' K; apply (C k' t'); now right|exact ND'|].
    + unfold sweep_coords. cbn [flat_map fst snd]. rewrite V. cbn [app]. now rewrite <- app_assoc.
    + intros k' K. rewrite aget_app_none by (apply Fr; now right). cbn [aget].
      destruct (String.eqb_spec k' k) as [->|N]; [contradiction|reflexivity].
Qed.

Lemma sweep_coords_keys : forall reading sweep k v, In (k, v) (sweep_coords reading sweep) -> In k (map fst sweep) /\
  exists t, In (k, t) sweep /\ coordinate reading k t = Ok v.
Proof.
  intros reading sweep k v H. unfold sweep_coords in H. apply in_flat_map in H as [[k' t] [A B]]. cbn [fst snd] in B.
  destruct (coordinate reading k' t) as [v'|] eqn:E; [|contradiction]. destruct B as [B|[]]. injection B as <- <-.
  split; [apply in_map_iff; now exists (k', t)|]. now exists t.
Qed.
Lemma coordinate_one : forall reading k t v, coordinate reading k t = Ok v -> List.length v = 1.
Proof.
  intros reading k t v H. unfold coordinate in H. destruct (aget k coordinate_dtypes); [|discriminate].
  apply bind_inv in H as [x [_ H]]. now injection H as <-.
Qed.

Lemma merged_app : forall l2 l1, NoDup (map fst l2) -> (forall k, In k (map fst l2) -> aget k l1 = None) ->
  merged l1 l2 = l1 ++ l2.
Proof.
  unfold merged. induction l2 as [|[k v] l2 IH]; intros l1 ND Fr; [now rewrite app_nil_r|].
  cbn [map fst] in ND, Fr. inversion ND as [|? ? Nk ND']; subst. cbn [fold_left fst snd].
  rewrite aset_new_key by (apply Fr; now left). rewrite IH; [now rewrite <- app_assoc|exact ND'|].
  intros k' K. rewrite aget_app_none by (apply Fr; now right). cbn [aget].
  destruct (String.eqb_spec k' k) as [->|N]; [contradiction|reflexivity].
Qed.

Lemma picks_spec : forall g ks l, (forall k, In k ks -> aget k g = Some (l k)) ->
  picks g ks = Ok (map (fun k => (k, l k)) ks).
Proof.
  intros g ks l. induction ks as [|k ks IH]; intros H; [reflexivity|]. cbn [picks]. rewrite (H k (or_introl eq_refl)).
  rewrite IH by (intros; apply H; now right). reflexivity.
Qed.

Lemma lsize_app : forall a b, lsize (a ++ b) = lsize a * lsize b.
Proof.
  unfold lsize. induction a as [|[k v] a IH]; intros b; [cbn; lia|]. cbn [app fold_right snd]. rewrite IH. lia.
Qed.
Lemma lsize_ones : forall l, (forall k v, In (k, v) l -> List.length v = 1) -> lsize l = 1.
Proof.
  unfold lsize. induction l as [|[k v] l IH]; intros H; [reflexivity|]. cbn [fold_right snd].
  rewrite (H k v (or_introl eq_refl)). rewrite IH by (intros k' v' K; apply (H k' v'); now right). reflexivity.
Qed.
Lemma labels_length : forall n, List.length (labels n) = n.
Proof. intro n. unfold labels. now rewrite map_length, seq_length. Qed.
Lemma lsize_dims : forall sizes ds, lsize (map (fun d => (d, labels (sizes d))) ds) = fold_right (fun d n => sizes d * n) 1 ds.
Proof.
  intros sizes ds. unfold lsize. induction ds as [|d ds IH]; [reflexivity|]. cbn [map fold_right snd]. now rewrite IH, labels_length.
Qed.
Lemma lsize_axes : forall sizes n x, lsize (axis_labels sizes n x) = n * cell_count sizes x.
Proof.
  intros. rewrite axis_labels_eq. unfold cell_count. rewrite <- lsize_dims. unfold lsize at 1. cbn [fold_right snd]. now rewrite labels_length.
Qed.
Lemma flat_length : forall (c : Z -> list Z) k l, (forall r, List.length (c r) = k) -> List.length (flat_map c l) = List.length l * k.
Proof. intros c k l H. induction l as [|r l IH]; [reflexivity|]. cbn [flat_map List.length]. rewrite app_length, IH, H. lia. Qed.
Lemma flat_nth : forall (c : Z -> list Z) k l i j, (forall r, List.length (c r) = k) -> i < List.length l -> j < k ->
  nth (i * k + j) (flat_map c l) 0%Z = nth j (c (nth i l 0%Z)) 0%Z.
Proof.
  intros c k l. induction l as [|r l IH]; intros i j H Hi Hj; [cbn in Hi; lia|]. cbn [flat_map]. destruct i as [|i].
  - cbn [Nat.mul Nat.add]. rewrite app_nth1 by (rewrite H; lia). reflexivity.
  - rewrite app_nth2 by (rewrite H; cbn [Nat.mul]; lia). rewrite H. cbn [nth].
    replace (S i * k + j - k) with (i * k + j) by (cbn [Nat.mul]; lia). apply IH; [exact H|cbn [List.length] in Hi; lia|exact Hj].
Qed.
Lemma out_dims_NoDup : forall x, NoDup ("iter" :: out_dims x).
Proof.
  intro x. constructor; [apply out_dims_iter|]. unfold out_dims.
  destruct (memb x _); [repeat constructor; cbn; intuition discriminate|].
  destruct (String.eqb x _); [repeat constructor; cbn; intuition discriminate|].
  destruct (memb x _); repeat constructor; cbn; intuition discriminate.
Qed.
Lemma out_dims_core : forall x d, row_sample x -> In d (out_dims x) -> In d ["origin"; "destination"; "time"].
Proof.
  intros x d R. unfold row_sample, out_iterable in R. unfold out_dims.
  destruct (memb x ["intensity"; "table"]); [cbn; intros [K|[K|[]]]; subst; auto|].
  destruct (String.eqb x "log_destination_attraction"); [cbn; intros [K|[K|[]]]; subst; auto|].
  destruct (memb x ["r2"; "log_posterior_approximation"]); [|contradiction].
  destruct (memb x output_schema); discriminate.
Qed.

Lemma aget_filter_none : forall k x (l : list (string * list cval)), (forall v, ~ In (k, v) l) ->
  aget k (filter (fun kv => negb (String.eqb (fst kv) x)) l) = None.
Proof.
  intros k x l H. destruct (aget k (filter _ l)) as [v|] eqn:E; [|reflexivity]. exfalso.
  apply (H v). assert (G : forall m, aget k m = Some v -> In (k, v) m).
  { clear. induction m as [|[k' v'] m IH]; intro H; [discriminate|]. cbn [aget] in H.
    destruct (String.eqb_spec k k') as [->|N]; [injection H as ->; now left|right; auto]. }
  apply G in E. apply filter_In in E. tauto.
Qed.

Definition not_core (sweep : list (string * string)) : Prop :=
  forall k, In k (map fst sweep) -> ~ In k ["iter"; "origin"; "destination"; "time"].

(** A sample with the rows and dimensions of the global labels. *)
Lemma load_sample_ok : forall (reading : string -> option Q) (sizes : string -> nat) (cells : string -> Z -> list Z) (sweep : list (string * string)) (st : store) (x : string) n g,
  row_sample x -> not_core sweep -> (forall r, List.length (cells x r) = cell_count sizes x) ->
  List.length (st x) = n -> aget "iter" g = Some (labels n) ->
  (forall d, In d (out_dims x) -> aget d g = Some (labels (sizes d))) ->
  load_sample (sweep_coords reading sweep) g (x, flat_map (cells x) (st x)) =
  Ok (x, mkla (filter (fun kv => negb (String.eqb (fst kv) x)) (sweep_coords reading sweep) ++ axis_labels sizes n x)
         (flat_map (cells x) (st x))).
Proof.
  intros reading sizes cells sweep st x n g R NC CL Ln Ig Dg. unfold load_sample. cbn [fst snd]. rewrite R. cbn [rbind].
  cbn [app]. rewrite (picks_spec g ("iter" :: out_dims x) (fun d => if String.eqb d "iter" then labels n else labels (sizes d))).
  2: { intros k [<-|K]; [exact Ig|]. destruct (String.eqb_spec k "iter") as [->|N]; [now apply out_dims_iter in K|now apply Dg]. }
  cbn [rbind].
  assert (Ax : map (fun k => (k, if String.eqb k "iter" then labels n else labels (sizes k))) ("iter" :: out_dims x) = axis_labels sizes n x).
  { rewrite axis_labels_eq. cbn [map]. change (String.eqb "iter" "iter") with true. cbv iota. f_equal. apply map_ext_in. intros d K.
    destruct (String.eqb_spec d "iter") as [->|N]; [now apply out_dims_iter in K|reflexivity]. }
  rewrite Ax. rewrite merged_app.
  - rewrite lsize_app, lsize_axes. rewrite lsize_ones.
    + rewrite (flat_length (cells x) (cell_count sizes x)) by exact CL. rewrite Ln, Nat.mul_1_l, Nat.eqb_refl. reflexivity.
    + intros k v K. apply filter_In in K as [K _]. apply sweep_coords_keys in K as [_ [t [_ K]]]. now apply coordinate_one in K.
  - rewrite axis_labels_eq. cbn [map fst]. rewrite map_map. cbn [fst]. rewrite map_id. apply out_dims_NoDup.
  - intros k K. apply aget_filter_none. intros v V. apply sweep_coords_keys in V as [V _].
    apply (NC k V). rewrite axis_labels_eq in K. cbn [map fst] in K. rewrite map_map in K. cbn [fst] in K. rewrite map_id in K.
    destruct K as [<-|K]; [now left|]. right. now apply (out_dims_core x).
Qed.

(** If all the samples asked for have the same number of rows, loading gives
    each of them, with its entries in the recorded order: the swept values as
    coordinates (all but one that carries the sample's own name), the row
    numbers as "iter" and the positions along the dimensions of the schema. *)
Theorem C186_loaded_partial : forall (reading : string -> option Q) (sizes : string -> nat) (cells : string -> Z -> list Z) (sweep : list (string * string)) (names asked : list string) (st : store) n,
  NoDup names -> (forall x, In x names -> row_sample x) ->
  (forall x r, List.length (cells x r) = cell_count sizes x) ->
  (forall x, In x names -> In x asked -> List.length (st x) = n) ->
  NoDup (map fst sweep) -> not_core sweep -> castable reading sweep ->
  exists l, load_h5 reading asked (file_of sizes cells sweep names st) = Ok l /\
    (forall x, In x (map fst l) <-> In x names /\ In x asked) /\
    forall x, In x names -> In x asked -> exists a, In (x, a) l /\
      l_coords a = filter (fun kv => negb (String.eqb (fst kv) x)) (sweep_coords reading sweep) ++ axis_labels sizes n x /\
      List.length (l_vals a) = n * cell_count sizes x /\
      forall i j, i < n -> j < cell_count sizes x ->
        nth (i * cell_count sizes x + j) (l_vals a) 0%Z = nth j (cells x (nth i (st x) 0%Z)) 0%Z.
Proof.
  intros reading sizes cells sweep names asked st n ND R CL Ln NDs NC Ca.
  destruct (read_all_spec asked sizes cells st names [] [] R ND) as (g & E & P1 & P2 & P3); [reflexivity|].
  unfold load_h5, file_of, read_h5. cbn [g_sets g_sweep]. rewrite E. cbn [rbind app].
  rewrite (local_spec reading sweep [] Ca NDs) by reflexivity. cbn [rbind app].
  assert (Mi : forall x, memb x asked = true <-> In x asked).
  { intro x. unfold memb. rewrite existsb_exists. split; [intros [y [Y Z]]; apply String.eqb_eq in Z; now subst|].
    intro K. exists x. split; [exact K|apply String.eqb_refl]. }
  set (sel := filter (fun x => memb x asked) names) in *.
  assert (Sel : forall x, In x sel <-> In x names /\ In x asked).
  { intro x. unfold sel. rewrite filter_In, Mi. tauto. }
  assert (It : forall x, In x sel -> aget "iter" g = Some (labels n)).
  { intros x K. destruct (rev sel) as [|y r] eqn:Rv.
    - exfalso. apply (f_equal (@rev string)) in Rv. rewrite rev_involutive in Rv. rewrite Rv in K. contradiction.
    - rewrite P3. f_equal. f_equal. assert (Y : In y sel) by (apply in_rev; rewrite Rv; now left).
      apply Sel in Y as [Y1 Y2]. now apply Ln. }
  assert (Mm : forall m, (forall x, In x m -> In x sel) ->
    mapM (load_sample (sweep_coords reading sweep) g) (map (fun x => (x, flat_map (cells x) (st x))) m) =
    Ok (map (fun x => (x, mkla (filter (fun kv => negb (String.eqb (fst kv) x)) (sweep_coords reading sweep) ++ axis_labels sizes n x)
         (flat_map (cells x) (st x)))) m)).
  { induction m as [|x m IH]; intros Hm; [reflexivity|]. cbn [map mapM].
    assert (K : In x sel) by (apply Hm; now left). pose proof (proj1 (Sel x) K) as [K1 K2].
    rewrite (load_sample_ok reading sizes cells sweep st x n g); [cbn [rbind]; rewrite IH; [reflexivity|]| | | | | |].
    - intros; apply Hm; now right.
    - now apply R. - exact NC. - intro r. apply CL. - now apply Ln. - now apply (It x).
    - intros d Kd. apply (P1 x); [exact K1|now apply Mi|exact Kd]. }
  rewrite (Mm sel) by auto. eexists. split; [reflexivity|]. split.
  - intro x. rewrite map_map. cbn [fst]. rewrite map_id. apply Sel.
  - intros x K1 K2. eexists. split; [apply in_map_iff; exists x; split; [reflexivity|apply Sel; now split]|].
    cbn [l_coords l_vals]. split; [reflexivity|]. split.
    + rewrite (flat_length (cells x) (cell_count sizes x)) by apply CL. now rewrite Ln.
    + intros i j Hi Hj. apply flat_nth; [apply CL|now rewrite Ln|exact Hj].
Qed.
Print Assumptions C186_loaded_partial.

(** Two samples with different numbers of rows cannot be loaded together: the
    labels of the rows are shared by all samples of the file. *)
Theorem C186_rows_refuted : forall (reading : string -> option Q) (sizes : string -> nat) (cells : string -> Z -> list Z) (sweep : list (string * string)) (names asked : list string) (st : store) x y,
  NoDup names -> (forall z, In z names -> row_sample z) ->
  (forall z r, List.length (cells z r) = cell_count sizes z) ->
  not_core sweep -> castable reading sweep -> NoDup (map fst sweep) ->
  In x names -> In x asked -> In y names -> In y asked ->
  0 < cell_count sizes x -> 0 < cell_count sizes y -> List.length (st x) <> List.length (st y) ->
  exists e, load_h5 reading asked (file_of sizes cells sweep names st) = Raise e.
Proof.
  intros reading sizes cells sweep names asked st x y ND R CL NC Ca NDs Nx Ax Ny Ay Px Py Df.
  destruct (read_all_spec asked sizes cells st names [] [] R ND) as (g & E & P1 & P2 & P3); [reflexivity|].
  unfold load_h5, file_of, read_h5. cbn [g_sets g_sweep]. rewrite E. cbn [rbind app].
  rewrite (local_spec reading sweep [] Ca NDs) by reflexivity. cbn [rbind app].
  assert (Mi : forall z, memb z asked = true <-> In z asked).
  { intro z. unfold memb. rewrite existsb_exists. split; [intros [u [Y Z]]; apply String.eqb_eq in Z; now subst|].
    intro K. exists z. split; [exact K|apply String.eqb_refl]. }
  set (sel := filter (fun z => memb z asked) names) in *.
  assert (Sel : forall z, In z sel <-> In z names /\ In z asked).
  { intro z. unfold sel. rewrite filter_In, Mi. tauto. }
  destruct (rev sel) as [|u r] eqn:Rv.
  { exfalso. apply (f_equal (@rev string)) in Rv. rewrite rev_involutive in Rv. assert (K : In x sel) by (apply Sel; now split).
    rewrite Rv in K. contradiction. }
  assert (exists z, In z sel /\ 0 < cell_count sizes z /\ List.length (st z) <> List.length (st u)) as (z & Zs & Zp & Zn).
  { destruct (Nat.eq_dec (List.length (st x)) (List.length (st u))) as [Q|Q].
    - exists y. split; [apply Sel; now split|]. split; [exact Py|]. rewrite <- Q. auto.
    - exists x. split; [apply Sel; now split|]. now split. }
  destruct (mapM _ _) as [l|e] eqn:M; [|now exists e]. exfalso.
  assert (Q : exists a, load_sample (sweep_coords reading sweep) g (z, flat_map (cells z) (st z)) = Ok a).
  { clear - M Zs. revert l M. induction sel as [|s sel IH]; intros l M; [contradiction|]. cbn [map mapM] in M.
    apply bind_inv in M as [a [A M]]. apply bind_inv in M as [l' [B M]]. destruct Zs as [->|Zs]; [now exists a|now apply (IH Zs l')]. }
  destruct Q as [a Q]. unfold load_sample in Q. cbn [fst snd] in Q.
  destruct (proj1 (Sel z) Zs) as [Z1 Z2]. rewrite (R z Z1) in Q. cbn [rbind app] in Q.
  rewrite (picks_spec g ("iter" :: out_dims z) (fun d => if String.eqb d "iter" then labels (List.length (st u)) else labels (sizes d))) in Q.
  2: { intros k [<-|K]; [exact P3|]. destruct (String.eqb_spec k "iter") as [->|N]; [now apply out_dims_iter in K|].
       apply (P1 z); [exact Z1|now apply Mi|exact K]. }
  cbn [rbind] in Q.
  assert (Axs : map (fun k => (k, if String.eqb k "iter" then labels (List.length (st u)) else labels (sizes k))) ("iter" :: out_dims z) = axis_labels sizes (List.length (st u)) z).
  { rewrite axis_labels_eq. cbn [map]. change (String.eqb "iter" "iter") with true. cbv iota. f_equal. apply map_ext_in. intros d K.
    destruct (String.eqb_spec d "iter") as [->|N]; [now apply out_dims_iter in K|reflexivity]. }
  rewrite Axs in Q. rewrite merged_app in Q.
  - rewrite lsize_app, lsize_axes in Q. rewrite lsize_ones in Q.
    + rewrite (flat_length (cells z) (cell_count sizes z)) in Q by apply CL.
      destruct (Nat.eqb_spec (List.length (st z) * cell_count sizes z) (1 * (List.length (st u) * cell_count sizes z))) as [W|W]; [|discriminate].
      apply Zn. rewrite Nat.mul_1_l in W. nia.
    + intros k v K. apply filter_In in K as [K _]. apply sweep_coords_keys in K as [_ [t [_ K]]]. now apply coordinate_one in K.
  - rewrite axis_labels_eq. cbn [map fst]. rewrite map_map. cbn [fst]. rewrite map_id. apply out_dims_NoDup.
  - intros k K. apply aget_filter_none. intros v V. apply sweep_coords_keys in V as [V _].
    apply (NC k V). rewrite axis_labels_eq in K. cbn [map fst] in K. rewrite map_map in K. cbn [fst] in K. rewrite map_id in K.
    destruct K as [<-|K]; [now left|]. right. apply (out_dims_core z); [now apply R|exact K].
Qed.
Print Assumptions C186_rows_refuted.

(** The joint sampler with different numbers of parameter and table samples per
    iteration leaves a file whose signs and tables cannot be loaded together. *)
Lemma flat_map_const_length : forall (A : Type) (f : A -> list Z) k l, (forall a, In a l -> List.length (f a) = k) ->
  List.length (flat_map f l) = List.length l * k.
Proof.
  intros A f k l H. induction l as [|a l IH]; [reflexivity|]. cbn [flat_map List.length]. rewrite app_length.
  rewrite (H a (or_introl eq_refl)), IH by (intros; apply H; now right). reflexivity.
Qed.
Lemma scheduled_In : forall A s e (l : list A) x, In x (scheduled s e l) -> In x l.
Proof.
  intros A s e l x H. unfold scheduled in H. apply in_map_iff in H as ([k y] & <- & H). apply filter_In in H as [H _].
  now apply in_combine_r in H.
Qed.
Theorem C186_joint_refuted : forall (c : rec_settings) (its : list iteration) a b,
  export_samples c = true -> (1 <= write_every c)%Z -> output_names c = joint_mcmc_outputs ->
  plain_names (to_learn c) -> full_thetas c its ->
  (forall it, In it its -> List.length (it_theta it) = a /\ List.length (it_table it) = b) -> a <> b ->
  scheduled (write_start c) (write_every c) its <> [] ->
  exists st, joint_mcmc_run c its empty_store = Ok st /\
    forall (reading : string -> option Q) sizes cells sweep names asked,
      NoDup names -> (forall z, In z names -> row_sample z) -> In "sign" names -> In "table" names ->
      In "sign" asked -> In "table" asked -> 0 < sizes "origin" -> 0 < sizes "destination" ->
      (forall z r, List.length (cells z r) = cell_count sizes z) ->
      not_core sweep -> castable reading sweep -> NoDup (map fst sweep) ->
      exists e, load_h5 reading asked (file_of sizes cells sweep names st) = Raise e.
Proof.
  intros c its a b Hx He Ho Hp Hf Hn Hab Hs.
  destruct (C50_joint_rows c its Hx He Ho Hp Hf) as (st & E & _ & _ & Sg & _ & _ & Tb & _).
  exists st. split; [exact E|]. intros reading sizes cells sweep names asked ND R N1 N2 A1 A2 P1 P2 CL NC Ca NDs.
  apply (C186_rows_refuted reading sizes cells sweep names asked st "sign" "table"); auto.
  - unfold cell_count. change (out_dims "table") with ["origin"; "destination"]. cbn [fold_right]. nia.
  - rewrite Sg, Tb. rewrite (flat_map_const_length iteration _ a), (flat_map_const_length iteration _ b).
    + destruct (scheduled (write_start c) (write_every c) its) as [|i r]; [contradiction|]. cbn [List.length]. intro W. apply Hab. apply Nat.mul_cancel_l in W; [exact W|discriminate].
    + intros it K. rewrite map_length. apply (Hn it). now apply scheduled_In in K.
    + intros it K. rewrite map_length. apply (Hn it). now apply scheduled_In in K.
Qed.
Print Assumptions C186_joint_refuted.

(** "log_target" is a dataset of both samplers in which nothing is ever
    recorded: asking for it together with the signs fails after every run that
    recorded something. *)
Theorem C186_log_target_refuted : forall (c : rec_settings) (its : list iteration),
  export_samples c = true -> (1 <= write_every c)%Z -> output_names c = joint_mcmc_outputs ->
  plain_names (to_learn c) -> ~ In "log_target" (to_learn c) -> full_thetas c its ->
  (exists it, In it (scheduled (write_start c) (write_every c) its) /\ it_theta it <> []) ->
  exists st, joint_mcmc_run c its empty_store = Ok st /\ st "log_target" = [] /\
    forall (reading : string -> option Q) sizes cells sweep names asked,
      NoDup names -> (forall z, In z names -> row_sample z) -> In "sign" names -> In "log_target" names ->
      In "sign" asked -> In "log_target" asked ->
      (forall z r, List.length (cells z r) = cell_count sizes z) ->
      not_core sweep -> castable reading sweep -> NoDup (map fst sweep) ->
      exists e, load_h5 reading asked (file_of sizes cells sweep names st) = Raise e.
Proof.
  intros c its Hx He Ho Hp Hlt Hf [it0 [Ht0 Ht1]].
  destruct (C50_joint_rows c its Hx He Ho Hp Hf) as (st & E & _ & _ & Sg & _).
  assert (Lt : st "log_target" = []).
  { destruct (mcmc_loop_spec true c its 1 empty_store) as (st' & E' & Hs); auto; [lia| |].
    { destruct Hp. intros; eapply usual_iteration; eauto. }
    unfold joint_mcmc_run in E. rewrite E in E'. injection E' as <-. rewrite Hs. cbn [empty_store app].
    apply flat_map_nil. intros it _. apply flat_map_nil. intros kw _. unfold row_of.
    change (mem_s "log_target" row_names) with false. cbn [andb]. rewrite app_nil_r.
    destruct (mem_s "theta" (output_names c)); [|reflexivity]. destruct (kw_get kw "theta") as [[v|vs]|]; try reflexivity.
    unfold component.
    assert (Q : forall (l : list string) ws, ~ In "log_target" l -> filter (fun p : string * Z => String.eqb (fst p) "log_target") (combine l ws) = []).
    { induction l as [|x l IH]; intros [|w ws] N; try reflexivity. cbn [combine filter fst].
      destruct (String.eqb_spec x "log_target") as [->|N']; [exfalso; apply N; now left|]. apply IH. intro; apply N; now right. }
    now rewrite Q. }
  exists st. split; [exact E|]. split; [exact Lt|]. intros reading sizes cells sweep names asked ND R N1 N2 A1 A2 CL NC Ca NDs.
  apply (C186_rows_refuted reading sizes cells sweep names asked st "sign" "log_target"); auto.
  rewrite Lt, Sg. destruct (it_theta it0) as [|s r] eqn:T; [contradiction|]. cbn [List.length].
    intro Z. assert (K : In (snd s) (flat_map (fun it => map snd (it_theta it)) (scheduled (write_start c) (write_every c) its))).
    { apply in_flat_map. exists it0. split; [exact Ht0|]. rewrite T. now left. }
    destruct (flat_map _ _); [contradiction|discriminate].
Qed.
Print Assumptions C186_log_target_refuted.

(** Files that are missing, in use or damaged give no arrays and no error. *)
Theorem C186_silent_refuted : forall (reading : string -> option Q) names f,
  f = Missing \/ f = InUse \/ f = File [] \/ (exists g gs d, f = File (g :: gs) /\ In d (g_sets g) /\
     In (ds_name d) names /\ ds_shape d = [] /\ row_sample (ds_name d) /\
     (forall d', In d' (g_sets g) -> d' = d \/ ~ In (ds_name d') names)) ->
  load_h5 reading names f = Ok [].
Proof.
  intros reading names f [->|[->|[->|(g & gs & d & -> & Dg & Dn & Ds & Dr & Do)]]]; try reflexivity.
  unfold load_h5, read_h5.
  assert (K : exists e, foldM (read_one names) (g_sets g) ([], []) = Raise e).
  { revert Dg Do. generalize (@nil (string * list cval), @nil (string * list Z)). induction (g_sets g) as [|d' l IH]; intros s Dg Do; [contradiction|].
    cbn [foldM]. destruct (Do d' (or_introl eq_refl)) as [->|N].
    - exists EIndex. unfold read_one. assert (M : memb (ds_name d) names = true).
      { unfold memb. apply existsb_exists. exists (ds_name d). split; [exact Dn|apply String.eqb_refl]. }
      rewrite M, Dr. cbn [negb rbind]. now rewrite Ds.
    - assert (M : memb (ds_name d') names = false).
      { destruct (memb (ds_name d') names) eqn:M; [|reflexivity]. exfalso. apply N. unfold memb in M. apply existsb_exists in M as [y [Y1 Y2]].
        apply String.eqb_eq in Y2. now rewrite Y2. }
      unfold read_one at 1. rewrite M. cbn [negb rbind]. apply IH; [|intros; apply Do; now right].
      destruct Dg as [->|Dg]; [contradiction|exact Dg]. }
  destruct K as [e ->]. reflexivity.
Qed.
Print Assumptions C186_silent_refuted.

(** ** C187: what the label of a row says *)

(** The iterations recorded with start [s] and period [e] are the multiples of
    [e] from the first one that is at least max(s, 1). *)
Definition recorded_at (s e : Z) (i : nat) : Z := (((Z.max s 1 + e - 1) / e + Z.of_nat i) * e)%Z.

Lemma scheduled_times : forall s e n, (1 <= e)%Z ->
  filter (on_schedule s e) (map Z.of_nat (seq 1 n)) =
  map (recorded_at s e) (seq 0 (Z.to_nat (Z.of_nat n / e - (Z.max s 1 + e - 1) / e + 1))).
Proof.
  intros s e n He. set (q := ((Z.max s 1 + e - 1) / e)%Z).
  assert (Q1 : (Z.max s 1 <= q * e)%Z).
  { unfold q. pose proof (Z.div_mod (Z.max s 1 + e - 1) e ltac:(lia)). pose proof (Z.mod_pos_bound (Z.max s 1 + e - 1) e ltac:(lia)). nia. }
  assert (Q2 : ((q - 1) * e < Z.max s 1)%Z).
  { unfold q. pose proof (Z.div_mod (Z.max s 1 + e - 1) e ltac:(lia)). pose proof (Z.mod_pos_bound (Z.max s 1 + e - 1) e ltac:(lia)). nia. }
  assert (RA : forall i, recorded_at s e i = ((q + Z.of_nat i) * e)%Z) by reflexivity.
  clearbody q. induction n as [|n IH].
  - cbn [seq map filter]. assert (q >= 1)%Z by nia. replace (Z.of_nat 0 / e)%Z with 0%Z by (symmetry; apply Z.div_0_l; lia).
    replace (Z.to_nat (0 - q + 1)) with 0 by lia. reflexivity.
  - rewrite seq_S, map_app, filter_app, IH. cbn [map filter plus].
    assert (D : (Z.of_nat (S n) = e * (Z.of_nat (S n) / e) + Z.of_nat (S n) mod e)%Z) by (apply Z.div_mod; lia).
    pose proof (Z.mod_pos_bound (Z.of_nat (S n)) e ltac:(lia)) as Mb.
    assert (D' : (Z.of_nat n = e * (Z.of_nat n / e) + Z.of_nat n mod e)%Z) by (apply Z.div_mod; lia).
    pose proof (Z.mod_pos_bound (Z.of_nat n) e ltac:(lia)) as Mb'.
    unfold on_schedule at 1. destruct (Z.leb_spec s (Z.of_nat (S n))) as [S1|S1]; cbn [andb].
    + destruct (Z.eqb_spec (Z.of_nat (S n) mod e) 0) as [M|M].
      * assert (Dv : (Z.of_nat n / e = Z.of_nat (S n) / e - 1)%Z).
        { rewrite M in D. generalize dependent (Z.of_nat (S n) / e)%Z. intros d D. symmetry. apply Z.div_unique with (r := (e - 1)%Z); lia. }
        assert (Ge : (q <= Z.of_nat (S n) / e)%Z) by nia.
        replace (Z.to_nat (Z.of_nat (S n) / e - q + 1)) with (S (Z.to_nat (Z.of_nat n / e - q + 1))) by lia.
        rewrite seq_S, map_app. f_equal. cbn [map plus]. f_equal. rewrite RA. rewrite Z2Nat.id by lia. rewrite Dv. nia.
      * assert (Dv : (Z.of_nat n / e = Z.of_nat (S n) / e)%Z).
        { symmetry in D. symmetry. apply Z.div_unique with (r := (Z.of_nat n - e * (Z.of_nat (S n) / e))%Z); [|lia]. left. split; [|]; lia. }
        rewrite Dv, app_nil_r. reflexivity.
    + rewrite app_nil_r.
      assert (L1 : (Z.of_nat (S n) / e < q)%Z).
      { destruct (Z.lt_ge_cases (Z.of_nat (S n) / e) q) as [L|L]; [exact L|]. exfalso. nia. }
      assert (L2 : (Z.of_nat n / e <= Z.of_nat (S n) / e)%Z) by (apply Z.div_le_mono; lia).
      f_equal. f_equal. lia.
Qed.

Lemma scheduled_nth_aux : forall A s e (d : A) l pre,
  map snd (filter (fun p => on_schedule s e (fst p)) (combine (map Z.of_nat (seq (S (List.length pre)) (List.length l))) l)) =
  map (fun t => nth (Z.to_nat t - 1) (pre ++ l) d) (filter (on_schedule s e) (map Z.of_nat (seq (S (List.length pre)) (List.length l)))).
Proof.
  intros A s e d. induction l as [|x l IH]; intros pre; [reflexivity|].
  cbn [List.length seq map combine filter fst].
  specialize (IH (pre ++ [x])). rewrite app_length in IH. cbn [List.length] in IH. rewrite Nat.add_1_r in IH.
  rewrite <- app_assoc in IH. cbn [app] in IH.
  destruct (on_schedule s e (Z.of_nat (S (List.length pre)))); cbn [map snd]; rewrite IH; [|reflexivity].
  f_equal. rewrite Nat2Z.id. replace (S (List.length pre) - 1) with (List.length pre) by lia.
  rewrite app_nth2, Nat.sub_diag by lia. reflexivity.
Qed.
Lemma scheduled_nth : forall A s e (d : A) l i, (1 <= e)%Z -> i < List.length (scheduled s e l) ->
  nth i (scheduled s e l) d = nth (Z.to_nat (recorded_at s e i) - 1) l d /\
  (1 <= recorded_at s e i <= Z.of_nat (List.length l))%Z /\ on_schedule s e (recorded_at s e i) = true.
Proof.
  intros A s e d l i He Hi. pose proof (scheduled_nth_aux A s e d l []) as H. cbn [List.length app] in H.
  change (scheduled s e l = map (fun t => nth (Z.to_nat t - 1) l d) (filter (on_schedule s e) (map Z.of_nat (seq 1 (List.length l))))) in H.
  assert (L : i < List.length (filter (on_schedule s e) (map Z.of_nat (seq 1 (List.length l))))) by (rewrite H, map_length in Hi; exact Hi).
  assert (T : nth i (filter (on_schedule s e) (map Z.of_nat (seq 1 (List.length l)))) 0%Z = recorded_at s e i).
  { rewrite scheduled_times in L |- * by exact He. rewrite map_length, seq_length in L.
    rewrite (nth_indep _ 0%Z (recorded_at s e 0)) by (now rewrite map_length, seq_length).
    rewrite (map_nth (recorded_at s e)), seq_nth by exact L. reflexivity. }
  split.
  - rewrite H. rewrite (nth_indep _ d (nth (Z.to_nat 0 - 1) l d)) by (rewrite map_length; exact L).
    rewrite (map_nth (fun t => nth (Z.to_nat t - 1) l d)), T. reflexivity.
  - assert (K : In (recorded_at s e i) (filter (on_schedule s e) (map Z.of_nat (seq 1 (List.length l))))) by (rewrite <- T; now apply nth_In).
    apply filter_In in K as [K1 K2]. split; [|exact K2]. apply in_map_iff in K1 as [m [<- K1]]. apply in_seq in K1. lia.
Qed.

Lemma flat_nth_gen : forall A (f : A -> list Z) k l (d : A) r, (forall a, In a l -> List.length (f a) = k) -> r < List.length l * k ->
  nth r (flat_map f l) 0%Z = nth (r mod k) (f (nth (r / k) l d)) 0%Z.
Proof.
  intros A f k l d. induction l as [|a l IH]; intros r H Hr; [cbn in Hr; lia|]. cbn [flat_map].
  assert (k <> 0) by (intros ->; rewrite Nat.mul_0_r in Hr; lia).
  pose proof (H a (or_introl eq_refl)) as La. destruct (Nat.lt_ge_cases r k) as [L|L].
  - rewrite app_nth1 by lia. rewrite Nat.mod_small, Nat.div_small by exact L. reflexivity.
  - rewrite app_nth2 by lia. rewrite La. rewrite IH; [|intros; apply H; now right|cbn [List.length] in Hr; lia].
    replace r with ((r - k) + 1 * k) at 3 4 by lia. rewrite Nat.mod_add, Nat.div_add by assumption.
    rewrite Nat.add_1_r. reflexivity.
Qed.

(** The tables of a joint run with [b] tables per iteration: the row labelled
    [r] holds table number (r-1) mod b of the recorded iteration number
    (r-1)/b, that is of iteration [recorded_at start every ((r-1)/b)]. *)
Theorem C187_labels_partial : forall (c : rec_settings) (its : list iteration) b it0,
  export_samples c = true -> (1 <= write_every c)%Z -> output_names c = joint_mcmc_outputs ->
  plain_names (to_learn c) -> full_thetas c its ->
  (forall it, In it its -> List.length (it_table it) = b) ->
  exists st, joint_mcmc_run c its empty_store = Ok st /\
    forall (reading : string -> option Q) sizes cells sweep names,
      NoDup names -> (forall z, In z names -> row_sample z) -> In "table" names ->
      (forall z r, List.length (cells z r) = cell_count sizes z) ->
      not_core sweep -> castable reading sweep -> NoDup (map fst sweep) ->
      exists l a n, load_h5 reading ["table"] (file_of sizes cells sweep names st) = Ok l /\ In ("table", a) l /\
        n = List.length (scheduled (write_start c) (write_every c) its) * b /\
        In ("iter", positions n) (l_coords a) /\ List.length (l_vals a) = n * cell_count sizes "table" /\
        forall r j, 1 <= r <= n -> j < cell_count sizes "table" ->
          let t := recorded_at (write_start c) (write_every c) ((r - 1) / b) in
          (1 <= t <= Z.of_nat (List.length its))%Z /\ on_schedule (write_start c) (write_every c) t = true /\
          nth ((r - 1) * cell_count sizes "table" + j) (l_vals a) 0%Z =
          nth j (cells "table" (nth ((r - 1) mod b) (map fst (it_table (nth (Z.to_nat t - 1) its it0))) 0%Z)) 0%Z.
Proof.
  intros c its b it0 Hx He Ho Hp Hf Hb.
  destruct (C50_joint_rows c its Hx He Ho Hp Hf) as (st & E & _ & _ & _ & _ & _ & Tb & _).
  exists st. split; [exact E|]. intros reading sizes cells sweep names ND R N1 CL NC Ca NDs.
  assert (Hbs : forall it, In it (scheduled (write_start c) (write_every c) its) -> List.length (map fst (it_table it)) = b).
  { intros it K. rewrite map_length. apply Hb. now apply scheduled_In in K. }
  assert (Ln : List.length (st "table") = List.length (scheduled (write_start c) (write_every c) its) * b)
    by (rewrite Tb; now apply flat_map_const_length).
  destruct (C186_loaded_partial reading sizes cells sweep names ["table"] st _ ND R CL ltac:(intros x _ [<-|[]]; exact Ln) NDs NC Ca)
    as (l & El & _ & La).
  destruct (La "table" N1 (or_introl eq_refl)) as (a & Ia & Ca' & Va & Na).
  exists l, a, (List.length (scheduled (write_start c) (write_every c) its) * b).
  split; [exact El|]. split; [exact Ia|]. split; [reflexivity|]. split.
  { rewrite Ca'. apply in_or_app. right. now left. }
  split; [exact Va|]. intros r j Hr Hj t.
  assert (Hd : (r - 1) / b < List.length (scheduled (write_start c) (write_every c) its)).
  { apply Nat.div_lt_upper_bound; [intros ->; lia|]. lia. }
  destruct (scheduled_nth iteration (write_start c) (write_every c) it0 its ((r - 1) / b) He Hd) as (S1 & S2 & S3).
  split; [exact S2|]. split; [exact S3|]. rewrite Na by lia. rewrite Tb.
  rewrite (flat_nth_gen iteration (fun it => map fst (it_table it)) b _ it0) by (auto; lia).
  rewrite S1. reflexivity.
Qed.
Print Assumptions C187_labels_partial.

(** The label is the number of the iteration exactly when recording starts at
    once, with every iteration, one sample each. *)
Theorem C187_labels_exact : forall s e b n, (1 <= e)%Z -> 1 <= b -> 2 <= n ->
  (forall r, 1 <= r <= n -> recorded_at s e ((r - 1) / b) = Z.of_nat r) <-> (s <= 1)%Z /\ e = 1%Z /\ b = 1.
Proof.
  intros s e b n He Hb Hn. split.
  - intro H. pose proof (H 1 ltac:(lia)) as H1. pose proof (H 2 ltac:(lia)) as H2. unfold recorded_at in *.
    cbn [Nat.sub] in H1, H2. rewrite Nat.div_0_l in H1 by lia.
    pose proof (Z.div_mod (Z.max s 1 + e - 1) e ltac:(lia)). pose proof (Z.mod_pos_bound (Z.max s 1 + e - 1) e ltac:(lia)).
    set (q := ((Z.max s 1 + e - 1) / e)%Z) in *. clearbody q.
    change (Z.of_nat 0) with 0%Z in H1. change (Z.of_nat 1) with 1%Z in H1. rewrite Z.add_0_r, Z.mul_comm in H1.
    assert (e = 1)%Z by (apply (Z.eq_mul_1_nonneg e q); lia). subst e. assert (q = 1)%Z by lia.
    assert (s <= 1)%Z by lia. repeat split; try lia. destruct b as [|[|b]]; try lia. exfalso.
    rewrite Nat.div_small in H2 by lia. lia.
  - intros (Hs & -> & ->) r Hr. unfold recorded_at. rewrite Nat.div_1_r, Z.max_r by lia.
    replace (1 + 1 - 1)%Z with 1%Z by lia. rewrite Z.div_1_r. lia.
Qed.
Print Assumptions C187_labels_exact.

(** With write_every > 1, or a later start, no row carries the number of the
    iteration that it records, if each iteration gives one sample. *)
Theorem C187_labels_refuted : forall s e r, (1 <= e)%Z -> (1 < e)%Z \/ (1 < s)%Z -> 1 <= r ->
  (Z.of_nat r < recorded_at s e (r - 1))%Z.
Proof.
  intros s e r He H Hr. unfold recorded_at.
  pose proof (Z.div_mod (Z.max s 1 + e - 1) e ltac:(lia)). pose proof (Z.mod_pos_bound (Z.max s 1 + e - 1) e ltac:(lia)).
  set (q := ((Z.max s 1 + e - 1) / e)%Z) in *. clearbody q.
  assert (Q : (Z.max s 1 <= q * e)%Z) by nia. rewrite Nat2Z.inj_sub by exact Hr. destruct H as [H|H].
  - assert (1 <= q)%Z by nia. nia.
  - destruct (Z.eq_dec e 1) as [->|N]; [lia|]. assert (1 <= q)%Z by nia. nia.
Qed.
Print Assumptions C187_labels_refuted.

(** ** C188: runs of a sweep are told apart by their coordinates *)

Lemma rint_close : forall q, (Qabs (q - inject_Z (rint q)) <= 1 # 2)%Q.
Proof.
  intros [p d]. apply Qabs_Qle_condition. unfold rint. cbn [Qnum Qden].
  pose proof (Z.div_mod p (Zpos d) ltac:(lia)) as D. pose proof (Z.mod_pos_bound p (Zpos d) ltac:(lia)) as M.
  set (f := (p / Zpos d)%Z) in *. set (r := (p mod Zpos d)%Z) in *. clearbody f r.
  destruct (Z.ltb_spec (2 * r) (Zpos d)); [|rewrite Z.gtb_ltb; destruct (Z.ltb_spec (Zpos d) (2 * r)); [|destruct (Z.even f)]];
    unfold Qle, Qminus, Qplus, Qopp, inject_Z; cbn [Qnum Qden]; rewrite ?Pos.mul_1_r; split; nia.
Qed.

(** Two numbers further apart than 1e-5 keep different coordinates, whatever the
    type of the coordinate, unless it is an integer. *)
Theorem C188_numbers_partial : forall reading k ty t t' q q', aget k coordinate_dtypes = Some ty -> ty <> DInt ->
  t <> "" -> t' <> "" -> reading t = Some q -> reading t' = Some q' -> ((1 # 100000) < Qabs (q - q'))%Q ->
  is_ok (coordinate reading k t) = true /\ is_ok (coordinate reading k t') = true /\
  coordinate reading k t <> coordinate reading k t'.
Proof.
  intros reading k ty t t' q q' Ky Ty T T' Q Q' Fa.
  assert (C : forall t q, t <> "" -> reading t = Some q -> coordinate reading k t = Ok [CNum (round5 q)]).
  { intros u p U P. unfold coordinate, parse_text. rewrite Ky. destruct (String.eqb_spec u ""); [contradiction|]. rewrite P.
    destruct ty; [contradiction| | |]; reflexivity. }
  rewrite (C t q), (C t' q') by assumption. split; [reflexivity|]. split; [reflexivity|].
  intro H. assert (E : round5 q = round5 q') by now injection H. unfold round5 in E.
  pose proof (rint_close (q * 100000)) as A. pose proof (rint_close (q' * 100000)) as B. rewrite E in A.
  apply Qabs_Qle_condition in A. apply Qabs_Qle_condition in B.
  assert (L : (Qabs (q - q') <= 1 # 100000)%Q) by (apply Qabs_Qle_condition; lra).
  apply (Qlt_irrefl (1 # 100000)). eapply Qlt_le_trans; eassumption.
Qed.
Print Assumptions C188_numbers_partial.

(** Texts that stand for no number are kept as they are. *)
Theorem C188_texts_partial : forall reading k ty t t', aget k coordinate_dtypes = Some ty -> ty = DStr \/ ty = DObject ->
  t <> "" -> t' <> "" -> reading t = None -> reading t' = None -> t <> t' ->
  coordinate reading k t = Ok [CText t] /\ coordinate reading k t <> coordinate reading k t'.
Proof.
  intros reading k ty t t' Ky Ty T T' Q Q' N.
  assert (C : forall u, u <> "" -> reading u = None -> coordinate reading k u = Ok [CText u]).
  { intros u U P. unfold coordinate, parse_text. rewrite Ky. destruct (String.eqb_spec u ""); [contradiction|]. rewrite P.
    destruct Ty as [-> | ->]; reflexivity. }
  rewrite (C t), (C t') by assumption. split; [reflexivity|]. intro H. apply N. now injection H.
Qed.
Print Assumptions C188_texts_partial.

(** Numbers below half of 1e-5 all get the coordinate 0. *)
Theorem C188_small_refuted : forall reading k ty t q, aget k coordinate_dtypes = Some ty ->
  t <> "" -> reading t = Some q -> (Qabs q < 1 # 200000)%Q -> coordinate reading k t = Ok [CNum 0].
Proof.
  intros reading k ty t q Ky T Q S.
  assert (Z0 : round5 q = 0%Z).
  { unfold round5. pose proof (rint_close (q * 100000)) as A. apply Qabs_Qle_condition in A.
    apply Qabs_Qlt_condition in S. set (z := rint (q * 100000)) in *. clearbody z.
    assert (A1 : (inject_Z z < inject_Z 1)%Q) by (change (inject_Z 1) with 1%Q; lra).
    assert (A2 : (inject_Z (-1) < inject_Z z)%Q) by (change (inject_Z (-1)) with (-1)%Q; lra).
    rewrite <- Zlt_Qlt in A1, A2. lia. }
  unfold coordinate, parse_text. rewrite Ky. destruct (String.eqb_spec t ""); [contradiction|]. rewrite Q, Z0.
  destruct ty; reflexivity.
Qed.
Print Assumptions C188_small_refuted.

(** Two names that read as the same number (7 and 007) get the same coordinate. *)
Theorem C188_same_number_refuted : forall reading k t t' q, t <> "" -> t' <> "" ->
  reading t = Some q -> reading t' = Some q -> coordinate reading k t = coordinate reading k t'.
Proof.
  intros reading k t t' q T T' Q Q'. unfold coordinate, parse_text.
  destruct (String.eqb_spec t ""); [contradiction|]. destruct (String.eqb_spec t' ""); [contradiction|]. now rewrite Q, Q'.
Qed.
Print Assumptions C188_same_number_refuted.

(** An empty text gets the coordinate of the text None. *)
Theorem C188_empty_text_refuted : forall reading k ty, aget k coordinate_dtypes = Some ty -> ty = DStr \/ ty = DObject ->
  reading "None" = None ->
  coordinate reading k "" = Ok [CText "None"] /\ coordinate reading k "None" = Ok [CText "None"].
Proof.
  intros reading k ty Ky Ty Q. unfold coordinate, parse_text. rewrite Ky.
  change (String.eqb "" "") with true. change (String.eqb "None" "") with false. cbv iota. rewrite Q.
  destruct Ty as [-> | ->]; split; reflexivity.
Qed.
Print Assumptions C188_empty_text_refuted.

Lemma foldM_raise : forall reading sweep acc k t e, In (k, t) sweep -> coordinate reading k t = Raise e ->
  exists e', foldM (fun acc kv => do v <- coordinate reading (fst kv) (snd kv) ; Ok (aset (fst kv) v acc)) sweep acc = Raise e'.
Proof.
  intros reading. induction sweep as [|[k' t'] sweep IH]; intros acc k t e H C; [contradiction|]. cbn [foldM fst snd].
  destruct (coordinate reading k' t') as [v|e'] eqn:E; cbn [rbind]; [|now exists e'].
  destruct H as [H|H]; [injection H as -> ->; congruence|]. eapply IH; eassumption.
Qed.

(** A parameter without a type among the coordinates, or a text for a numeric
    one, stops the loading of every file of the sweep that can be read. *)
Theorem C188_stops_refuted : forall reading names sweep sets gs k t r,
  foldM (read_one names) sets ([], []) = Ok r -> In (k, t) sweep ->
  aget k coordinate_dtypes = None \/
  (t <> "" /\ reading t = None /\ (aget k coordinate_dtypes = Some DFloat \/ aget k coordinate_dtypes = Some DInt)) ->
  exists e, load_h5 reading names (File (mkgroup (Some sweep) sets :: gs)) = Raise e.
Proof.
  intros reading names sweep sets gs k t [g vs] E K H.
  assert (C : exists e, coordinate reading k t = Raise e).
  { unfold coordinate, parse_text. destruct H as [->|(T & Q & [->| ->])]; [now exists EKey| |];
      (destruct (String.eqb_spec t ""); [contradiction|]); rewrite Q; now exists EValue. }
  destruct C as [e C]. unfold load_h5, read_h5. cbn [g_sets g_sweep]. rewrite E. cbn [rbind].
  destruct (foldM_raise reading sweep [] k t e K C) as [e' ->]. now exists e'.
Qed.
Print Assumptions C188_stops_refuted.

(** The samples of a swept parameter do not carry its value. *)
Theorem C188_own_name_refuted : forall (reading : string -> option Q) sizes cells sweep names asked st n x,
  NoDup names -> (forall x, In x names -> row_sample x) ->
  (forall x r, List.length (cells x r) = cell_count sizes x) ->
  (forall x, In x names -> In x asked -> List.length (st x) = n) ->
  NoDup (map fst sweep) -> not_core sweep -> castable reading sweep ->
  In x names -> In x asked -> In x (map fst sweep) ->
  exists l a, load_h5 reading asked (file_of sizes cells sweep names st) = Ok l /\ In (x, a) l /\
    ~ In x (map fst (l_coords a)).
Proof.
  intros reading sizes cells sweep names asked st n x ND R CL Ln NDs NC Ca N A S.
  destruct (C186_loaded_partial reading sizes cells sweep names asked st n ND R CL Ln NDs NC Ca) as (l & E & _ & P).
  destruct (P x N A) as (a & I & Co & _). exists l, a. split; [exact E|]. split; [exact I|]. rewrite Co.
  rewrite map_app. intro K. apply in_app_or in K as [K|K].
  - apply in_map_iff in K as [[k v] [Q K]]. cbn [fst] in Q. subst k. apply filter_In in K as [_ K]. cbn [fst] in K.
    rewrite String.eqb_refl in K. discriminate.
  - apply (NC x S). rewrite axis_labels_eq in K. cbn [map fst] in K. rewrite map_map in K. cbn [fst] in K. rewrite map_id in K.
    destruct K as [<-|K]; [now left|]. right. apply (out_dims_core x); [now apply R|exact K].
Qed.
Print Assumptions C188_own_name_refuted.

(** ** Concrete cases *)

Definition demo_reading (t : string) : option Q :=
  if String.eqb t "0.000001" then Some (1 # 1000000) else if String.eqb t "0.000002" then Some (2 # 1000000)
  else if String.eqb t "0.5" then Some (1 # 2) else if String.eqb t "0.25" then Some (1 # 4)
  else if memb t ["7"; "007"] then Some 7%Q else None.
Definition demo_sizes (d : string) : nat := if String.eqb d "origin" then 2 else if String.eqb d "destination" then 3 else 1.
Definition demo_cells (x : string) (r : Z) : list Z := map (fun k => (1000 * r + Z.of_nat k)%Z) (seq 0 (cell_count demo_sizes x)).
Lemma demo_cells_len : forall x r, List.length (demo_cells x r) = cell_count demo_sizes x.
Proof. intros. unfold demo_cells. now rewrite map_length, seq_length. Qed.

(** A run of the joint sampler, every second iteration recorded, one sign and two
    tables in each. *)
Definition load_it (k : Z) : iteration := mkIter [([k; k + 1], 1, 1)%Z] [(10 * k, 1)%Z] [(20 * k, 1)%Z; (20 * k + 1, 0)%Z] (5 * k)%Z.
Definition load_rec : rec_settings := demo_rec joint_mcmc_outputs 1 2.
Definition load_its : list iteration := map load_it [1; 2; 3; 4]%Z.
Definition load_names : list string := ["alpha"; "beta"; "log_target"; "sign"; "table"].
Definition load_sweep : list (string * string) := [("alpha", "0.5"); ("dataset", "cambridge")].
Lemma load_full : full_thetas load_rec load_its.
Proof.
  intros it th acc sg Hit Hth. cbn in Hit. decompose [or] Hit; subst; try contradiction; cbn in Hth; destruct Hth as [H|[]];
    injection H as <- <- <-; reflexivity.
Qed.
Lemma load_names_rows : forall z, In z load_names -> row_sample z.
Proof. intros z H. cbn in H. decompose [or] H; subst; try contradiction; reflexivity. Qed.
Lemma load_names_NoDup : NoDup load_names.
Proof. unfold load_names. repeat constructor; cbn; intuition discriminate. Qed.
Lemma load_sweep_ok : not_core load_sweep /\ castable demo_reading load_sweep /\ NoDup (map fst load_sweep).
Proof.
  split; [|split].
  - intros k [<-|[<-|[]]]; cbn; intuition discriminate.
  - intros k t [H|[H|[]]]; injection H as <- <-; eexists; vm_compute; reflexivity.
  - repeat constructor; cbn; intuition discriminate.
Qed.

Example C186_nonvacuous :
  export_samples load_rec = true /\ (1 <= write_every load_rec)%Z /\ output_names load_rec = joint_mcmc_outputs /\
  plain_names (to_learn load_rec) /\ ~ In "log_target" (to_learn load_rec) /\ full_thetas load_rec load_its /\
  (forall it, In it load_its -> List.length (it_theta it) = 1 /\ List.length (it_table it) = 2) /\
  scheduled (write_start load_rec) (write_every load_rec) load_its = [load_it 2; load_it 4] /\
  NoDup load_names /\ (forall z, In z load_names -> row_sample z) /\
  not_core load_sweep /\ castable demo_reading load_sweep /\ NoDup (map fst load_sweep) /\
  match joint_mcmc_run load_rec load_its empty_store with
  | Ok st => load_h5 demo_reading ["sign"; "alpha"] (file_of demo_sizes demo_cells load_sweep load_names st) =
      Ok [("alpha", mkla [("dataset", [CText "cambridge"]); ("iter", [CRow 1; CRow 2])] [2000; 4000]%Z);
          ("sign", mkla [("alpha", [CNum 50000]); ("dataset", [CText "cambridge"]); ("iter", [CRow 1; CRow 2])] [1000; 1000]%Z)] /\
      load_h5 demo_reading ["sign"; "table"] (file_of demo_sizes demo_cells load_sweep load_names st) = Raise EValue
  | Raise _ => False
  end.
Proof.
  split; [reflexivity|]. split; [cbn; lia|]. split; [reflexivity|]. split; [exact demo_plain|].
  split; [cbn; intuition discriminate|]. split; [exact load_full|]. split.
  { intros it H. cbn in H. decompose [or] H; subst; try contradiction; split; reflexivity. }
  split; [reflexivity|]. split; [exact load_names_NoDup|]. split; [exact load_names_rows|].
  destruct load_sweep_ok as (A & B & C). split; [exact A|]. split; [exact B|]. split; [exact C|].
  vm_compute. split; reflexivity.
Qed.
Print Assumptions C186_nonvacuous.

Example C187_nonvacuous :
  (forall it, In it load_its -> List.length (it_table it) = 2) /\
  map (recorded_at 1 2) [0; 1] = [2; 4]%Z /\ map (recorded_at 5 2) [0; 1] = [6; 8]%Z /\
  match joint_mcmc_run load_rec load_its empty_store with
  | Ok st => exists a, load_h5 demo_reading ["table"] (file_of demo_sizes demo_cells load_sweep load_names st) = Ok [("table", a)] /\
      In ("iter", labels 4) (l_coords a) /\ List.length (l_vals a) = 24 /\ nth 18 (l_vals a) 0%Z = 81000%Z
  | Raise _ => False
  end /\
  (forall r, 1 <= r <= 5 -> recorded_at 0 1 ((r - 1) / 1) = Z.of_nat r).
Proof.
  split. { intros it H. cbn in H. decompose [or] H; subst; try contradiction; reflexivity. }
  split; [reflexivity|]. split; [reflexivity|]. split.
  - vm_compute. eexists. split; [reflexivity|]. split; [|split; reflexivity]. intuition.
  - apply C187_labels_exact; lia.
Qed.
Print Assumptions C187_nonvacuous.

Example C188_nonvacuous :
  coordinate demo_reading "sigma" "0.5" = Ok [CNum 50000] /\ coordinate demo_reading "sigma" "0.25" = Ok [CNum 25000] /\
  ((1 # 100000) < Qabs ((1 # 2) - (1 # 4)))%Q /\
  coordinate demo_reading "sigma" "0.000001" = coordinate demo_reading "sigma" "0.000002" /\
  coordinate demo_reading "dataset" "7" = coordinate demo_reading "dataset" "007" /\
  coordinate demo_reading "dataset" "a" = Ok [CText "a"] /\
  load_h5 demo_reading ["sign"] (File [mkgroup (Some [("epsilon", "0.5")]) [mkds "sign" [1] [1%Z]]]) = Raise EKey /\
  load_h5 demo_reading ["sign"] (File [mkgroup (Some [("alpha", "none")]) [mkds "sign" [1] [1%Z]]]) = Raise EValue /\
  load_h5 demo_reading ["sign"] (File [mkgroup (Some [("sigma", "none")]) [mkds "sign" [1] [1%Z]]]) =
    Ok [("sign", mkla [("sigma", [CText "none"]); ("iter", [CRow 1])] [1%Z])] /\
  load_h5 demo_reading ["sign"] (File [mkgroup (Some [("sigma", "none")]) [mkds "sign" [] [1%Z]]]) = Ok [].
Proof. repeat (split; [vm_compute; reflexivity|]). vm_compute. reflexivity. Qed.
Print Assumptions C188_nonvacuous.
