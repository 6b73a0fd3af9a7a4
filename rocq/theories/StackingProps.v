(** Stacking the swept dimensions loses and mixes nothing. *)
From Coq Require Import List ZArith Lia Bool Arith String Permutation.
From Verif Require Import Base PyMonad Stacking.
Import ListNotations.
Local Open Scope nat_scope.
Local Open Scope string_scope.

(** ** Specification *)

(** Row-major position of a combination of positions: the last one varies
    fastest. *)
Fixpoint rowmajor (sizes idx : list nat) : nat :=
  match sizes, idx with
  | _ :: ns, i :: r => i * fold_right Nat.mul 1 ns + rowmajor ns r
  | _, _ => 0
  end.
(** [e] names a stored cell of [a]. *)
Definition inside {L V} (a : darr L V) (e : string -> nat) : Prop :=
  forall d, In d (names a) -> e d < List.length (coord a d).
(** The tuple of labels found at [e] along the dimensions [ds]. *)
Definition labels_at {L V} (a : darr L V) (ds : list string) (e : string -> nat) : list L :=
  List.concat (map (fun d => nth (e d) (coord a d) []) ds).
Definition with_sweep (e : string -> nat) (k : nat) : string -> nat :=
  fun d => if String.eqb d "sweep" then k else e d.

(** ** Lemmas *)
Section P.
Context {L V : Type}.
Implicit Types a b out : darr L V.

Lemma mem_In : forall x l, mem x l = true <-> In x l.
Proof.
  intros x l. unfold mem. rewrite existsb_exists. split.
  - intros [y [H E]]. apply String.eqb_eq in E. subst. exact H.
  - intros H. exists x. split; [exact H | apply String.eqb_refl].
Qed.
Lemma mem_false : forall x l, mem x l = false <-> ~ In x l.
Proof. intros. rewrite <- mem_In. destruct (mem x l); split; congruence. Qed.

Lemma pos_nth : forall ds d (f : string -> nat), In d ds -> nth (pos d ds) (map f ds) 0 = f d.
Proof.
  induction ds as [|x ds IH]; intros d f H; [destruct H|]. cbn [pos].
  destruct (String.eqb d x) eqn:E.
  - apply String.eqb_eq in E. subst. reflexivity.
  - cbn. apply IH. destruct H as [->|H]; [|exact H]. rewrite String.eqb_refl in E. discriminate.
Qed.
Lemma env_map : forall ds d e, In d ds -> env ds (map e ds) d = e d.
Proof. intros. unfold env. now apply pos_nth. Qed.

Lemma map_env : forall ds idx, NoDup ds -> List.length idx = List.length ds -> map (env ds idx) ds = idx.
Proof.
  induction ds as [|x ds IH]; intros idx ND HL; destruct idx as [|i idx]; cbn in HL; try discriminate; [reflexivity|].
  inversion ND as [|? ? Hx ND']; subst. cbn [map]. f_equal.
  - unfold env. cbn [pos]. rewrite String.eqb_refl. reflexivity.
  - rewrite <- (IH idx ND' (eq_add_S _ _ HL)) at 2. apply map_ext_in. intros d Hd. unfold env. cbn [pos].
    destruct (String.eqb d x) eqn:E; [|reflexivity].
    apply String.eqb_eq in E. subst. contradiction.
Qed.

Lemma prod_fold : forall ns, prod ns = fold_right Nat.mul 1 ns.
Proof. induction ns as [|n ns IH]; cbn; [reflexivity | now rewrite IH]. Qed.

Lemma rowmajor_lt : forall ns idx, Forall2 lt idx ns -> rowmajor ns idx < prod ns.
Proof.
  induction ns as [|n ns IH]; intros idx H; inversion H as [|i n' r ns' Hi Hr]; subst; cbn [rowmajor prod]; [lia|].
  specialize (IH r Hr). rewrite <- prod_fold.
  assert (i * prod ns + prod ns <= n * prod ns) by nia. lia.
Qed.
Lemma unravel_rowmajor : forall ns idx, Forall2 lt idx ns -> unravel ns (rowmajor ns idx) = idx.
Proof.
  induction ns as [|n ns IH]; intros idx H; inversion H as [|i n' r ns' Hi Hr]; subst; cbn [rowmajor unravel]; [reflexivity|].
  pose proof (rowmajor_lt ns r Hr) as Hlt. rewrite <- prod_fold.
  assert (Hp : prod ns <> 0) by lia. f_equal.
  - rewrite Nat.div_add_l by exact Hp. rewrite (Nat.div_small _ _ Hlt). lia.
  - rewrite Nat.add_comm, Nat.mod_add by exact Hp. rewrite (Nat.mod_small _ _ Hlt). now apply IH.
Qed.
Lemma unravel_lt : forall ns k, k < prod ns -> Forall2 lt (unravel ns k) ns.
Proof.
  induction ns as [|n ns IH]; intros k H; cbn [unravel]; constructor; cbn [prod] in H.
  - apply Nat.div_lt_upper_bound; nia.
  - apply IH. apply Nat.mod_upper_bound. nia.
Qed.
Lemma rowmajor_unravel : forall ns k, k < prod ns -> rowmajor ns (unravel ns k) = k.
Proof.
  induction ns as [|n ns IH]; intros k H; cbn [prod] in H; cbn [unravel rowmajor]; [lia|].
  assert (Hp : prod ns <> 0) by nia. replace (fold_right Nat.mul 1 ns) with (prod ns) by apply prod_fold. rewrite (IH (k mod prod ns) (Nat.mod_upper_bound _ _ Hp)).
  pose proof (Nat.div_mod k (prod ns) Hp) as HD. rewrite (Nat.mul_comm (k / prod ns)). symmetry. exact HD.
Qed.

Lemma tuples_length : forall cs : list (list (list L)), List.length (tuples cs) = prod (map (@List.length _) cs).
Proof.
  induction cs as [|c cs IH]; cbn; [reflexivity|].
  rewrite <- IH. generalize (tuples cs) as t. intros t. clear IH.
  induction c as [|x c IHc]; cbn; [reflexivity|]. now rewrite app_length, map_length, IHc.
Qed.
Lemma flat_map_nth : forall (c : list (list L)) (t : list (list L)) i j, i < List.length c -> j < List.length t ->
  nth (i * List.length t + j) (flat_map (fun x => map (fun u => x ++ u)%list t) c) [] = (nth i c [] ++ nth j t [])%list.
Proof.
  induction c as [|x c IH]; intros t i j Hi Hj; cbn in Hi; [lia|]. cbn [flat_map].
  destruct i as [|i].
  - cbn [Nat.mul Nat.add nth]. rewrite app_nth1 by now rewrite map_length.
    rewrite (nth_indep _ [] (x ++ [])%list) by now rewrite map_length.
    exact (map_nth (fun u => x ++ u)%list t [] j).
  - rewrite app_nth2; rewrite map_length; [|cbn; lia].
    replace (S i * List.length t + j - List.length t) with (i * List.length t + j) by (cbn; lia).
    cbn [nth]. apply IH; lia.
Qed.
Lemma tuples_nth : forall (cs : list (list (list L))) idx, Forall2 (fun i c => i < List.length c) idx cs ->
  nth (rowmajor (map (@List.length _) cs) idx) (tuples cs) [] = List.concat (map (fun p => nth (fst p) (snd p) []) (combine idx cs)).
Proof.
  induction cs as [|c cs IH]; intros idx H; inversion H as [|i c' r cs' Hi Hr]; subst; [reflexivity|].
  cbn [map rowmajor tuples combine List.concat fst snd]. rewrite <- prod_fold, <- tuples_length.
  rewrite flat_map_nth; [now rewrite (IH r Hr)|exact Hi|].
  rewrite tuples_length. apply rowmajor_lt. clear -Hr. induction Hr; cbn; constructor; assumption.
Qed.

Lemma coord_In : forall a d, In d (names a) -> exists c, coord a d = c /\ In (d, c) (d_dims a).
Proof.
  intros a d H. unfold coord. destruct (find _ _) as [p|] eqn:E.
  - apply find_some in E. destruct E as [Hp E]. apply String.eqb_eq in E. exists (snd p). split; [reflexivity|].
    subst. now destruct p.
  - exfalso. unfold names in H. apply in_map_iff in H. destruct H as [p [<- Hp]].
    apply (find_none _ _ E) in Hp. rewrite String.eqb_refl in Hp. discriminate.
Qed.

Lemma NoDup_app_comm_one : forall (x : string) l, NoDup l -> ~ In x l -> NoDup (l ++ [x]).
Proof.
  induction l as [|y l IH]; intros H Hx; cbn; [constructor; [exact Hx|constructor]|].
  inversion H; subst. constructor.
  - rewrite in_app_iff. cbn in *. intuition.
  - apply IH; [assumption|]. cbn in Hx. tauto.
Qed.

(** The array after DataArray.stack. *)
Section Stacked.
  Variables (a : darr L V) (ds : list string) (b : darr L V).
  Hypothesis HS : stack a ds = Ok b.

  Lemma no_sweep : ~ In "sweep" (names a).
  Proof. unfold stack in HS. destruct (mem "sweep" (names a)) eqn:E; [discriminate|]. now apply mem_false. Qed.
  Lemma stack_names : names b = (filter (fun d => negb (mem d ds)) (names a) ++ ["sweep"])%list.
  Proof.
    unfold stack in HS. destruct (mem "sweep" (names a)); [discriminate|]. injection HS as <-.
    unfold names. cbn [d_dims]. rewrite map_app. f_equal.
    induction (d_dims a) as [|p l IH]; cbn; [reflexivity|]. destruct (mem (fst p) ds); cbn; now rewrite IH.
  Qed.
  Lemma stack_coord : forall d, d <> "sweep" -> ~ In d ds -> coord b d = coord a d.
  Proof.
    intros d Hd Hn. unfold stack in HS. destruct (mem "sweep" (names a)); [discriminate|]. injection HS as <-.
    apply mem_false in Hn. generalize (tuples (map (coord a) ds)) as t. intros t.
    unfold coord. cbn [d_dims].
    induction (d_dims a) as [|p l IH]; cbn.
    - destruct (String.eqb d "sweep") eqn:E; [apply String.eqb_eq in E; contradiction | reflexivity].
    - destruct (String.eqb d (fst p)) eqn:E.
      + apply String.eqb_eq in E. rewrite <- E, Hn. cbn [negb app find fst]. rewrite E, String.eqb_refl. reflexivity.
      + destruct (mem (fst p) ds); cbn [negb app find]; [|rewrite E]; exact IH.
  Qed.
  Lemma stack_coord_sweep : coord b "sweep" = tuples (map (coord a) ds).
  Proof.
    pose proof no_sweep as Hn. unfold stack in HS. destruct (mem "sweep" (names a)); [discriminate|]. injection HS as <-.
    unfold coord at 1. cbn [d_dims].
    assert (G : forall l t, ~ In "sweep" (map fst l) ->
      match find (fun p : string * list (list L) => String.eqb "sweep" (fst p))
                 (filter (fun p => negb (mem (fst p) ds)) l ++ [("sweep", t)])%list with Some p => snd p | None => [] end = t).
    { induction l as [|p l IH]; intros t H; [reflexivity|]. cbn [filter].
      cbn [map In] in H. destruct (negb (mem (fst p) ds)); [|apply IH; tauto].
      cbn [app find]. destruct (String.eqb "sweep" (fst p)) eqn:E; [|apply IH; tauto].
      apply String.eqb_eq in E. symmetry in E. tauto. }
    now apply G.
  Qed.
  Lemma stack_val : forall e, val b e =
    val a (fun d => if mem d ds then env ds (unravel (map (fun d => List.length (coord a d)) ds) (e "sweep")) d else e d).
  Proof.
    intros e. pose proof stack_names as Hnames. unfold stack in HS.
    destruct (mem "sweep" (names a)); [discriminate|].
    unfold val at 1. rewrite Hnames. injection HS as <-. cbn [d_at].
    unfold val. f_equal. apply map_ext_in. intros d Hd.
    unfold names in Hnames. cbn [d_dims] in Hnames. rewrite Hnames.
    destruct (mem d ds) eqn:E.
    - rewrite env_map; [reflexivity|]. apply in_or_app. right. left. reflexivity.
    - rewrite env_map; [reflexivity|]. apply in_or_app. left. apply filter_In. rewrite E. split; [exact Hd|reflexivity].
  Qed.
End Stacked.

Lemma nodup_s_NoDup : forall l, nodup_s l = true <-> NoDup l.
Proof.
  induction l as [|x l IH]; cbn; [split; [constructor|reflexivity]|].
  rewrite andb_true_iff, negb_true_iff, mem_false, IH. split; [intros [H1 H2]; now constructor|intros H; inversion H; tauto].
Qed.

Lemma transpose_ok : forall b ds out, ds <> [] -> transpose b ds = Ok out ->
  NoDup ds /\ (forall d, In d ds <-> In d (names b)) /\ names out = ds /\
  (forall d, In d ds -> coord out d = coord b d) /\ (forall e, val out e = val b e).
Proof.
  intros b ds out Hne H. unfold transpose in H. destruct ds as [|d0 ds]; [congruence|].
  set (order := d0 :: ds) in *.
  destruct (nodup_s order) eqn:E1; cbn [andb] in H; [|discriminate].
  destruct (forallb (fun d => mem d (names b)) order) eqn:E2; cbn [andb] in H; [|discriminate].
  destruct (forallb (fun d => mem d order) (names b)) eqn:E3; cbn [andb] in H; [|discriminate].
  clearbody order. injection H as <-. apply nodup_s_NoDup in E1. rewrite forallb_forall in E2, E3.
  assert (Hn : names (mkD (map (fun d => (d, coord b d)) order) (fun idx => val b (env order idx))) = order).
  { unfold names. cbn [d_dims]. rewrite map_map. cbn. apply map_id. }
  assert (HE : forall d, In d order <-> In d (names b)).
  { intros d. split; intros Hd; [apply E2 in Hd|apply E3 in Hd]; now apply mem_In. }
  split; [exact E1|]. split; [exact HE|]. split; [exact Hn|]. split.
  - intros d Hd. unfold coord at 1. cbn [d_dims]. clear -Hd.
    induction order as [|x l IH]; [destruct Hd|]. cbn. destruct (String.eqb d x) eqn:E.
    + apply String.eqb_eq in E. now subst.
    + apply IH. destruct Hd as [->|Hd]; [|exact Hd]. rewrite String.eqb_refl in E. discriminate.
  - intros e. unfold val at 1. rewrite Hn. cbn [d_at]. unfold val. f_equal. apply map_ext_in. intros d Hd.
    rewrite env_map; [reflexivity|]. now apply HE.
Qed.

Lemma map_length_coord : forall a ds, map (@List.length _) (map (coord a) ds) = map (fun d => List.length (coord a d)) ds.
Proof. intros. apply map_map. Qed.

(** Facts about a successful pass on an array with swept dimensions. *)
Lemma stack_one_facts : forall core schema a out, sweep_dims core a <> [] -> stack_one core schema a = Ok out ->
  let ds := sweep_dims core a in
  let sizes := map (fun d => List.length (coord a d)) ds in
  ~ In "sweep" (names a) /\
  names out = (iter_dims a ++ schema ++ ["sweep"])%list /\
  NoDup (names out) /\
  (forall d, In d (names out) <-> (In d (names a) /\ ~ In d ds) \/ d = "sweep") /\
  (forall d, In d (names a) -> ~ In d ds -> coord out d = coord a d) /\
  coord out "sweep" = tuples (map (coord a) ds) /\
  (forall e, val out e = val a (fun d => if mem d ds then env ds (unravel sizes (e "sweep")) d else e d)).
Proof.
  intros core schema a out Hne H0.
  assert (H : rbind (stack a (sweep_dims core a)) (fun b => transpose b (iter_dims a ++ schema ++ ["sweep"])) = Ok out)
    by (unfold stack_one in H0; destruct (sweep_dims core a); [congruence|exact H0]).
  intros ds sizes. fold ds in H.
  destruct (rbind_Ok_inv _ _ _ _ _ H) as [b [HS HT]].
  assert (Hns := no_sweep _ _ _ HS).
  destruct (transpose_ok b (iter_dims a ++ schema ++ ["sweep"]) out) as (ND & HE & Hn & Hc & Hv); [|exact HT|].
  { destruct (iter_dims a); [destruct schema|]; discriminate. }
  assert (HEb : forall d, In d (names b) <-> (In d (names a) /\ ~ In d ds) \/ d = "sweep").
  { intros d. rewrite (stack_names _ _ _ HS), in_app_iff, filter_In, negb_true_iff, mem_false. cbn. intuition. }
  split; [exact Hns|]. split; [exact Hn|]. split; [now rewrite Hn|].
  split; [intros d; rewrite Hn, HE; apply HEb|]. split; [|split].
  - intros d Hd Hnd. assert (d <> "sweep") by (intros ->; contradiction).
    rewrite Hc by (apply HE, HEb; tauto). now apply (stack_coord _ _ _ HS).
  - rewrite Hc by (apply HE, HEb; tauto). apply (stack_coord_sweep _ _ _ HS).
  - intros e. rewrite Hv. apply (stack_val _ _ _ HS).
Qed.

Lemma sweep_dims_In : forall core a d, In d (sweep_dims core a) <-> In d (names a) /\ ~ In d core.
Proof. intros. unfold sweep_dims. rewrite filter_In, negb_true_iff, mem_false. reflexivity. Qed.

Lemma Forall2_map_lt : forall a ds e, (forall d, In d ds -> e d < List.length (coord a d)) ->
  Forall2 lt (map e ds) (map (fun d => List.length (coord a d)) ds).
Proof. induction ds as [|d ds IH]; intros e H; cbn; constructor; [apply H; now left|apply IH; intros; apply H; now right]. Qed.

Lemma Forall2_env_lt : forall a ds idx, Forall2 lt idx (map (fun d => List.length (coord a d)) ds) ->
  forall d, In d ds -> env ds idx d < List.length (coord a d).
Proof.
  induction ds as [|x ds IH]; intros idx H d Hd; [destruct Hd|]. cbn in H. inversion H as [|i n r ns Hi Hr]; subst.
  unfold env. cbn [pos]. destruct (String.eqb d x) eqn:E.
  - apply String.eqb_eq in E. subst. exact Hi.
  - cbn. apply IH; [exact Hr|]. destruct Hd as [->|Hd]; [|exact Hd]. rewrite String.eqb_refl in E. discriminate.
Qed.

Lemma tuples_labels : forall a ds e, (forall d, In d ds -> e d < List.length (coord a d)) ->
  nth (rowmajor (map (fun d => List.length (coord a d)) ds) (map e ds)) (tuples (map (coord a) ds)) [] = labels_at a ds e.
Proof.
  intros a ds e H. rewrite <- map_length_coord, tuples_nth.
  - unfold labels_at. f_equal. clear H. induction ds as [|d ds IH]; cbn; [reflexivity|]. now rewrite IH.
  - induction ds as [|d ds IH]; cbn; constructor; [apply H; now left|apply IH; intros; apply H; now right].
Qed.
End P.

(** ** C201: stacking keeps every cell and says which sweep it came from *)

(** Every stored cell of a loaded sample is found, unchanged, in the stacked
    one: at the same place along the remaining dimensions and, along "sweep", at
    the row-major position of its swept positions, whose label is the tuple of
    its swept labels. *)
Theorem C201_every_cell_kept : forall (L V : Type) core schema (a out : darr L V),
  sweep_dims core a <> [] ->
  stack_one core schema a = Ok out ->
  forall e, inside a e ->
  exists k,
    k = rowmajor (map (fun d => List.length (coord a d)) (sweep_dims core a)) (map e (sweep_dims core a)) /\
    inside out (with_sweep e k) /\
    nth k (coord out "sweep") [] = labels_at a (sweep_dims core a) e /\
    val out (with_sweep e k) = val a e.
Proof.
  intros L V core schema a out Hne H e He.
  destruct (stack_one_facts core schema a out Hne H) as (Hns & _ & _ & HE & Hc & Hcs & Hv).
  set (ds := sweep_dims core a) in *.
  assert (Hds : forall d, In d ds -> e d < List.length (coord a d)).
  { intros d Hd. apply He. apply sweep_dims_In in Hd. tauto. }
  eexists. split; [reflexivity|]. split; [|split].
  - intros d Hd. unfold with_sweep. apply HE in Hd. destruct Hd as [[Hd Hn]| ->].
    + destruct (String.eqb d "sweep") eqn:E; [apply String.eqb_eq in E; subst; contradiction|].
      rewrite Hc by assumption. now apply He.
    + rewrite Hcs, tuples_length, map_length_coord. apply rowmajor_lt.
      now apply Forall2_map_lt.
  - rewrite Hcs. now apply tuples_labels.
  - rewrite Hv. unfold with_sweep at 1. rewrite String.eqb_refl.
    rewrite unravel_rowmajor by now apply Forall2_map_lt.
    unfold val. f_equal. apply map_ext_in. intros d Hd.
    destruct (mem d ds) eqn:E.
    + apply mem_In in E. now apply env_map.
    + unfold with_sweep. destruct (String.eqb d "sweep") eqn:E2; [apply String.eqb_eq in E2; subst; contradiction|reflexivity].
Qed.
Print Assumptions C201_every_cell_kept.

(** Conversely the stacked sample contains nothing else: every stored cell of it
    comes from a stored cell of the loaded one with those labels. *)
Theorem C201_nothing_invented : forall (L V : Type) core schema (a out : darr L V),
  NoDup (names a) ->
  sweep_dims core a <> [] ->
  stack_one core schema a = Ok out ->
  forall e', inside out e' ->
  exists e,
    inside a e /\
    (forall d, In d (names a) -> In d core -> e d = e' d) /\
    rowmajor (map (fun d => List.length (coord a d)) (sweep_dims core a)) (map e (sweep_dims core a)) = e' "sweep" /\
    labels_at a (sweep_dims core a) e = nth (e' "sweep") (coord out "sweep") [] /\
    val a e = val out e'.
Proof.
  intros L V core schema a out NDa Hne H e' He'.
  destruct (stack_one_facts core schema a out Hne H) as (Hns & _ & _ & HE & Hc & Hcs & Hv).
  set (ds := sweep_dims core a) in *.
  assert (NDs : NoDup ds) by (apply NoDup_filter; exact NDa).
  set (sizes := map (fun d => List.length (coord a d)) ds) in *.
  assert (Hk : e' "sweep" < prod sizes).
  { unfold sizes. rewrite <- map_length_coord, <- tuples_length, <- Hcs. apply He'. apply HE. now right. }
  pose proof (unravel_lt sizes _ Hk) as HF.
  assert (HL : List.length (unravel sizes (e' "sweep")) = List.length ds).
  { transitivity (List.length sizes); [clear -HF; induction HF; cbn; congruence | unfold sizes; apply map_length]. }
  set (e := fun d => if mem d ds then env ds (unravel sizes (e' "sweep")) d else e' d).
  assert (Hme : map e ds = unravel sizes (e' "sweep")).
  { rewrite <- (map_env ds _ NDs HL) at 1. apply map_ext_in. intros d Hd. unfold e.
    now rewrite (proj2 (mem_In d ds) Hd). }
  assert (Hin : inside a e).
  { intros d Hd. unfold e. destruct (mem d ds) eqn:E.
    - apply mem_In in E. now apply Forall2_env_lt.
    - apply mem_false in E. rewrite <- Hc by assumption. apply He'. apply HE. tauto. }
  exists e. split; [exact Hin|]. split; [|split; [|split]].
  - intros d Hd Hcore. unfold e. destruct (mem d ds) eqn:E; [|reflexivity].
    apply mem_In, sweep_dims_In in E. tauto.
  - rewrite Hme. now apply rowmajor_unravel.
  - rewrite Hcs, <- tuples_labels.
    + fold sizes. rewrite Hme, rowmajor_unravel by exact Hk. reflexivity.
    + intros d Hd. apply Hin. apply sweep_dims_In in Hd. tauto.
  - rewrite Hv. reflexivity.
Qed.
Print Assumptions C201_nothing_invented.

(** The shape: iteration dimensions first, then those of the schema, then one
    "sweep" dimension holding as many entries as there are combinations, in
    bijection with them. *)
Theorem C201_shape : forall (L V : Type) core schema (a out : darr L V),
  sweep_dims core a <> [] ->
  stack_one core schema a = Ok out ->
  names out = (filter (fun d => String.eqb d "iter" || String.eqb d "seed") (names a) ++ schema ++ ["sweep"])%list /\
  NoDup (names out) /\
  (forall d, In d (names a) -> In d core -> In d (names out) /\ coord out d = coord a d) /\
  List.length (coord out "sweep") =
    fold_right Nat.mul 1 (map (fun d => List.length (coord a d)) (sweep_dims core a)) /\
  (forall e1 e2, inside a e1 -> inside a e2 ->
     rowmajor (map (fun d => List.length (coord a d)) (sweep_dims core a)) (map e1 (sweep_dims core a)) =
     rowmajor (map (fun d => List.length (coord a d)) (sweep_dims core a)) (map e2 (sweep_dims core a)) ->
     forall d, In d (names a) -> ~ In d core -> e1 d = e2 d).
Proof.
  intros L V core schema a out Hne H.
  destruct (stack_one_facts core schema a out Hne H) as (Hns & Hn & ND & HE & Hc & Hcs & Hv).
  split; [|split; [exact ND|split; [|split]]].
  - rewrite Hn. f_equal. unfold iter_dims. apply filter_ext. intros d. unfold mem. cbn. now rewrite orb_false_r.
  - intros d Hd Hcore. assert (~ In d (sweep_dims core a)) by (rewrite sweep_dims_In; tauto).
    split; [apply HE; tauto|now apply Hc].
  - rewrite Hcs, tuples_length, map_length_coord. apply prod_fold.
  - intros e1 e2 H1 H2 HR d Hd Hcore.
    assert (HF : forall e, inside a e -> Forall2 lt (map e (sweep_dims core a)) (map (fun d => List.length (coord a d)) (sweep_dims core a))).
    { intros e He. apply Forall2_map_lt. intros x Hx. apply He. apply sweep_dims_In in Hx. tauto. }
    apply (f_equal (unravel (map (fun d => List.length (coord a d)) (sweep_dims core a)))) in HR.
    rewrite !unravel_rowmajor in HR by now apply HF.
    assert (Hs : In d (sweep_dims core a)) by (rewrite sweep_dims_In; tauto).
    rewrite <- (env_map _ d e1 Hs), <- (env_map _ d e2 Hs), HR. reflexivity.
Qed.
Print Assumptions C201_shape.

(** When it succeeds: exactly when the dimensions that are not swept are the
    iteration dimensions and those of the schema, once each, and no dimension is
    already called "sweep". *)
Theorem C201_when_it_loads : forall (L V : Type) schema (a : darr L V),
  NoDup (names a) ->
  sweep_dims CORE a <> [] ->
  ((exists out, stack_one CORE schema a = Ok out) <->
   ~ In "sweep" (names a) /\
   NoDup (iter_dims a ++ schema) /\ ~ In "sweep" schema /\
   (forall d, In d (iter_dims a ++ schema) <-> In d (names a) /\ In d CORE)).
Proof.
  intros L V schema a NDa Hne. split.
  - intros [out H].
    destruct (stack_one_facts CORE schema a out Hne H) as (Hns & Hn & ND & HE & _).
    rewrite Hn in ND. rewrite app_assoc in ND.
    assert (HR := NoDup_remove _ _ _ ND). rewrite app_nil_r in HR. destruct HR as [ND' Hs].
    split; [exact Hns|]. split; [exact ND'|]. split; [intros Hx; apply Hs, in_or_app; now right|].
    intros d. specialize (HE d). rewrite Hn, app_assoc, in_app_iff, sweep_dims_In in HE. cbn [In] in HE.
    split.
    + intros Hd. destruct (proj1 HE (or_introl Hd)) as [[H1 H2]| ->]; [|contradiction].
      split; [exact H1|]. destruct (in_dec string_dec d CORE); tauto.
    + intros [H1 H2]. destruct (proj2 HE) as [H3|[<-|[]]]; [left; tauto|exact H3|contradiction].
  - intros (Hns & ND & Hss & HE). unfold stack_one.
    destruct (sweep_dims CORE a) as [|d0 ds0] eqn:Eds; [congruence|]. rewrite <- Eds in *.
    unfold stack at 1. rewrite (proj2 (mem_false _ _) Hns). rewrite rbind_Ok.
    set (b := mkD _ _).
    assert (HS : stack a (sweep_dims CORE a) = Ok b) by (unfold stack; now rewrite (proj2 (mem_false _ _) Hns)).
    assert (Hn := stack_names _ _ _ HS). clearbody b.
    unfold transpose. destruct (iter_dims a ++ schema ++ ["sweep"])%list as [|x l] eqn:El.
    { destruct (iter_dims a); [destruct schema|]; discriminate. }
    rewrite <- El. rewrite app_assoc.
    assert (HI : ~ In "sweep" (iter_dims a ++ schema)).
    { intros Hx. apply HE in Hx. tauto. }
    rewrite (proj2 (nodup_s_NoDup _)).
    2:{ apply NoDup_app_comm_one; assumption. }
    rewrite (proj2 (forallb_forall _ _)).
    2:{ intros d Hd. apply mem_In. rewrite Hn, in_app_iff, filter_In, negb_true_iff, mem_false, sweep_dims_In.
        apply in_app_or in Hd. destruct Hd as [Hd|Hd]; [left; apply HE in Hd; tauto|now right]. }
    rewrite (proj2 (forallb_forall _ _)).
    2:{ intros d Hd. apply mem_In. rewrite Hn, in_app_iff, filter_In, negb_true_iff, mem_false, sweep_dims_In in Hd.
        apply in_or_app. destruct Hd as [[H1 H2]|Hd]; [left; apply HE; split; [exact H1|]|now right].
        destruct (in_dec string_dec d CORE); tauto. }
    eexists. reflexivity.
Qed.
Print Assumptions C201_when_it_loads.

(** Without swept dimensions only the order of the dimensions changes. *)
Theorem C201_unswept : forall (L V : Type) core schema (a out : darr L V),
  sweep_dims core a = [] ->
  (iter_dims a ++ schema)%list <> [] ->
  stack_one core schema a = Ok out ->
  names out = (iter_dims a ++ schema)%list /\
  (forall d, In d (names a) <-> In d (names out)) /\
  (forall d, In d (names a) -> coord out d = coord a d) /\
  (forall e, val out e = val a e).
Proof.
  intros L V core schema a out Hs Hne H. unfold stack_one in H. rewrite Hs in H.
  destruct (transpose_ok a (iter_dims a ++ schema) out Hne H) as (_ & HE & Hn & Hc & Hv).
  split; [exact Hn|]. split; [intros d; rewrite Hn; symmetry; apply HE|]. split; [|exact Hv].
  intros d Hd. apply Hc. now apply HE.
Qed.
Print Assumptions C201_unswept.

(** Every array of every sample is treated, each by its own schema, and none is
    dropped or exchanged with another. *)
Theorem C201_all_samples : forall (L V : Type) core schema (data out : list (string * list (darr L V))),
  stack_sweep_dims core schema data = Ok out ->
  Forall2 (fun p q => fst q = fst p /\
                      Forall2 (fun a b => stack_one core (schema (fst p)) a = Ok b) (snd p) (snd q)) data out.
Proof.
  intros L V core schema data. unfold stack_sweep_dims.
  assert (G : forall (A B : Type) (f : A -> res B) l r, mapr f l = Ok r -> Forall2 (fun x y => f x = Ok y) l r).
  { intros A B f. induction l as [|x l IH]; intros r Hr; cbn [mapr] in Hr; [injection Hr as <-; constructor|].
    destruct (rbind_Ok_inv _ _ _ _ _ Hr) as [y [Hy Hr2]].
    destruct (rbind_Ok_inv _ _ _ _ _ Hr2) as [ys [Hys E]]. injection E as <-. constructor; [exact Hy|now apply IH]. }
  intros out H. apply G in H. induction H as [|p q l r Hp Hr IH]; constructor; [|exact IH].
  destruct (rbind_Ok_inv _ _ _ _ _ Hp) as [s [Hs E]]. injection E as <-. cbn. split; [reflexivity|now apply G].
Qed.
Print Assumptions C201_all_samples.

(** Two iterations of a two by one table loaded over two values of one swept
    parameter and three of another: the cell at sigma = 7 (position 1), delta = 3
    (position 2) lands at position 5 of "sweep", labelled (7,3). *)
Example ex_array : darr nat nat :=
  mkD [("sigma", [[5]; [7]]); ("iter", [[1]; [2]]); ("destination", [[0]]);
       ("delta", [[1]; [2]; [3]]); ("origin", [[0]; [1]])]
      (fun idx => fold_left (fun s i => 10 * s + i) idx 0).
Example C201_nonvacuous :
  NoDup (names ex_array) /\
  sweep_dims CORE ex_array = ["sigma"; "delta"] /\
  exists out, stack_one CORE ["origin"; "destination"] ex_array = Ok out /\
    names out = ["iter"; "origin"; "destination"; "sweep"] /\
    coord out "sweep" = [[5;1];[5;2];[5;3];[7;1];[7;2];[7;3]] /\
    d_at out [0; 1; 0; 5] = 10021 /\
    (let e := fun d => if String.eqb d "sigma" then 1 else if String.eqb d "delta" then 2
                       else if String.eqb d "origin" then 1 else 0 in
     inside ex_array e /\ val ex_array e = 10021).
Proof.
  split; [repeat constructor; cbn; intuition discriminate|]. split; [reflexivity|].
  eexists. split; [reflexivity|]. split; [reflexivity|]. split; [reflexivity|]. split; [vm_compute; reflexivity|].
  split; [|vm_compute; reflexivity].
  intros d Hd. cbn in Hd. repeat (destruct Hd as [<-|Hd]; [cbn; lia|]). destruct Hd.
Qed.

(** A sample that carries a further core dimension, here "time" on a table,
    cannot be laid out and the whole load fails; one with no iteration, no
    schema and no swept dimension does not fail but comes back reversed. *)
Theorem C201_layout_edges_refuted :
  stack_one CORE ["origin"; "destination"]
    (mkD [("sigma", [[5]]); ("origin", [[0]]); ("destination", [[0]]); ("time", [[1]])] (fun _ => 0) : darr nat nat)
  = Raise EValue /\
  exists out, stack_one CORE []
    (mkD [("origin", [[0]; [1]]); ("destination", [[0]])] (fun _ => 0) : darr nat nat) = Ok out /\
    names out = ["destination"; "origin"].
Proof. split; [reflexivity|]. eexists. split; reflexivity. Qed.
Print Assumptions C201_layout_edges_refuted.
