(** Properties of StartUp: C143, the constants of the Harris-Wilson model. *)
From Coq Require Import List String ZArith QArith Bool Arith Lia.
From Verif Require Import Base PyMonad ConfigTree ConfigSpec ConfigProps ConfigFind Learning Inputs InputsProps StartUp.
Import ListNotations.
Open Scope string_scope.
Open Scope nat_scope.
Open Scope list_scope.

(** * The shape of a configuration: everything but its scalars *)
Fixpoint skel (s : node) : node :=
  match s with
  | Leaf _ => Leaf LNone
  | Dict l => Dict (map (fun kv => (fst kv, skel (snd kv))) l)
  | LList l => LList (map skel l)
  end.

Lemma items_skel : forall s, items (skel s) = map (fun kv => (fst kv, skel (snd kv))) (items s).
Proof.
  intros [x|l|l]; cbn [skel items map]; try reflexivity.
  rewrite map_length. generalize 0. induction l as [|a l IH]; intros n; cbn; [reflexivity|]. now rewrite IH.
Qed.
Lemma container_skel : forall s, is_container (skel s) = is_container s.
Proof. intros [x|l|l]; reflexivity. Qed.

Lemma find_st_skel : forall key s st, path_find_st key (skel s) st = path_find_st key s st.
Proof.
  intros key s. induction s as [s IH] using node_items_ind. intros st.
  rewrite !path_find_st_fold, items_skel. revert st IH. generalize (items s). clear s.
  induction l as [|[k c] l IHl]; intros st IH; [reflexivity|]. cbn [map fold_left fst snd].
  rewrite IHl by (intros k' c' H; apply (IH k' c'); now right). f_equal.
  unfold fstep. cbn [fst snd]. rewrite container_skel.
  destruct (is_container c); [|reflexivity]. now rewrite (IH k c) by now left.
Qed.
Lemma find_skel : forall key s s', skel s = skel s' -> path_find key s = path_find key s'.
Proof. intros key s s' E. unfold path_find. rewrite <- (find_st_skel key s), E. now rewrite find_st_skel. Qed.

Lemma dget_skel : forall k l, dget k (map (fun kv => (fst kv, skel (snd kv))) l) = option_map skel (dget k l).
Proof.
  intros k l. induction l as [|[k' v] l IH]; cbn [map dget fst snd]; [reflexivity|].
  destruct (key_eqb k k'); [reflexivity|]. exact IH.
Qed.
Lemma lookup_skel : forall p s, lookup (skel s) p = option_map skel (lookup s p).
Proof.
  induction p as [|k p IH]; intros s; [reflexivity|]. cbn [lookup]. destruct s as [x|l|l]; cbn [skel].
  - reflexivity.
  - rewrite dget_skel. destruct (dget k l); cbn [option_map]; auto.
  - destruct k as [t|n]; [reflexivity|]. rewrite nth_error_map. destruct (nth_error l n); cbn [option_map]; auto.
Qed.
Lemma holder_skel : forall p s, holder (skel s) p <-> holder s p.
Proof.
  induction p as [|k [|k2 p] IH]; intros s; [tauto| |].
  - destruct s as [x|l|l]; cbn [skel holder]; [tauto|tauto|]. destruct k; [tauto|]. now rewrite map_length.
  - rewrite !holder_cons. destruct s as [x|l|l]; cbn [skel]; try tauto.
    rewrite dget_skel. destruct (dget k l); cbn [option_map]; [apply IH|tauto].
Qed.

Lemma dset_skel : forall k v l, map (fun kv => (fst kv, skel (snd kv))) (dset k v l) =
  dset k (skel v) (map (fun kv => (fst kv, skel (snd kv))) l).
Proof.
  intros k v l. induction l as [|[k' v'] l IH]; cbn [map dset fst snd]; [reflexivity|].
  destruct (key_eqb k k'); cbn [map fst snd]; [reflexivity|]. now rewrite IH.
Qed.
Lemma dset_same : forall k v l, dget k l = Some v -> dset k v l = l.
Proof.
  intros k v l. induction l as [|[k' v'] l IH]; cbn [dset dget]; [discriminate|].
  destruct (key_eqb_spec k k') as [->|N]; intro H; [now inversion H|]. now rewrite IH.
Qed.
Lemma lset_skel : forall n v l, map skel (lset n v l) = lset n (skel v) (map skel l).
Proof.
  induction n as [|n IH]; intros v [|a l]; cbn [lset map]; try reflexivity. now rewrite IH.
Qed.
Lemma lset_same : forall n v l, nth_error l n = Some v -> lset n v l = l.
Proof.
  induction n as [|n IH]; intros v [|a l] H; cbn in *; try discriminate; [now inversion H|]. now rewrite IH.
Qed.

Lemma path_set_skel : forall p s v x, holder s p -> lookup s p = Some (Leaf x) -> skel v = Leaf LNone ->
  exists s', path_set false s v p = Ok (s', true) /\ skel s' = skel s.
Proof.
  induction p as [|k [|k2 p] IH]; intros s v x H L V; [contradiction| |].
  - cbn [path_set]. destruct s as [y|l|l]; cbn [holder] in H; [contradiction| |].
    + cbn [lookup] in L. destruct (dget k l) eqn:E; [|discriminate].
      cbn [set_item rbind]. eexists. split; [reflexivity|]. cbn [skel]. f_equal.
      rewrite dset_skel. apply dset_same. rewrite dget_skel, E. cbn [option_map]. inversion L; subst. cbn. now rewrite V.
    + destruct k as [t|n]; [contradiction|]. cbn [lookup] in L. destruct (nth_error l n) eqn:E; [|discriminate].
      cbn [set_item]. destruct (Nat.ltb_spec n (List.length l)); [|lia]. cbn [rbind].
      eexists. split; [reflexivity|]. cbn [skel]. f_equal. rewrite lset_skel. apply lset_same.
      rewrite nth_error_map, E. cbn [option_map]. inversion L; subst. cbn. now rewrite V.
  - rewrite holder_cons in H. rewrite path_set_cons. destruct s as [y|l|l]; try contradiction.
    cbn [lookup] in L. destruct (dget k l) as [c|] eqn:E; [|contradiction].
    destruct (IH c v x H L V) as (c' & P & S). rewrite P. cbn [rbind fst snd].
    eexists. split; [reflexivity|]. cbn [skel]. f_equal. rewrite dset_skel, S. apply dset_same.
    now rewrite dget_skel, E.
Qed.

(** * Specification *)

(** Where a name is written in the configuration: the first path found. *)
Definition place (s : node) (p : string) : option (list key) :=
  match path_find (KS p) s with path :: _ => Some path | [] => None end.

(** A configuration in which the parameters that occur are scalars held by
    dictionaries. *)
Definition scalar_parameters (s : node) : Prop :=
  wf s /\ forall p path, In p parameter_names -> place s p = Some path ->
    holder_exists s path /\ exists x, reaches s path (Leaf x).

(** The constant a call fixes for a name: the trial's value for the three names
    a trial suggests, otherwise the tensor given. *)
Inductive fixes (c : hw_call) (p : string) : Q -> Prop :=
| by_trial : forall f, hw_trial c = Some f -> In p ["epsilon"; "noise_percentage"; "dt"] -> fixes c p (f p)
| by_call : forall x, (hw_trial c = None \/ ~ In p ["epsilon"; "noise_percentage"; "dt"]) ->
    aget p (hw_given c) = Some (Some (PTensor x)) -> fixes c p x.

(** ** Lemmas *)
Lemma memb_In : forall k l, memb k l = true <-> In k l.
Proof.
  intros k l. unfold memb. rewrite existsb_exists. split.
  - intros (x & H & E). apply String.eqb_eq in E. now subst.
  - intro H. exists k. split; [assumption|apply String.eqb_refl].
Qed.
Lemma memb_false : forall k l, memb k l = false <-> ~ In k l.
Proof. intros k l. rewrite <- memb_In. destruct (memb k l); split; congruence. Qed.

Definition scalars (s : node) : Prop :=
  forall p path, In p parameter_names -> place s p = Some path ->
    holder s path /\ exists x, lookup s path = Some (Leaf x).
Lemma scalars_of : forall s, scalar_parameters s -> scalars s.
Proof.
  intros s [W H] p path P E. destruct (H p path P E) as [A [x B]]. split; [now apply holder_iff|].
  exists x. now apply lookup_reaches.
Qed.
Lemma place_skel : forall s s' p, skel s = skel s' -> place s p = place s' p.
Proof. intros s s' p E. unfold place. now rewrite (find_skel _ _ _ E). Qed.
Lemma scalars_skel : forall s s', skel s = skel s' -> scalars s -> scalars s'.
Proof.
  intros s s' E H p path P F. rewrite <- (place_skel s s' p E) in F. destruct (H p path P F) as [A [x B]].
  split.
  - apply holder_skel. rewrite <- E. now apply holder_skel.
  - pose proof (lookup_skel path s') as K. rewrite <- E, lookup_skel, B in K. cbn in K.
    destruct (lookup s' path) as [[y|l|l]|]; cbn in K; try discriminate. now exists y.
Qed.

Lemma write_back_ok : forall s p v x, scalars s -> In p parameter_names -> v = Leaf x ->
  exists s', write_back s p v = Ok s' /\ skel s' = skel s /\
    (wf s -> wf s') /\
    match place s p with
    | Some path => lookup s' path = Some v /\ forall q, unrelated path q -> lookup s' q = lookup s q
    | None => s' = s
    end.
Proof.
  intros s p v x H P ->. unfold write_back. specialize (H p). unfold place in *.
  destruct (path_find (KS p) s) as [|path rest]; [eauto|].
  destruct (H path P eq_refl) as [A [y B]]. destruct path as [|k q]; [contradiction|].
  destruct (path_set_skel _ _ (Leaf x) _ A B eq_refl) as (s' & E & S).
  destruct (path_set_effect _ _ (Leaf x) A) as (s2 & E2 & L & U & W & _).
  rewrite E in E2. inversion E2; subst s2. rewrite E. cbn [rbind fst]. exists s'.
  repeat split; auto. intro W0. apply W; [assumption|constructor].
Qed.

Lemma trial_name_dec : forall p, In p trial_names \/ ~ In p trial_names.
Proof. intro p. destruct (memb p trial_names) eqn:E; [left; now apply memb_In|right; now apply memb_false]. Qed.

Lemma fixes_iff : forall c p x, fixes c p x <->
  (suggested c p = Some x \/ (suggested c p = None /\ given_value c p = Some (PTensor x))).
Proof.
  intros c p x. unfold suggested, given_value. split.
  - intros [f T I|y T G].
    + left. rewrite T. apply memb_In in I. unfold trial_names. now rewrite I.
    + right. rewrite G. split; [|reflexivity]. destruct (hw_trial c) as [f|]; [|reflexivity].
      destruct T as [T|T]; [discriminate|]. apply memb_false in T. unfold trial_names. now rewrite T.
  - intros [H|[H G]].
    + destruct (hw_trial c) as [f|] eqn:T; [|discriminate]. destruct (memb p trial_names) eqn:M; [|discriminate].
      inversion H; subst. apply by_trial; [assumption|now apply memb_In].
    + apply by_call.
      * destruct (hw_trial c); [right|now left]. destruct (memb p trial_names) eqn:M; [discriminate|].
        now apply memb_false.
      * destruct (aget p (hw_given c)) as [[v|]|]; try discriminate. now inversion G.
Qed.

Lemma step_ok : forall enc c hyper s p, (forall x, exists l, enc x = Leaf l) -> scalars s -> In p parameter_names ->
  (exists r, hyper_step enc c (hyper, s) p = Ok r) <->
  (In p (hw_learn c) \/ exists x, fixes c p x).
Proof.
  intros enc c hyper s p E S P. unfold hyper_step.
  destruct (memb p (hw_learn c)) eqn:M.
  { apply memb_In in M. split; eauto. }
  apply memb_false in M. split.
  - intros [r H]. right. destruct (suggested c p) as [x|] eqn:G.
    + exists x. apply fixes_iff. now left.
    + destruct (given_value c p) as [v|] eqn:V; [|discriminate].
      destruct (E (pnum v)) as [l El]. destruct (write_back_ok s p (enc (pnum v)) l S P El) as (s' & W & _).
      rewrite W in H. cbn [rbind] in H. destruct v as [x|x]; [|discriminate].
      exists x. apply fixes_iff. now right.
  - intros [H|[x H]]; [contradiction|]. apply fixes_iff in H as [-> | [-> ->]]; [eauto|].
    cbn [pnum]. destruct (E x) as [l El]. destruct (write_back_ok s p (enc x) l S P El) as (s' & W & _).
    rewrite W. cbn [rbind]. eauto.
Qed.

(** What one turn does. *)
Lemma step_effect : forall enc c hyper s p hyper' s', (forall x, exists l, enc x = Leaf l) -> scalars s ->
  In p parameter_names -> hyper_step enc c (hyper, s) p = Ok (hyper', s') ->
  skel s' = skel s /\ (wf s -> wf s') /\
  (forall q, q <> p -> aget q hyper' = aget q hyper) /\
  ((In p (hw_learn c) /\ hyper' = hyper /\ s' = s) \/
   (~ In p (hw_learn c) /\ exists x, fixes c p x /\ (exists v, aget p hyper' = Some v /\ pnum v = x) /\
      (suggested c p <> None -> s' = s) /\
      (suggested c p = None ->
       match place s p with
       | Some path => lookup s' path = Some (enc x) /\ forall q, unrelated path q -> lookup s' q = lookup s q
       | None => s' = s
       end))).
Proof.
  intros enc c hyper s p hyper' s' E S P H. unfold hyper_step in H.
  destruct (memb p (hw_learn c)) eqn:M.
  { inversion H; subst. apply memb_In in M. repeat split; auto. }
  apply memb_false in M. destruct (suggested c p) as [x|] eqn:G.
  - inversion H; subst. repeat split; auto.
    + intros q N. now apply aget_aset_other.
    + right. split; [assumption|]. exists x. split; [apply fixes_iff; now left|].
      split; [exists (PFloat x); split; [apply aget_aset_same|reflexivity]|]. split; [reflexivity|discriminate].
  - destruct (given_value c p) as [v|] eqn:V; [|discriminate].
    destruct (E (pnum v)) as [l El]. destruct (write_back_ok s p (enc (pnum v)) l S P El) as (s2 & W & K & Wf & L).
    rewrite W in H. cbn [rbind] in H. destruct v as [x|x]; [|discriminate]. inversion H; subst.
    repeat split; auto.
    + intros q N. now apply aget_aset_other.
    + right. split; [assumption|]. exists x. split; [apply fixes_iff; now right|].
      split; [exists (PTensor x); split; [apply aget_aset_same|reflexivity]|]. split; [congruence|].
      intros _. exact L.
Qed.

(** Two different paths to scalars are unrelated. *)
Lemma leaf_unrelated : forall s p q x y, lookup s p = Some (Leaf x) -> lookup s q = Some (Leaf y) -> p <> q ->
  unrelated p q.
Proof.
  assert (A : forall s p r x w, lookup s p = Some (Leaf x) -> lookup s (p ++ r) = Some w -> r = []).
  { intros s p r x w H K. rewrite lookup_app, H in K. destruct r as [|[t|n] r]; [reflexivity|discriminate|discriminate]. }
  intros s p q x y H K N. split; intros [r ->].
  - rewrite (A _ _ _ _ _ H K) in N. rewrite app_nil_r in N. congruence.
  - rewrite (A _ _ _ _ _ K H) in N. rewrite app_nil_r in N. congruence.
Qed.

Lemma place_last : forall s p path, wf s -> place s p = Some path -> exists q, path = q ++ [KS p].
Proof.
  intros s p path W H. unfold place in H.
  destruct (C40_find_up_to_order (KS p) s W) as (tp & _ & _ & F).
  destruct (path_find (KS p) s) as [|path' r]; [discriminate|]. inversion H; subst.
  inversion F as [|? ? ? ? [_ K]]; subst. exact K.
Qed.
Lemma place_inj : forall s p p' path, wf s -> place s p = Some path -> place s p' = Some path -> p = p'.
Proof.
  intros s p p' path W A B. destruct (place_last _ _ _ W A) as [q ->]. destruct (place_last _ _ _ W B) as [q' E].
  apply app_inj_tail in E as [_ E]. congruence.
Qed.

(** A name whose constant is written back into the configuration. *)
Definition written (c : hw_call) (p : string) : Prop := ~ In p (hw_learn c) /\ suggested c p = None.

Definition fold_inv (enc : Q -> node) (c : hw_call) (s0 : node) (done : list string)
    (st : list (string * pval) * node) : Prop :=
  skel (snd st) = skel s0 /\ wf (snd st) /\
  (forall p, ~ In p done -> aget p (fst st) = None) /\
  (forall p, In p done ->
     (In p (hw_learn c) /\ aget p (fst st) = None) \/
     (~ In p (hw_learn c) /\ exists x v, fixes c p x /\ aget p (fst st) = Some v /\ pnum v = x)) /\
  (forall p path, In p done -> written c p -> place s0 p = Some path ->
     exists x, fixes c p x /\ lookup (snd st) path = Some (enc x)) /\
  (forall q x, lookup s0 q = Some (Leaf x) ->
     (forall p, In p done -> written c p -> place s0 p <> Some q) ->
     lookup (snd st) q = Some (Leaf x)).

Lemma fold_inv_step : forall enc c s0 done st p st', (forall x, exists l, enc x = Leaf l) ->
  wf s0 -> scalars s0 -> incl done parameter_names -> In p parameter_names -> ~ In p done ->
  fold_inv enc c s0 done st -> hyper_step enc c st p = Ok st' -> fold_inv enc c s0 (done ++ [p]) st'.
Proof.
  intros enc c s0 done [h s] p [h' s'] En W0 S0 Inc P Np (A & B & C & D & F & G) H.
  cbn [fst snd] in *.
  assert (S : scalars s) by (apply (scalars_skel s0); [now symmetry|assumption]).
  destruct (step_effect enc c h s p h' s' En S P H) as (K & Wf & O & R).
  assert (PL : forall q, place s q = place s0 q) by (intro q; now apply place_skel).
  (* scalar paths of the start stay scalar paths *)
  assert (LK : forall q x, lookup s0 q = Some (Leaf x) -> exists y, lookup s q = Some (Leaf y)).
  { intros q x L. pose proof (lookup_skel q s) as M. rewrite A, lookup_skel, L in M. cbn in M.
    destruct (lookup s q) as [[y|l|l]|]; cbn in M; try discriminate. now exists y. }
  (* what the step does at scalar paths other than the place of p *)
  assert (UN : forall q x, lookup s0 q = Some (Leaf x) -> (written c p -> place s0 p <> Some q) ->
               lookup s' q = lookup s q).
  { intros q x L N. destruct R as [(_ & _ & ->)|(NL & y & Fx & _ & R1 & R2)]; [reflexivity|].
    destruct (suggested c p) as [z|] eqn:Sg; [now rewrite R1 by discriminate|].
    specialize (R2 eq_refl). rewrite PL in R2. destruct (place s0 p) as [path|] eqn:E; [|now subst].
    destruct R2 as [_ R2]. apply R2. destruct (S0 p path P E) as [_ [z Z]].
    apply (leaf_unrelated s0 _ _ z x Z L). intros ->. apply N; [split; assumption|reflexivity]. }
  unfold fold_inv. cbn [fst snd]. split; [congruence|]. split; [auto|]. split; [|split; [|split]].
  - intros q N. rewrite in_app_iff in N. rewrite O by (intros ->; apply N; right; now left).
    apply C. tauto.
  - intros q I. apply in_app_iff in I as [I|[<-|[]]].
    + rewrite O by (intros ->; contradiction). apply D; assumption.
    + destruct R as [(L & -> & _)|(NL & x & Fx & (v & V & E) & _)].
      * left. split; [assumption|]. now apply C.
      * right. split; [assumption|]. exists x, v. auto.
  - intros q path I Wr E. apply in_app_iff in I as [I|[<-|[]]].
    + destruct (F q path I Wr E) as (x & Fx & L). exists x. split; [assumption|].
      destruct (S0 q path (Inc q I) E) as [_ [z Z]]. rewrite (UN path z Z); [assumption|].
      intros _ E2. rewrite (place_inj s0 q p path W0 E E2) in I. contradiction.
    + destruct Wr as [NL Sg]. destruct R as [(L & _)|(_ & x & Fx & _ & _ & R2)]; [contradiction|].
      specialize (R2 Sg). rewrite PL, E in R2. exists x. split; [assumption|apply R2].
  - intros q x L N. rewrite (UN q x L).
    + apply (G q x L). intros r I. apply N. apply in_app_iff. now left.
    + intro Wr. apply N; [|assumption]. apply in_app_iff. right. now left.
Qed.

Lemma fold_inv_all : forall enc c s0 todo done st st', (forall x, exists l, enc x = Leaf l) ->
  wf s0 -> scalars s0 -> NoDup (done ++ todo) -> incl (done ++ todo) parameter_names ->
  fold_inv enc c s0 done st -> foldM (hyper_step enc c) todo st = Ok st' -> fold_inv enc c s0 (done ++ todo) st'.
Proof.
  intros enc c s0 todo. induction todo as [|p todo IH]; intros done st st' En W S ND Inc I H.
  - cbn in H. inversion H; subst. now rewrite app_nil_r.
  - cbn [foldM] in H. apply rbind_Ok_inv in H as (st1 & E & H).
    change (p :: todo) with ([p] ++ todo) in *. rewrite app_assoc in *.
    apply (IH _ st1); auto.
    apply (fold_inv_step enc c s0 done st p); auto.
    + intros q Q. apply Inc. rewrite !in_app_iff. tauto.
    + apply Inc. rewrite !in_app_iff. left. right. now left.
    + intro Q. rewrite <- app_assoc in ND. apply NoDup_remove_2 in ND. apply ND. apply in_app_iff. now left.
Qed.

Lemma names_NoDup : NoDup parameter_names.
Proof. repeat constructor; cbn; intuition discriminate. Qed.

(** A model that is built holds, for each of the nine parameters that is not
    learned, the value of the trial or of the call, and nothing for the learned
    ones; the configuration then shows the values of the call at the first
    place each name occurs, and every other scalar as before. *)
Theorem C143_constants_partial : forall enc c s m, (forall x, exists l, enc x = Leaf l) ->
  scalar_parameters s -> hw_init enc c s = Ok m ->
  (forall p, In p (hw_learn c) -> In p ["alpha"; "beta"; "kappa"; "sigma"; "delta"; "epsilon"; "bmax"]) /\
  (forall p, In p ["alpha"; "beta"; "delta"; "kappa"; "epsilon"; "bmax"; "noise_percentage"; "sigma"; "dt"] ->
     ~ In p (hw_learn c) -> exists x v, fixes c p x /\ aget p (m_hyper m) = Some v /\ pnum v = x) /\
  (forall p, In p (hw_learn c) -> aget p (m_hyper m) = None) /\
  (forall p path, In p parameter_names -> ~ In p (hw_learn c) ->
     (hw_trial c = None \/ ~ In p ["epsilon"; "noise_percentage"; "dt"]) -> place s p = Some path ->
     exists x, fixes c p x /\ reaches (m_settings m) path (enc x)) /\
  (forall q x, reaches s q (Leaf x) ->
     (forall p, In p parameter_names -> ~ In p (hw_learn c) -> place s p <> Some q) ->
     reaches (m_settings m) q (Leaf x)).
Proof.
  intros enc c s m En Sp H. pose proof (scalars_of s Sp) as S. destruct Sp as [W _].
  unfold hw_init in H. destruct (forallb (fun p => memb p learnable) (hw_learn c)) eqn:L; [|discriminate].
  apply rbind_Ok_inv in H as (st & F & H). inversion H; subst m. clear H. cbn [m_hyper m_settings].
  rewrite forallb_forall in L.
  assert (I0 : fold_inv enc c s [] ([], s)).
  { unfold fold_inv. cbn [fst snd]. repeat split; auto; try (intros; contradiction). }
  pose proof (fold_inv_all enc c s parameter_names [] ([], s) st En W S names_NoDup (incl_refl _) I0 F) as I1.
  cbn [app] in I1. destruct I1 as (_ & W1 & C & D & R & U). split; [|split; [|split; [|split]]].
  - intros p P. apply memb_In. apply (L p P).
  - intros p P N. destruct (D p P) as [[A _]|[_ A]]; [contradiction|exact A].
  - intros p P. destruct (memb p parameter_names) eqn:M.
    + apply memb_In in M. destruct (D p M) as [[_ A]|[A _]]; [exact A|contradiction].
    + apply memb_false in M. now apply C.
  - intros p path P N T E. destruct (R p path P) as (x & Fx & K); [|assumption|].
    { split; [assumption|]. unfold suggested. destruct (hw_trial c); [|reflexivity].
      destruct T as [T|T]; [discriminate|]. apply memb_false in T. unfold trial_names. now rewrite T. }
    exists x. split; [assumption|]. now apply lookup_reaches.
  - intros q x K N. apply lookup_reaches; [assumption|]. apply U; [now apply lookup_reaches|].
    intros p P [NL _]. now apply N.
Qed.
Print Assumptions C143_constants_partial.

Lemma fold_succeeds : forall enc c s0 todo done st, (forall x, exists l, enc x = Leaf l) ->
  wf s0 -> scalars s0 -> NoDup (done ++ todo) -> incl (done ++ todo) parameter_names ->
  fold_inv enc c s0 done st ->
  ((exists st', foldM (hyper_step enc c) todo st = Ok st') <->
   (forall p, In p todo -> In p (hw_learn c) \/ exists x, fixes c p x)).
Proof.
  intros enc c s0 todo. induction todo as [|p todo IH]; intros done st En W S ND Inc I.
  - cbn. split; [contradiction|eauto].
  - change (p :: todo) with ([p] ++ todo) in ND, Inc. rewrite app_assoc in ND, Inc.
    assert (P : In p parameter_names) by (apply Inc; rewrite !in_app_iff; left; right; now left).
    assert (Np : ~ In p done).
    { intro Q. rewrite <- app_assoc in ND. apply NoDup_remove_2 in ND. apply ND. apply in_app_iff. now left. }
    assert (Inc' : incl done parameter_names) by (intros q Q; apply Inc; rewrite !in_app_iff; tauto).
    destruct st as [h s]. assert (Ss : scalars s) by (apply (scalars_skel s0); [symmetry; apply I|assumption]).
    pose proof (step_ok enc c h s p En Ss P) as K. cbn [foldM]. split.
    + intros [st' H]. apply rbind_Ok_inv in H as (st1 & E & H).
      pose proof (fold_inv_step enc c s0 done _ p st1 En W S Inc' P Np I E) as I1.
      intros q [<-|Q]; [apply K; eauto|]. apply (IH (done ++ [p]) st1); eauto.
    + intros H. destruct (proj2 K (H p (or_introl eq_refl))) as [st1 E]. rewrite E. cbn [rbind].
      pose proof (fold_inv_step enc c s0 done _ p st1 En W S Inc' P Np I E) as I1.
      apply (IH (done ++ [p]) st1); auto. intros q Q. apply H. now right.
Qed.

(** The model is built exactly when only learnable names are learned and every
    other parameter is given as a tensor or suggested by a trial: neither the
    configuration nor the defaults are ever used. *)
Theorem C143_built_exactly : forall enc c s, (forall x, exists l, enc x = Leaf l) -> scalar_parameters s ->
  ((exists m, hw_init enc c s = Ok m) <->
   (forall p, In p (hw_learn c) -> In p ["alpha"; "beta"; "kappa"; "sigma"; "delta"; "epsilon"; "bmax"]) /\
   (forall p, In p ["alpha"; "beta"; "delta"; "kappa"; "epsilon"; "bmax"; "noise_percentage"; "sigma"; "dt"] ->
      In p (hw_learn c) \/ exists x, fixes c p x)).
Proof.
  intros enc c s En Sp. pose proof (scalars_of s Sp) as S. destruct Sp as [W _].
  assert (I0 : fold_inv enc c s [] ([], s)).
  { unfold fold_inv. cbn [fst snd]. repeat split; auto; try (intros; contradiction). }
  pose proof (fold_succeeds enc c s parameter_names [] ([], s) En W S names_NoDup (incl_refl _) I0) as K.
  unfold hw_init. split.
  - intros [m H]. destruct (forallb (fun p => memb p learnable) (hw_learn c)) eqn:L; [|discriminate].
    apply rbind_Ok_inv in H as (st & F & H). split; [|apply K; eauto].
    rewrite forallb_forall in L. intros p P. apply memb_In. now apply L.
  - intros [A B]. assert (L : forallb (fun p => memb p learnable) (hw_learn c) = true).
    { apply forallb_forall. intros p P. apply memb_In. now apply A. }
    rewrite L. destruct (proj2 K B) as [st F]. rewrite F. cbn [rbind]. eauto.
Qed.
Print Assumptions C143_built_exactly.

(** The noise regime: variable when sigma is learned, high from 1/10 on. *)
Theorem C143_noise_regime : forall enc c s m, (forall x, exists l, enc x = Leaf l) ->
  scalar_parameters s -> hw_init enc c s = Ok m ->
  (In "sigma" (hw_learn c) -> m_regime m = Variable_) /\
  (~ In "sigma" (hw_learn c) -> exists x, fixes c "sigma" x /\
     ((1 # 10 <= x)%Q -> m_regime m = High) /\ (~ (1 # 10 <= x)%Q -> m_regime m = Low)).
Proof.
  intros enc c s m En Sp H.
  destruct (C143_constants_partial enc c s m En Sp H) as (_ & K & _ & _ & _).
  specialize (K "sigma"). unfold hw_init in H.
  destruct (forallb (fun p => memb p learnable) (hw_learn c)); [|discriminate].
  apply rbind_Ok_inv in H as (st & F & H). inversion H; subst m. cbn [m_regime m_hyper] in *.
  unfold noise_regime. split.
  - intro I. apply memb_In in I. now rewrite I.
  - intro N. destruct K as (x & v & Fx & A & E); [cbn; tauto|assumption|].
    apply memb_false in N. rewrite N, A, E. exists x. split; [assumption|]. rewrite <- Qle_bool_iff.
    split; [now intros ->|]. intro B. destruct (Qle_bool (1 # 10) x); [now elim B|reflexivity].
Qed.
Print Assumptions C143_noise_regime.

(** 1/Z is estimated with the truncated series when sigma is learned or at least
    1/10, and by the saddle point for smaller fixed noise. *)
Theorem C145_estimator_by_noise : forall enc c s m, (forall x, exists l, enc x = Leaf l) ->
  scalar_parameters s -> hw_init enc c s = Ok m ->
  choose_estimator (m_regime m) = Biased <->
  ~ In "sigma" (hw_learn c) /\ exists x, fixes c "sigma" x /\ ~ (1 # 10 <= x)%Q.
Proof.
  intros enc c s m En Sp H. destruct (C143_noise_regime enc c s m En Sp H) as [A B].
  destruct (memb "sigma" (hw_learn c)) eqn:M.
  - apply memb_In in M. rewrite (A M). split; [discriminate|]. intros [N _]. contradiction.
  - apply memb_false in M. destruct (B M) as (x & F & P & Q). split.
    + intros E. split; [exact M|]. exists x. split; [exact F|]. intro L. rewrite (P L) in E. discriminate.
    + intros [_ (y & Fy & Ny)]. assert (~ (1 # 10 <= x)%Q) as Nx.
      { intro L. apply Ny. clear -F Fy L. inversion F; inversion Fy; subst; try congruence;
          cbn in *; intuition discriminate. }
      rewrite (Q Nx). reflexivity.
Qed.
Print Assumptions C145_estimator_by_noise.

(** The learned parameters keep the order of the configuration: the i-th
    learned name has position i. *)
Lemma positions_aux : forall (l : list string) n acc, NoDup l -> (forall p, In p l -> aget p acc = None) ->
  forall p, aget p (fold_left (fun acc ip => aset (snd ip) (fst ip) acc) (combine (seq n (List.length l)) l) acc) =
    match aget p acc with
    | Some i => Some i
    | None => match find (fun ip => String.eqb p (snd ip)) (combine (seq n (List.length l)) l) with
              | Some ip => Some (fst ip) | None => None end
    end.
Proof.
  induction l as [|a l IH]; intros n acc ND H p; cbn [List.length seq combine fold_left find].
  - now destruct (aget p acc).
  - inversion ND; subst. cbn [fst snd]. rewrite IH; [|assumption|].
    + destruct (String.eqb_spec p a) as [->|N].
      * now rewrite aget_aset_same, (H a) by now left.
      * now rewrite aget_aset_other.
    + intros q Q. rewrite aget_aset_other by (intros ->; contradiction). apply H. now right.
Qed.
Theorem C143_positions : forall enc c s m, NoDup (hw_learn c) -> hw_init enc c s = Ok m ->
  forall p i, aget p (m_learned m) = Some i <-> nth_error (hw_learn c) i = Some p.
Proof.
  intros enc c s m ND H p i. unfold hw_init in H.
  destruct (forallb (fun p => memb p learnable) (hw_learn c)); [|discriminate].
  apply rbind_Ok_inv in H as (st & F & H). inversion H; subst m. cbn [m_learned].
  rewrite (positions_aux (hw_learn c) 0 [] ND (fun _ _ => eq_refl)). cbn [aget].
  assert (G : forall (l : list string) n, NoDup l ->
     (match find (fun ip => String.eqb p (snd ip)) (combine (seq n (List.length l)) l) with
      | Some ip => Some (fst ip) | None => None end = Some i <-> exists k, i = n + k /\ nth_error l k = Some p)).
  { induction l as [|a l IH]; intros n NDl; cbn [List.length seq combine find].
    - split; [discriminate|]. intros (k & _ & K). destruct k; discriminate.
    - inversion NDl; subst. cbn [fst snd]. destruct (String.eqb_spec p a) as [->|N].
      + cbn [fst]. split.
        * intro E. inversion E; subst. exists 0. split; [lia|reflexivity].
        * intros ([|k] & -> & K); [f_equal; lia|]. cbn in K. exfalso. apply nth_error_In in K. contradiction.
      + rewrite IH by assumption. split.
        * intros (k & -> & K). exists (S k). split; [lia|assumption].
        * intros ([|k] & -> & K); [cbn in K; congruence|]. exists k. split; [lia|assumption]. }
  rewrite G by assumption. split; [intros (k & -> & K); exact K|intro K; exists i; split; [lia|exact K]].
Qed.
Print Assumptions C143_positions.

(** The call an experiment makes: the parameters of its inputs, on the device. *)
Definition experiment_call (learn : list string) (ps : list (string * Q)) : hw_call :=
  mkhw (map (fun kv => (fst kv, Some (PTensor (snd kv)))) ps) learn None.
Lemma aget_call : forall ps p, aget p (map (fun kv => (fst kv, Some (PTensor (snd kv)))) ps) =
  option_map (fun x => Some (PTensor x)) (aget p ps).
Proof.
  intros ps p. induction ps as [|[k v] ps IH]; cbn [map aget fst snd]; [reflexivity|].
  destruct (String.eqb p k); [reflexivity|exact IH].
Qed.

(** An experiment's model is always built, and its constants are the
    parameters of the inputs. *)
Theorem C143_experiment_constants : forall enc s sim hw learn delta kappa, (forall x, exists l, enc x = Leaf l) ->
  scalar_parameters s ->
  (forall p, In p learn -> In p ["alpha"; "beta"; "kappa"; "sigma"; "delta"; "epsilon"; "bmax"]) ->
  exists m, hw_init enc (experiment_call learn (true_parameters sim hw learn delta kappa)) s = Ok m /\
    forall p, In p parameter_names -> ~ In p learn ->
      exists x v, aget p (true_parameters sim hw learn delta kappa) = Some x /\
        aget p (m_hyper m) = Some v /\ pnum v = x.
Proof.
  intros enc s sim hw learn delta kappa En Sp L.
  set (c := experiment_call learn (true_parameters sim hw learn delta kappa)).
  assert (G : forall p, In p parameter_names -> ~ In p learn ->
                exists x, aget p (true_parameters sim hw learn delta kappa) = Some x).
  { intros p P N. unfold true_parameters. cbv zeta.
    destruct (String.eqb_spec p "kappa") as [->|N1]; [rewrite aget_aset_same; eauto|].
    rewrite aget_aset_other by assumption.
    destruct (String.eqb_spec p "delta") as [->|N2]; [rewrite aget_aset_same; eauto|].
    rewrite aget_aset_other by assumption.
    apply in_map_iff in P as ((k & v) & E & I). cbn in E. subst k.
    apply memb_false in N.
    assert (F : In (p, v) (filter (fun kv => negb (memb (fst kv) learn)) parameter_defaults)).
    { apply filter_In. split; [assumption|]. cbn [fst]. now rewrite N. }
    match goal with |- exists x, aget p (map ?f ?l) = Some x => assert (Z : In p (map fst (map f l))) end.
    { rewrite map_map. apply in_map_iff. exists (p, v). split; [reflexivity|assumption]. }
    match goal with |- exists x, ?a = Some x => destruct a as [y|] eqn:Y end; [eauto|].
    apply aget_None in Y. contradiction. }
  assert (B : exists m, hw_init enc c s = Ok m).
  { apply C143_built_exactly; [assumption|assumption|]. split; [exact L|]. intros p P.
    destruct (memb p learn) eqn:M; [left; now apply memb_In|]. right. apply memb_false in M.
    destruct (G p P M) as [x X]. exists x. apply by_call; [now left|]. unfold c, experiment_call. cbn [hw_given].
    now rewrite aget_call, X. }
  destruct B as [m B]. exists m. split; [exact B|]. intros p P N.
  destruct (C143_constants_partial enc c s m En Sp B) as (_ & K & _).
  destruct (K p P N) as (x & v & Fx & A & E). exists x, v. split; [|auto].
  inversion Fx as [f T _|y _ X]; [discriminate T|]. subst y. unfold c, experiment_call in X. cbn [hw_given] in X.
  rewrite aget_call in X. destruct (aget p (true_parameters sim hw learn delta kappa)); [|discriminate].
  cbn in X. now inversion X.
Qed.
Print Assumptions C143_experiment_constants.

(** The documented fallback to the configuration fails: without a value in the
    call, a configuration that holds every parameter is of no use. *)
Definition enc0 (x : Q) : node := Leaf (LNum (Qnum x)).
Definition full_config : node :=
  Dict [(KS "parameters", Dict (map (fun p => (KS p, Leaf (LNum 1))) parameter_names))].
Theorem C143_config_unused_refuted :
  (forall p, In p parameter_names -> path_get [KS "parameters"; KS p] full_config = (Some (Leaf (LNum 1)), true)) /\
  hw_init enc0 (mkhw [] ["alpha"; "beta"] None) full_config = Raise EAttr.
Proof.
  split; [|vm_compute; reflexivity].
  intros p P. cbn in P. repeat (destruct P as [<-|P]; [vm_compute; reflexivity|]). contradiction.
Qed.
Print Assumptions C143_config_unused_refuted.

(** So does the fallback to the defaults. *)
Theorem C143_defaults_unused_refuted :
  hw_init enc0 (mkhw [] ["alpha"; "beta"] None) (Dict []) = Raise EAttr /\
  (forall p, In p parameter_names -> exists x, aget p parameter_defaults = Some x).
Proof.
  split; [vm_compute; reflexivity|].
  intros p P. cbn in P. repeat (destruct P as [<-|P]; [eexists; vm_compute; reflexivity|]). contradiction.
Qed.
Print Assumptions C143_defaults_unused_refuted.

(** A trial overrides the value of the call, and the configuration is not told. *)
Definition given0 : list (string * option pval) :=
  map (fun p => (p, Some (PTensor 1%Q))) parameter_names.
Theorem C143_trial_unrecorded_refuted : exists m,
  hw_init enc0 (mkhw given0 ["alpha"; "beta"] (Some (fun _ => 2%Q))) full_config = Ok m /\
  option_map pnum (aget "epsilon" (m_hyper m)) = Some 2%Q /\
  path_get [KS "parameters"; KS "epsilon"] (m_settings m) = (Some (Leaf (LNum 1)), true).
Proof. eexists. split; [vm_compute; reflexivity|]. split; vm_compute; reflexivity. Qed.
Print Assumptions C143_trial_unrecorded_refuted.

Lemma full_config_scalar : scalar_parameters full_config.
Proof.
  assert (W : wf full_config).
  { constructor; [repeat constructor; cbn; tauto|]. intros k c [E|[]]. inversion E; subst.
    constructor; [repeat constructor; cbn; intuition discriminate|].
    intros k' c' I. cbn in I. repeat (destruct I as [I|I]; [inversion I; constructor|]). contradiction. }
  split; [exact W|]. intros p path P E.
  assert (path = [KS "parameters"; KS p]).
  { cbn in P. repeat (destruct P as [<-|P]; [vm_compute in E; now inversion E|]). contradiction. }
  subst path. split.
  - apply holder_iff; [exact W|]. cbn. exact I.
  - exists (LNum 1). apply lookup_reaches; [exact W|]. cbn in P.
    repeat (destruct P as [<-|P]; [vm_compute; reflexivity|]). contradiction.
Qed.
Example C143_nonvacuous :
  scalar_parameters full_config /\ (forall x, exists l, enc0 x = Leaf l) /\
  (exists m, hw_init enc0 (experiment_call ["alpha"; "beta"] (true_parameters [("bmax", 7%Q)] [("sigma", 1 # 7)] ["alpha"; "beta"] 3 4)) full_config = Ok m
     /\ m_regime m = High /\ aget "bmax" (m_hyper m) = Some (PTensor 7%Q) /\ m_learned m = [("alpha", 0); ("beta", 1)]
     /\ path_get [KS "parameters"; KS "bmax"] (m_settings m) = (Some (Leaf (LNum 7)), true)).
Proof.
  split; [exact full_config_scalar|]. split; [intro x; eexists; reflexivity|].
  eexists. split; [vm_compute; reflexivity|]. repeat split; vm_compute; reflexivity.
Qed.
