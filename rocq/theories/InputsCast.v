(** InputsCast: properties C134 (xarray), C135 (device) and C136 (fixed
    parameters) of the input data container. *)
From Coq Require Import List String ZArith QArith Bool Arith Lia.
From Verif Require Import Base PyMonad Learning LearningProps Inputs InputsProps.
Import ListNotations.
Open Scope Q_scope.
Open Scope string_scope.
Open Scope nat_scope.
Open Scope list_scope.

(** * C134 *)

Definition cast_names := map fst castable.
Lemma cast_NoDup : NoDup cast_names.
Proof.
  vm_compute. repeat constructor; cbn; intro H; repeat (destruct H as [H|H]; [discriminate|]); exact H.
Qed.
Lemma chosen_castable : forall sl e, In e (chosen sl) -> In e castable.
Proof. intros [|s sl] e H; cbn [chosen] in H; [exact H|apply filter_In in H; tauto]. Qed.
Lemma chosen_NoDup : forall sl, NoDup (map fst (chosen sl)).
Proof.
  intro sl. assert (G : forall f (l : list (string * sch)), NoDup (map fst l) -> NoDup (map fst (filter f l))).
  { intros f l. induction l as [|e l IH]; cbn; intro ND; [constructor|]. inversion ND as [|? ? N1 N2]; subst.
    destruct (f e); [|auto]. cbn. constructor; [|auto]. intro B. apply N1.
    apply in_map_iff in B. destruct B as [z [E B]]. apply filter_In in B. apply in_map_iff. exists z. tauto. }
  destruct sl as [|s sl]; cbn [chosen]; [exact cast_NoDup|apply G; exact cast_NoDup].
Qed.
Lemma castable_not_dims : forall x s, In (x, s) castable -> x <> "dims".
Proof.
  intros x s H E. subst x. assert (B : In "dims" cast_names) by (apply in_map_iff; eexists; split; [|exact H]; reflexivity).
  apply inb_In in B. vm_compute in B. discriminate.
Qed.
(** Chosen by name: the user's view of [chosen]. *)
Lemma chosen_In : forall sl x s, In (x, s) (chosen sl) <-> In (x, s) castable /\ (sl = [] \/ In x sl).
Proof.
  intros [|s0 sl] x s; cbn [chosen].
  - split; [intro H; auto|tauto].
  - rewrite filter_In. cbn [fst]. rewrite memb_In. split; intros [A B]; split; auto.
    destruct B as [B|B]; [discriminate|exact B].
Qed.

Section Steps.
(** Both casts go through the chosen datasets one by one, each step touching
    its own attribute only. *)
Variable f : data -> string * sch -> res data.
Hypothesis f_frame : forall d x s d' y, f d (x, s) = Ok d' -> y <> x -> aget y d' = aget y d.
Lemma steps_frame : forall l d d' y, foldM f l d = Ok d' -> ~ In y (map fst l) -> aget y d' = aget y d.
Proof.
  intros l. induction l as [|[x s] l IH]; intros d d' y H N; cbn [foldM] in H; [now inversion H|].
  apply rbind_Ok_inv in H. destruct H as [d1 [F H]]. cbn [map fst] in N.
  rewrite (IH _ _ _ H); [|intro; apply N; now right]. apply (f_frame _ _ _ _ _ F). intro; apply N; left; auto.
Qed.
Lemma steps_at : forall l d d' x s, foldM f l d = Ok d' -> NoDup (map fst l) -> In (x, s) l ->
  (forall e, In e l -> fst e <> "dims") ->
  exists e e', f e (x, s) = Ok e' /\ aget x e = aget x d /\ aget x d' = aget x e' /\ dims_of e = dims_of d.
Proof.
  intros l. induction l as [|[q w] l IH]; intros d d' x s H ND HI Nd; [contradiction|].
  cbn [foldM] in H. apply rbind_Ok_inv in H. destruct H as [d1 [F H]].
  cbn [map fst] in ND. inversion ND as [|? ? NI ND']; subst. destruct HI as [HI|HI].
  - inversion HI; subst. exists d, d1. repeat split; auto. now apply (steps_frame l).
  - destruct (IH _ _ _ _ H ND' HI) as [e [e' [A [B [C D]]]]]; [intros; apply Nd; now right|].
    exists e, e'. repeat split; auto.
    + rewrite B. apply (f_frame _ _ _ _ _ F). intro; subst. apply NI. apply in_map_iff. now exists (q, s).
    + rewrite D. unfold dims_of. rewrite (f_frame _ _ _ _ _ F); [reflexivity|].
      intro E. apply (Nd (q, w)); [now left|]. now cbn.
Qed.
End Steps.

Lemma to_xr_frame : forall d x s d' y, to_xr_one d (x, s) = Ok d' -> y <> x -> aget y d' = aget y d.
Proof.
  intros d x s d' y H N. unfold to_xr_one in H.
  destruct (aget x d) as [[a| |]|]; try (now inversion H).
  destruct (a_kind a); try (now inversion H);
  (apply rbind_Ok_inv in H; destruct H as [ns [_ H]]; destruct (shape_eqb ns (a_shape a)); [|discriminate];
   inversion H; now rewrite aget_aset_other).
Qed.
Lemma from_xr_frame : forall d x s d' y, from_xr_one d (x, s) = Ok d' -> y <> x -> aget y d' = aget y d.
Proof.
  intros d x s d' y H N. unfold from_xr_one in H.
  destruct (aget x d) as [[a| |]|]; try discriminate.
  destruct (a_kind a); inversion H; subst; auto. now rewrite aget_aset_other.
Qed.
Lemma shape_eqb_eq : forall a b, shape_eqb a b = true -> a = b.
Proof.
  induction a as [|x a IH]; intros [|y b] H; cbn in H; try discriminate; auto.
  apply andb_true_iff in H. destruct H as [H1 H2]. apply Nat.eqb_eq in H1. f_equal; auto.
Qed.
Lemma mapM_nth : forall A B (f : A -> res B) l r, mapM f l = Ok r ->
  List.length r = List.length l /\ forall k x, nth_error l k = Some x -> exists y, nth_error r k = Some y /\ f x = Ok y.
Proof.
  intros A B f l. induction l as [|z l IH]; intros r H; cbn in H.
  - inversion H; subst. split; [reflexivity|]. intros [|k] x K; discriminate.
  - apply rbind_Ok_inv in H. destruct H as [y [Fy H]]. apply rbind_Ok_inv in H. destruct H as [ys [Fs H]].
    inversion H; subst. destruct (IH _ Fs) as [L N]. split; [cbn; now rewrite L|].
    intros [|k] x K; cbn in K; [inversion K; subst; cbn; eauto|]. cbn. eauto.
Qed.

Definition chosen_name (sl : list string) (x : string) (s : sch) : Prop :=
  In (x, s) castable /\ (sl = [] \/ In x sl).

(** Casting to xarray keeps shape and values and labels every axis 1, 2, ...;
    nothing else changes. *)
Theorem C134_to_xarray : forall sl d d' x s a,
  cast_to_xarray sl d = Ok d' -> chosen_name sl x s -> aget x d = Some (VArr a) ->
  exists k, aget x d' = Some (VArr (mkarr (Xr k) (a_dtype a) (a_shape a) (a_vals a))) /\
    ((forall k', a_kind a <> Xr k') ->
     forall i dim, nth_error (s_dims s) i = Some dim ->
       exists n, nth_error (a_shape a) i = Some n /\ aget dim (dims_of d) = Some (Some n) /\
                 nth_error k i = Some (dim, seq 1 n)).
Proof.
  intros sl d d' x s a H HC X. apply chosen_In in HC.
  destruct (steps_at to_xr_one to_xr_frame _ _ _ _ _ H (chosen_NoDup sl) HC) as [e [e' [F [B [C D]]]]].
  { intros [y w] Hy. cbn. eapply castable_not_dims. eapply chosen_castable; eauto. }
  unfold to_xr_one in F. rewrite B, X in F. destruct (a_kind a) as [| |k] eqn:K.
  3:{ inversion F; subst e'. exists k. rewrite C, B, X. split; [|intro N; exfalso; apply (N k); reflexivity].
      destruct a as [ka ta sa va]. cbn in K. subst ka. reflexivity. }
  all: apply rbind_Ok_inv in F; destruct F as [ns [M F]]; destruct (shape_eqb ns (a_shape a)) eqn:E; [|discriminate];
    apply shape_eqb_eq in E; subst ns; inversion F; subst e'; rewrite aget_aset_same in C;
    eexists; split; [exact C|]; intros _ i dim Hi; rewrite D in M;
    destruct (mapM_nth _ _ _ _ _ M) as [L N]; destruct (N _ _ Hi) as [n [N1 N2]]; exists n;
    unfold dim_of in N2; destruct (aget dim (dims_of d)) as [[m|]|]; try discriminate; inversion N2; subst m;
    repeat split; auto;
    clear - Hi N1; revert i Hi N1; generalize (a_shape a) as sh; generalize (s_dims s) as ds;
    induction ds as [|z ds IH]; intros [|y sh] [|i] Hi N1; cbn in *; try discriminate;
    [inversion Hi; inversion N1; reflexivity|eauto].
Qed.
Print Assumptions C134_to_xarray.

(** Casting there and back truncates every entry of the dataset towards zero. *)
Theorem C134_round_trip_truncates : forall sl d d1 d2 x s a,
  cast_to_xarray sl d = Ok d1 -> cast_from_xarray sl d1 = Ok d2 ->
  chosen_name sl x s -> aget x d = Some (VArr a) ->
  exists a2, aget x d2 = Some (VArr a2) /\ a_kind a2 = Torch /\ a_shape a2 = a_shape a /\
    a_vals a2 = map (fun q => inject_Z (qtrunc q)) (a_vals a).
Proof.
  intros sl d d1 d2 x s a H1 H2 HC X.
  destruct (C134_to_xarray _ _ _ _ _ _ H1 HC X) as [k [X1 _]]. apply chosen_In in HC.
  destruct (steps_at from_xr_one from_xr_frame _ _ _ _ _ H2 (chosen_NoDup sl) HC) as [e [e' [F [B [C D]]]]].
  { intros [y w] Hy. cbn. eapply castable_not_dims. eapply chosen_castable; eauto. }
  unfold from_xr_one in F. rewrite B, X1 in F. cbn [a_kind] in F. inversion F; subst e'.
  rewrite aget_aset_same in C. eexists. split; [exact C|]. cbn. auto.
Qed.
Print Assumptions C134_round_trip_truncates.

(** So integer datasets survive ... *)
Theorem C134_integers_kept_partial : forall sl d d1 d2 x s a,
  cast_to_xarray sl d = Ok d1 -> cast_from_xarray sl d1 = Ok d2 ->
  chosen_name sl x s -> aget x d = Some (VArr a) ->
  (forall q, In q (a_vals a) -> exists z, q = inject_Z z) ->
  exists a2, aget x d2 = Some (VArr a2) /\ a_shape a2 = a_shape a /\ a_vals a2 = a_vals a.
Proof.
  intros sl d d1 d2 x s a H1 H2 HC X Z0.
  destruct (C134_round_trip_truncates _ _ _ _ _ _ _ H1 H2 HC X) as [a2 [A [_ [S V]]]].
  exists a2. repeat split; auto. rewrite V. rewrite <- (map_id (a_vals a)) at 2. apply map_ext_in.
  intros q Hq. destruct (Z0 q Hq) as [z ->]. unfold qtrunc. cbn. now rewrite Z.quot_1_r.
Qed.
Print Assumptions C134_integers_kept_partial.

Lemma qtrunc_small : forall q, (0 <= q)%Q -> (q < 1)%Q -> qtrunc q = 0%Z.
Proof.
  intros [n p] H1 H2. unfold qtrunc, Qle, Qlt in *. cbn in *. apply Z.quot_small. lia.
Qed.

(** ... and false of the code for the destination attractions: sizes that were
    normalised to shares below one all become zero. *)
Theorem C134_attraction_lost_refuted : forall d d1 d2 a,
  cast_to_xarray [] d = Ok d1 -> cast_from_xarray [] d1 = Ok d2 ->
  aget "destination_attraction_ts" d = Some (VArr a) ->
  Forall (fun q => 0 <= q /\ q < 1)%Q (a_vals a) ->
  exists a2, aget "destination_attraction_ts" d2 = Some (VArr a2) /\ Forall (fun q => q = 0%Q) (a_vals a2).
Proof.
  intros d d1 d2 a H1 H2 X F.
  assert (HC : exists s, chosen_name [] "destination_attraction_ts" s).
  { eexists. split; [left; reflexivity|now left]. }
  destruct HC as [s HC].
  destruct (C134_round_trip_truncates _ _ _ _ _ _ _ H1 H2 HC X) as [a2 [A [_ [_ V]]]].
  exists a2. split; [exact A|]. rewrite V. apply Forall_forall. intros q Hq. apply in_map_iff in Hq.
  destruct Hq as [p [<- Hp]]. rewrite Forall_forall in F. destruct (F p Hp) as [P1 P2].
  now rewrite qtrunc_small.
Qed.
Print Assumptions C134_attraction_lost_refuted.

(** False of the code: casting everything back needs every castable dataset,
    so it fails on any input that lacks one of the optional cell lists. *)
Theorem C134_all_needed_refuted : forall d x s, In (x, s) castable -> aget x d = None ->
  exists e, cast_from_xarray [] d = Raise e.
Proof.
  intros d x s HI X. destruct (cast_from_xarray [] d) as [d'|e] eqn:H; [exfalso|eauto].
  unfold cast_from_xarray in H.
  destruct (steps_at from_xr_one from_xr_frame (chosen []) _ _ _ _ H cast_NoDup HI) as [e [e' [F [B _]]]].
  { intros [y w] Hy. cbn. eapply castable_not_dims. eauto. }
  unfold from_xr_one in F. rewrite B, X in F. discriminate.
Qed.
Print Assumptions C134_all_needed_refuted.

(** Data that was never labelled is refused. *)
Theorem C134_unlabelled_refused : forall sl d x s a, chosen_name sl x s -> aget x d = Some (VArr a) -> a_kind a = Np ->
  exists e, cast_from_xarray sl d = Raise e.
Proof.
  intros sl d x s a HC X K. destruct (cast_from_xarray sl d) as [d'|e] eqn:H; [exfalso|eauto].
  apply chosen_In in HC. unfold cast_from_xarray in H.
  destruct (steps_at from_xr_one from_xr_frame _ _ _ _ _ H (chosen_NoDup sl) HC) as [e [e' [F [B _]]]].
  { intros [y w] Hy. cbn. eapply castable_not_dims. eapply chosen_castable; eauto. }
  unfold from_xr_one in F. rewrite B, X, K in F. discriminate.
Qed.
Print Assumptions C134_unlabelled_refused.

Definition ex_full : cfg := mkcfg
  (c_entries ex_cfg ++ [("test_validation_cells", None); ("zero_train_cells", None)]) None None None.
Example C134_nonvacuous : exists d d1 d2 a t, read_data ex_full = Ok d /\
  cast_to_xarray [] d = Ok d1 /\ cast_from_xarray [] d1 = Ok d2 /\
  aget "destination_attraction_ts" d2 = Some (VArr a) /\ a_vals a = [0; 0; 0; 0; 0; 0]%Q /\
  aget "ground_truth_table" d2 = Some (VArr t) /\ a_vals t = [1; 2; 3; 4; 0; 0]%Q /\
  (exists e d', read_data ex_cfg = Ok d' /\ cast_from_xarray [] d' = Raise e).
Proof.
  eexists _, _, _, _, _. split; [vm_compute; reflexivity|]. split; [vm_compute; reflexivity|].
  split; [vm_compute; reflexivity|]. split; [reflexivity|]. split; [reflexivity|]. split; [reflexivity|].
  split; [reflexivity|]. eexists _, _. split; [vm_compute; reflexivity|]. vm_compute. reflexivity.
Qed.

(** * C135 *)

Lemma pass_one_frame : forall d x s d' y, pass_one d (x, s) = Ok d' -> y <> x -> aget y d' = aget y d.
Proof.
  intros d x s d' y H N. unfold pass_one in H.
  destruct (memb x _); [now inversion H|].
  destruct (aget x d) as [[a| |]|]; try (now inversion H).
  destruct s as [s|]; [|discriminate]. destruct (is_kind Np a); [|discriminate].
  destruct (has_dims s).
  - apply rbind_Ok_inv in H. destruct H as [ns [_ H]]. destruct (Nat.eqb _ _); [|discriminate].
    inversion H. now rewrite aget_aset_other.
  - inversion H. now rewrite aget_aset_other.
Qed.
Lemma pass_loop_frame : forall l d d' y, foldM pass_one l d = Ok d' ->
  ~ In y (map fst l) -> aget y d' = aget y d.
Proof.
  intros l. induction l as [|[x s] l IH]; intros d d' y H N; cbn [foldM] in H; [now inversion H|].
  apply rbind_Ok_inv in H. destruct H as [d1 [F H]]. cbn [map fst] in N.
  rewrite (IH _ _ _ H); [|intro; apply N; now right]. apply (pass_one_frame _ _ _ _ _ F). intro; apply N; left; auto.
Qed.
Lemma pass_dims : forall l d d', foldM pass_one l d = Ok d' -> aget "dims" d' = aget "dims" d.
Proof.
  intros l d d' H. apply (foldM_inv _ _ (fun z => aget "dims" z = aget "dims" d) pass_one l d d'); auto.
  intros z [x s] w _ Hz F. destruct (String.eqb_spec "dims" x) as [<-|N].
  - unfold pass_one in F. cbn in F. now inversion F; subst.
  - rewrite <- Hz. now apply (pass_one_frame _ _ _ _ _ F).
Qed.
Lemma pass_loop_at : forall l d d' x s, foldM pass_one l d = Ok d' -> NoDup (map fst l) -> In (x, s) l ->
  exists e e', pass_one e (x, s) = Ok e' /\ aget x e = aget x d /\ aget x d' = aget x e' /\ dims_of e = dims_of d.
Proof.
  intros l. induction l as [|[q w] l IH]; intros d d' x s H ND HI; [contradiction|].
  cbn [foldM] in H. apply rbind_Ok_inv in H. destruct H as [d1 [F H]].
  cbn [map fst] in ND. inversion ND as [|? ? NI ND']; subst. destruct HI as [HI|HI].
  - inversion HI; subst. exists d, d1. repeat split; auto. now apply (pass_loop_frame l).
  - destruct (IH _ _ _ _ H ND' HI) as [e [e' [A [B [C D]]]]].
    exists e, e'. repeat split; auto.
    + rewrite B. apply (pass_one_frame _ _ _ _ _ F). intro; subst. apply NI. apply in_map_iff. now exists (q, s).
    + rewrite D. unfold dims_of. rewrite (pass_dims [(q, w)] d d1); [reflexivity|]. cbn [foldM]. now rewrite F.
Qed.
Lemma train_NoDup : NoDup (map fst train_schema).
Proof.
  vm_compute. repeat constructor; cbn; intro H; repeat (destruct H as [H|H]; [discriminate|]); exact H.
Qed.

Definition special := ["dims"; "grand_total"; "margins"; "true_parameters"; "log_destination_attraction"].

Lemma squeeze_frame : forall d d' y, squeeze_lda d = Ok d' -> y <> "log_destination_attraction" -> aget y d' = aget y d.
Proof.
  intros d d' y H N. unfold squeeze_lda in H. destruct (aget "log_destination_attraction" d) as [[a| |]|]; try (now inversion H).
  destruct (is_kind Torch a); [|discriminate]. inversion H. now rewrite aget_aset_other.
Qed.
Lemma pass_grand_frame : forall d y, y <> "grand_total" -> aget y (pass_grand d) = aget y d.
Proof. intros d y N. unfold pass_grand. destruct (aget "grand_total" d) as [[a| |]|]; auto. now rewrite aget_aset_other. Qed.
Lemma pass_margins_frame : forall d y, y <> "margins" -> aget y (pass_margins d) = aget y d.
Proof. intros d y N. unfold pass_margins. destruct (aget "margins" d) as [[a| |]|]; auto. now rewrite aget_aset_other. Qed.

(** The sizes of the named dimensions. *)
Definition sizes (ds : dims) (names : list string) (ns : list nat) : Prop :=
  Forall2 (fun k n => aget k ds = Some (Some n)) names ns.
Lemma mapM_sizes : forall ds names ns, mapM (dim_of ds) names = Ok ns -> sizes ds names ns.
Proof.
  intros ds names. induction names as [|k names IH]; intros ns H; cbn in H; [inversion H; constructor|].
  apply rbind_Ok_inv in H. destruct H as [n [F H]]. apply rbind_Ok_inv in H. destruct H as [r [G H]].
  inversion H; subst. constructor; [|now apply IH]. unfold dim_of in F.
  destruct (aget k ds) as [[m|]|]; try discriminate. now inversion F.
Qed.

(** What a value becomes: floats stay, integers are truncated towards zero,
    booleans are 1 exactly for non-zero values. *)
Definition converted (t : dty) (q q' : Q) : Prop :=
  match t with
  | TFloat => q' = q
  | TInt => exists z, q' = inject_Z z /\ (0 <= q -> q' <= q /\ q < q' + 1)%Q /\ (q < 0 -> q <= q' /\ q' - 1 < q /\ q' <= 0)%Q
  | TBool => (~ q == 0 -> q' = 1)%Q /\ (q == 0 -> q' = 0)%Q
  end.
Lemma to_dtype_converted : forall t q, converted t q (to_dtype t q).
Proof.
  intros [] q; cbn [converted to_dtype]; [reflexivity| |].
  - exists (qtrunc q). split; [reflexivity|]. destruct q as [n p]. unfold qtrunc, Qle, Qlt, Qplus, Qminus, Qopp. cbn [Qnum Qden inject_Z].
    pose proof (Z.quot_rem' n (Zpos p)) as E. set (z := (n ÷ Zpos p)%Z) in *. set (r := Z.rem n (Zpos p)) in *.
    split; intros H.
    + assert (R : (0 <= r < Zpos p)%Z) by (apply Z.rem_bound_pos; lia). split; nia.
    + assert (R : (- Zpos p < r <= 0)%Z).
      { assert (R' : (0 <= Z.rem (- n) (Zpos p) < Zpos p)%Z) by (apply Z.rem_bound_pos; lia).
        rewrite Z.rem_opp_l in R' by lia. fold r in R'. lia. }
      assert (Hn : (n < 0)%Z) by lia. clearbody z r.
      assert (Hz : (z <= 0)%Z) by (destruct (Z.le_gt_cases z 0); [assumption | exfalso; nia]).
      repeat split; unfold Qplus, inject_Z; cbn [Qnum Qden]; nia.
  - unfold qnonzero. destruct q as [n p]. unfold Qeq. cbn [Qnum Qden].
    destruct (Z.eqb_spec n 0); cbn [negb]; split; intros H; auto; exfalso; [apply H | apply n0]; lia.
Qed.

Lemma pass_exact : forall i i1 x s a,
  pass_to_device i = Ok i1 -> i_on_device i = false ->
  In (x, Some s) train_schema -> ~ In x special -> aget x (i_data i) = Some (VArr a) ->
  a_kind a = Np /\ i_on_device i1 = true /\ dims_of (i_data i1) = dims_of (i_data i) /\
  exists sh, aget x (i_data i1) = Some (VArr (mkarr Torch (s_dtype s) sh (map (to_dtype (s_dtype s)) (a_vals a)))) /\
    (s_dims s = [] -> sh = a_shape a) /\
    (s_dims s <> [] -> sizes (dims_of (i_data i)) (s_dims s) sh /\ size sh = List.length (a_vals a)).
Proof.
  intros i i1 x s a H On HI NS X. unfold pass_to_device in H. rewrite On in H.
  apply rbind_Ok_inv in H. destruct H as [d1 [L H]]. apply rbind_Ok_inv in H. destruct H as [d2 [Sq H]].
  cbv zeta in H. inversion H; subst i1. cbn [i_data i_on_device].
  assert (FR : forall y, ~ In y special \/ y = "dims" -> aget y (pass_margins (pass_grand d2)) = aget y d1).
  { intros y Ny. rewrite pass_margins_frame, pass_grand_frame.
    - apply (squeeze_frame _ _ _ Sq). intro; subst; destruct Ny as [Ny|Ny]; [apply Ny; cbn; tauto|discriminate].
    - intro; subst; destruct Ny as [Ny|Ny]; [apply Ny; cbn; tauto|discriminate].
    - intro; subst; destruct Ny as [Ny|Ny]; [apply Ny; cbn; tauto|discriminate]. }
  destruct (pass_loop_at _ _ _ _ _ L train_NoDup HI) as [e [e' [F [B [C D]]]]].
  unfold pass_one in F.
  assert (Mb : memb x ["dims"; "grand_total"; "margins"; "true_parameters"] = false).
  { apply not_true_iff_false. intro M. apply memb_In in M. apply NS. cbn in *. tauto. }
  rewrite Mb, B, X in F. unfold is_kind in F. destruct (a_kind a) eqn:K; try discriminate.
  split; [reflexivity|]. split; [reflexivity|]. split.
  { unfold dims_of. rewrite FR by auto. now rewrite (pass_dims _ _ _ L). }
  rewrite (FR x (or_introl NS)). unfold has_dims in F. destruct (s_dims s) as [|k0 ks] eqn:SD.
  - inversion F; subst e'. rewrite aget_aset_same in C. exists (a_shape a). split; [exact C|].
    split; [reflexivity|]. intro N; now destruct N.
  - rewrite D in F. apply rbind_Ok_inv in F. destruct F as [ns [M F]].
    destruct (Nat.eqb_spec (size ns) (List.length (a_vals a))) as [Sz|]; [|discriminate].
    inversion F; subst e'. rewrite aget_aset_same in C. exists ns. split; [exact C|].
    split; [discriminate|]. intros _. split; [apply mapM_sizes; exact M|exact Sz].
Qed.

(** Passing to the device turns every training array into a tensor of the
    schema's dtype, reshaped to its dimensions if it has any; the dims stay. *)
Theorem C135_pass : forall i i1 x s a,
  pass_to_device i = Ok i1 -> i_on_device i = false ->
  In (x, Some s) train_schema -> ~ In x special -> aget x (i_data i) = Some (VArr a) ->
  a_kind a = Np /\ i_on_device i1 = true /\ dims_of (i_data i1) = dims_of (i_data i) /\
  exists sh vs, aget x (i_data i1) = Some (VArr (mkarr Torch (s_dtype s) sh vs)) /\
    Forall2 (converted (s_dtype s)) (a_vals a) vs /\
    (s_dims s = [] -> sh = a_shape a) /\
    (s_dims s <> [] -> sizes (dims_of (i_data i)) (s_dims s) sh /\ size sh = List.length (a_vals a)).
Proof.
  intros i i1 x s a H On HI NS X. destruct (pass_exact _ _ _ _ _ H On HI NS X) as (K & O1 & D1 & sh & X1 & S1 & S2).
  split; [exact K|]. split; [exact O1|]. split; [exact D1|]. exists sh. eexists. split; [exact X1|].
  split; [|split; assumption].
  clear. induction (a_vals a); cbn [map]; constructor; auto. apply to_dtype_converted.
Qed.
Print Assumptions C135_pass.

(** Passing twice is passing once, and receiving twice is receiving once. *)
Theorem C135_idempotent : forall i i1,
  (pass_to_device i = Ok i1 -> pass_to_device i1 = Ok i1) /\
  (receive_from_device i = Ok i1 -> receive_from_device i1 = Ok i1).
Proof.
  intros i i1. split; intro H.
  - assert (O : i_on_device i1 = true).
    { unfold pass_to_device in H. destruct (i_on_device i); [now inversion H|].
      apply rbind_Ok_inv in H. destruct H as [d1 [_ H]]. apply rbind_Ok_inv in H. destruct H as [d2 [_ H]]. now inversion H. }
    unfold pass_to_device. rewrite O. destruct i1 as [dd o ps]. cbn in O. now subst.
  - assert (O : i_on_device i1 = false).
    { unfold receive_from_device in H. destruct (i_on_device i); [|now inversion H].
      do 7 (apply rbind_Ok_inv in H; destruct H as [? [_ H]]). now inversion H. }
    unfold receive_from_device. rewrite O. destruct i1 as [dd o ps]. cbn in O. now subst.
Qed.
Print Assumptions C135_idempotent.

Lemma recv_frame : forall d x d' y, recv d x = Ok d' -> y <> x -> aget y d' = aget y d.
Proof.
  intros d x d' y H N. unfold recv in H. destruct (aget x d) as [[a| |]|]; try (now inversion H).
  destruct (is_kind Torch a); [|discriminate]. inversion H. now rewrite aget_aset_other.
Qed.
Lemma recv_reshaped_frame : forall d x d' y, recv_reshaped d x = Ok d' -> y <> x -> aget y d' = aget y d.
Proof.
  intros d x d' y H N. unfold recv_reshaped in H. destruct (aget x d) as [[a| |]|]; try (now inversion H).
  destruct (is_kind Torch a); [|discriminate]. destruct (somes _); [|discriminate].
  destruct (Nat.eqb _ _); [|discriminate]. inversion H. now rewrite aget_aset_other.
Qed.
Lemma recv_margins_frame : forall d d' y, recv_margins d = Ok d' -> y <> "margins" -> aget y d' = aget y d.
Proof.
  intros d d' y H N. unfold recv_margins in H. destruct (aget "margins" d) as [[a| |]|]; try (now inversion H).
  apply rbind_Ok_inv in H. destruct H as [m0 [_ H]]. inversion H. now rewrite aget_aset_other.
Qed.

Definition received_plain := ["origin_demand"; "destination_attraction_ts"; "origin_attraction_ts"; "total_cost_by_origin"].
Definition received_tables := ["cost_matrix"; "ground_truth_table"].
(** Training arrays the receive step does not mention. *)
Definition not_received := ["destination_demand"; "region_features"; "origin_region_features";
                            "destination_region_features"; "adjacency_matrix"].

Lemma recv_at : forall d x d' a, recv d x = Ok d' -> aget x d = Some (VArr a) ->
  a_kind a = Torch /\ aget x d' = Some (VArr (mkarr Np (a_dtype a) (a_shape a) (a_vals a))).
Proof.
  intros d x d' a H X. unfold recv in H. rewrite X in H. unfold is_kind in H.
  destruct (a_kind a); try discriminate. inversion H. split; [reflexivity|apply aget_aset_same].
Qed.
Lemma recv_reshaped_at : forall d x d' a, recv_reshaped d x = Ok d' -> aget x d = Some (VArr a) ->
  exists sh, somes (unpack_dims (dims_of d)) = Some sh /\ size sh = List.length (a_vals a) /\
  aget x d' = Some (VArr (mkarr Np (a_dtype a) sh (a_vals a))).
Proof.
  intros d x d' a H X. unfold recv_reshaped in H. rewrite X in H. destruct (is_kind Torch a); [|discriminate].
  destruct (somes _) as [sh|] eqn:S; [|discriminate]. destruct (Nat.eqb_spec (size sh) (List.length (a_vals a))); [|discriminate].
  inversion H. exists sh. repeat split; auto. apply aget_aset_same.
Qed.

Lemma receive_spec : forall i i2, receive_from_device i = Ok i2 -> i_on_device i = true ->
  i_on_device i2 = false /\
  (forall x a, In x received_plain -> aget x (i_data i) = Some (VArr a) ->
     a_kind a = Torch /\ aget x (i_data i2) = Some (VArr (mkarr Np (a_dtype a) (a_shape a) (a_vals a)))) /\
  (forall x a, In x received_tables -> aget x (i_data i) = Some (VArr a) ->
     exists sh, somes (unpack_dims (dims_of (i_data i))) = Some sh /\ size sh = List.length (a_vals a) /\
     aget x (i_data i2) = Some (VArr (mkarr Np (a_dtype a) sh (a_vals a)))) /\
  (forall x, In x not_received \/ x = "dims" -> aget x (i_data i2) = aget x (i_data i)).
Proof.
  intros i i2 H On. unfold receive_from_device in H. rewrite On in H.
  cbn [foldM] in H. apply rbind_Ok_inv in H. destruct H as [d1 [H1 H]].
  apply rbind_Ok_inv in H1. destruct H1 as [b1 [R1 H1]].
  apply rbind_Ok_inv in H1. destruct H1 as [b2 [R2 H1]].
  apply rbind_Ok_inv in H1. destruct H1 as [b3 [R3 H1]].
  apply rbind_Ok_inv in H1. destruct H1 as [b4 [R4 H1]]. inversion H1; subst b4. clear H1.
  apply rbind_Ok_inv in H. destruct H as [d2 [R5 H]].
  apply rbind_Ok_inv in H. destruct H as [d3 [R6 H]].
  apply rbind_Ok_inv in H. destruct H as [d4 [R7 H]].
  apply rbind_Ok_inv in H. destruct H as [d5 [R8 H]].
  apply rbind_Ok_inv in H. destruct H as [d6 [R9 H]].
  apply rbind_Ok_inv in H. destruct H as [ps [R10 H]]. inversion H; subst i2. cbn [i_data i_on_device].
  split; [reflexivity|]. split; [|split].
  - intros x a Hx X. cbn in Hx. destruct Hx as [<-|[<-|[<-|[<-|[]]]]].
    + destruct (recv_at _ _ _ _ R1 X) as [K A]. split; [exact K|].
      rewrite (recv_reshaped_frame _ _ _ _ R9), (recv_frame _ _ _ _ R8), (recv_margins_frame _ _ _ R7),
        (recv_frame _ _ _ _ R6), (recv_reshaped_frame _ _ _ _ R5), (recv_frame _ _ _ _ R4), (recv_frame _ _ _ _ R3),
        (recv_frame _ _ _ _ R2) by discriminate. exact A.
    + rewrite <- (recv_frame _ _ _ _ R1) in X by discriminate.
      destruct (recv_at _ _ _ _ R2 X) as [K A]. split; [exact K|].
      rewrite (recv_reshaped_frame _ _ _ _ R9), (recv_frame _ _ _ _ R8), (recv_margins_frame _ _ _ R7),
        (recv_frame _ _ _ _ R6), (recv_reshaped_frame _ _ _ _ R5), (recv_frame _ _ _ _ R4), (recv_frame _ _ _ _ R3)
        by discriminate. exact A.
    + rewrite <- (recv_frame _ _ _ _ R1), <- (recv_frame _ _ _ _ R2), <- (recv_frame _ _ _ _ R3) in X by discriminate.
      destruct (recv_at _ _ _ _ R4 X) as [K A]. split; [exact K|].
      rewrite (recv_reshaped_frame _ _ _ _ R9), (recv_frame _ _ _ _ R8), (recv_margins_frame _ _ _ R7),
        (recv_frame _ _ _ _ R6), (recv_reshaped_frame _ _ _ _ R5) by discriminate. exact A.
    + rewrite <- (recv_frame _ _ _ _ R1), <- (recv_frame _ _ _ _ R2), <- (recv_frame _ _ _ _ R3),
        <- (recv_frame _ _ _ _ R4), <- (recv_reshaped_frame _ _ _ _ R5), <- (recv_frame _ _ _ _ R6),
        <- (recv_margins_frame _ _ _ R7) in X by discriminate.
      destruct (recv_at _ _ _ _ R8 X) as [K A]. split; [exact K|].
      rewrite (recv_reshaped_frame _ _ _ _ R9) by discriminate. exact A.
  - intros x a Hx X. cbn in Hx. destruct Hx as [<-|[<-|[]]].
    + rewrite <- (recv_frame _ _ _ _ R1), <- (recv_frame _ _ _ _ R2), <- (recv_frame _ _ _ _ R3),
        <- (recv_frame _ _ _ _ R4) in X by discriminate.
      destruct (recv_reshaped_at _ _ _ _ R5 X) as [sh [S [Z0 A]]]. exists sh.
      assert (DD : dims_of d1 = dims_of (i_data i)).
      { unfold dims_of. rewrite (recv_frame _ _ _ _ R4), (recv_frame _ _ _ _ R3), (recv_frame _ _ _ _ R2),
          (recv_frame _ _ _ _ R1) by discriminate. reflexivity. }
      rewrite <- DD. repeat split; auto.
      rewrite (recv_reshaped_frame _ _ _ _ R9), (recv_frame _ _ _ _ R8), (recv_margins_frame _ _ _ R7),
        (recv_frame _ _ _ _ R6) by discriminate. exact A.
    + rewrite <- (recv_frame _ _ _ _ R1), <- (recv_frame _ _ _ _ R2), <- (recv_frame _ _ _ _ R3),
        <- (recv_frame _ _ _ _ R4), <- (recv_reshaped_frame _ _ _ _ R5), <- (recv_frame _ _ _ _ R6),
        <- (recv_margins_frame _ _ _ R7), <- (recv_frame _ _ _ _ R8) in X by discriminate.
      destruct (recv_reshaped_at _ _ _ _ R9 X) as [sh [S [Z0 A]]]. exists sh.
      assert (DD : dims_of d5 = dims_of (i_data i)).
      { unfold dims_of. rewrite (recv_frame _ _ _ _ R8), (recv_margins_frame _ _ _ R7), (recv_frame _ _ _ _ R6),
          (recv_reshaped_frame _ _ _ _ R5), (recv_frame _ _ _ _ R4), (recv_frame _ _ _ _ R3), (recv_frame _ _ _ _ R2),
          (recv_frame _ _ _ _ R1) by discriminate. reflexivity. }
      rewrite <- DD. repeat split; auto.
  - intros x Hx.
    assert (G : forall y, In y ["origin_demand"; "destination_attraction_ts"; "log_destination_attraction";
       "origin_attraction_ts"; "cost_matrix"; "grand_total"; "margins"; "total_cost_by_origin"; "ground_truth_table"] -> x <> y).
    { intros y Hy E. subst y. apply inb_In in Hy. destruct Hx as [Hx|Hx].
      - cbn in Hx. repeat (destruct Hx as [<-|Hx]; [vm_compute in Hy; discriminate|]). exact Hx.
      - subst x. vm_compute in Hy. discriminate. }
    rewrite (recv_reshaped_frame _ _ _ _ R9), (recv_frame _ _ _ _ R8), (recv_margins_frame _ _ _ R7),
        (recv_frame _ _ _ _ R6), (recv_reshaped_frame _ _ _ _ R5), (recv_frame _ _ _ _ R4), (recv_frame _ _ _ _ R3),
        (recv_frame _ _ _ _ R2), (recv_frame _ _ _ _ R1) by (apply G; cbn; tauto). reflexivity.
Qed.

(** There and back: numpy arrays again, with the values they had. *)
Theorem C135_round_trip_partial : forall i i1 i2 x a,
  pass_to_device i = Ok i1 -> receive_from_device i1 = Ok i2 -> i_on_device i = false ->
  In x (received_plain ++ received_tables) -> aget x (i_data i) = Some (VArr a) ->
  (x = "ground_truth_table" -> forall q, In q (a_vals a) -> exists z, q = inject_Z z) ->
  exists a2, aget x (i_data i2) = Some (VArr a2) /\ a_kind a2 = Np /\ a_vals a2 = a_vals a /\
    (In x received_tables -> somes (unpack_dims (dims_of (i_data i))) = Some (a_shape a2)) /\
    (In x received_plain -> exists s, In (x, Some s) train_schema /\
       sizes (dims_of (i_data i)) (s_dims s) (a_shape a2)).
Proof.
  intros i i1 i2 x a H1 H2 On Hx X HT.
  assert (S : exists s, In (x, Some s) train_schema /\ s_dims s <> [] /\ ~ In x special /\
     (x <> "ground_truth_table" -> s_dtype s = TFloat) /\ (x = "ground_truth_table" -> s_dtype s = TInt)).
  { cbn in Hx. destruct Hx as [<-|[<-|[<-|[<-|[<-|[<-|[]]]]]]]; eexists;
      (split; [cbn; first [left; reflexivity|do 2 right; left; reflexivity|do 3 right; left; reflexivity|
        do 4 right; left; reflexivity|do 5 right; left; reflexivity|do 6 right; left; reflexivity]|]);
      (split; [discriminate|]); (split; [cbn; intuition discriminate|]); split; intro E; try discriminate; try reflexivity.
    now destruct E. }
  destruct S as [s [HI [SD [NS [DF DI]]]]].
  destruct (pass_exact _ _ _ _ _ H1 On HI NS X) as [K [O1 [D1 [sh [X1 [_ Sz]]]]]].
  destruct (Sz SD) as [Sz1 Sz2].
  assert (V : map (to_dtype (s_dtype s)) (a_vals a) = a_vals a).
  { destruct (String.eqb_spec x "ground_truth_table") as [E|N].
    - rewrite (DI E). rewrite <- (map_id (a_vals a)) at 2. apply map_ext_in. intros q Hq.
      destruct (HT E q Hq) as [z ->]. cbn [to_dtype]. unfold qtrunc. cbn. now rewrite Z.quot_1_r.
    - rewrite (DF N). cbn [to_dtype]. apply map_id. }
  rewrite V in X1.
  destruct (receive_spec _ _ H2 O1) as [_ [RP [RT _]]]. rewrite D1 in RT.
  apply in_app_iff in Hx. destruct Hx as [Hx|Hx].
  - destruct (RP x _ Hx X1) as [_ A]. eexists. split; [exact A|]. cbn [a_kind a_vals a_shape].
    split; [reflexivity|]. split; [reflexivity|]. split.
    + intro B. exfalso. cbn in Hx, B. destruct Hx as [<-|[<-|[<-|[<-|[]]]]]; intuition discriminate.
    + intros _. exists s. auto.
  - destruct (RT x _ Hx X1) as [sh2 [S2 [_ A]]]. eexists. split; [exact A|]. cbn [a_kind a_vals a_shape].
    split; [reflexivity|]. split; [reflexivity|]. split; [auto|].
    intro B. exfalso. cbn in Hx, B. destruct Hx as [<-|[<-|[]]]; intuition discriminate.
Qed.
Print Assumptions C135_round_trip_partial.

(** False of the code: five training datasets stay on the device when the data
    are received, and passing the data again then fails. *)
Theorem C135_left_on_device_refuted : forall i i1 i2 x a,
  pass_to_device i = Ok i1 -> receive_from_device i1 = Ok i2 -> i_on_device i = false ->
  In x not_received -> aget x (i_data i) = Some (VArr a) ->
  (exists a2, aget x (i_data i2) = Some (VArr a2) /\ a_kind a2 = Torch) /\
  exists e, pass_to_device i2 = Raise e.
Proof.
  intros i i1 i2 x a H1 H2 On Hx X.
  assert (S : exists s, In (x, Some s) train_schema /\ ~ In x special).
  { cbn in Hx. destruct Hx as [<-|[<-|[<-|[<-|[<-|[]]]]]]; eexists;
      (split; [cbn; first [do 1 right; left; reflexivity|do 8 right; left; reflexivity|do 9 right; left; reflexivity|
        do 10 right; left; reflexivity|do 11 right; left; reflexivity]|cbn; intuition discriminate]). }
  destruct S as [s [HI NS]].
  destruct (pass_exact _ _ _ _ _ H1 On HI NS X) as [K [O1 [D1 [sh [X1 _]]]]].
  destruct (receive_spec _ _ H2 O1) as [O2 [_ [_ NR]]].
  assert (X2 := NR x (or_introl Hx)). rewrite X1 in X2.
  split; [eexists; split; [exact X2|reflexivity]|].
  destruct (pass_to_device i2) as [i3|e] eqn:H3; [exfalso|eauto].
  destruct (pass_exact _ _ _ _ _ H3 O2 HI NS X2) as [K2 _]. discriminate.
Qed.
Print Assumptions C135_left_on_device_refuted.

Definition ex_inputs (d : data) : inputs := mkinputs d false [("sigma", (false, 1 # 7)%Q)].
Example C135_nonvacuous : exists d i1 i2 a t, read_data ex_cfg = Ok d /\
  pass_to_device (ex_inputs d) = Ok i1 /\ receive_from_device i1 = Ok i2 /\
  aget "cost_matrix" (i_data i2) = Some (VArr a) /\ a_shape a = [2; 3] /\ a_kind a = Np /\
  a_vals a = [1; 2; 3; 3; 2; 1 # 3]%Q /\
  aget "region_features" (i_data i2) = Some (VArr t) /\ a_kind t = Torch.
Proof.
  eexists _, _, _, _, _. split; [vm_compute; reflexivity|]. split; [vm_compute; reflexivity|].
  split; [vm_compute; reflexivity|]. repeat split.
Qed.

(** * C136: the parameters held fixed *)

(** The value a parameter is fixed at: the Harris-Wilson setting, else the
    spatial interaction setting, else the default. *)
Definition default_of (k : string) : option Q :=
  if String.eqb k "alpha" then Some (1 # 2)%Q else if String.eqb k "beta" then Some (1 # 2)%Q
  else if String.eqb k "delta" then Some (1 # 10)%Q else if String.eqb k "kappa" then Some 1%Q
  else if String.eqb k "epsilon" then Some 1%Q else if String.eqb k "bmax" then Some 1%Q
  else if String.eqb k "noise_percentage" then Some 3%Q else if String.eqb k "sigma" then Some 0%Q
  else if String.eqb k "dt" then Some (1 # 1000)%Q else None.
Definition fixed_value (sim hw : list (string * Q)) (k : string) : option Q :=
  match aget k hw with
  | Some v => Some v
  | None => match aget k sim with Some v => Some v | None => default_of k end
  end.

Lemma base_spec : forall sim hw learn k (l : list (string * Q)),
  aget k (map (fun kv => (fst kv,
      match aget (fst kv) hw with
      | Some v => v
      | None => match aget (fst kv) sim with Some v => v | None => snd kv end
      end)) (filter (fun kv => negb (memb (fst kv) learn)) l)) =
  if memb k learn then None else
  match aget k l with
  | None => None
  | Some v0 => Some (match aget k hw with Some v => v | None => match aget k sim with Some v => v | None => v0 end end)
  end.
Proof.
  intros sim hw learn k l. induction l as [|[q w] l IH]; cbn [filter map aget fst]; [now destruct (memb k learn)|].
  destruct (memb q learn) eqn:M; cbn [negb].
  - rewrite IH. destruct (memb k learn) eqn:Mk; [reflexivity|].
    destruct (String.eqb_spec k q) as [->|N]; [congruence|reflexivity].
  - cbn [map aget fst snd]. destruct (String.eqb_spec k q) as [->|N]; [now rewrite M|exact IH].
Qed.

(** Every parameter other than delta and kappa is fixed exactly when it has a
    default and is not learned, at its configured or default value. *)
Theorem C136_fixed_parameters_partial : forall sim hw learn de ka k,
  k <> "delta" -> k <> "kappa" ->
  aget k (true_parameters sim hw learn de ka) =
  match default_of k with
  | None => None
  | Some _ => if memb k learn then None else fixed_value sim hw k
  end.
Proof.
  assert (DF : forall k, aget k parameter_defaults = default_of k) by (intros k; reflexivity).
  intros sim hw learn de ka k N1 N2. unfold true_parameters. cbv zeta.
  rewrite !aget_aset_other by assumption. rewrite base_spec, DF. unfold fixed_value.
  destruct (default_of k); [|now destruct (memb k learn)].
  destruct (memb k learn); [reflexivity|].
  destruct (aget k hw); [reflexivity|]. now destruct (aget k sim).
Qed.
Print Assumptions C136_fixed_parameters_partial.

(** False of the code for delta and kappa: they are held fixed even when the
    configuration asks for them to be learned. *)
Theorem C136_delta_kappa_refuted : forall sim hw learn de ka,
  aget "delta" (true_parameters sim hw learn de ka) = Some de /\
  aget "kappa" (true_parameters sim hw learn de ka) = Some ka.
Proof.
  intros. unfold true_parameters. cbv zeta.
  rewrite aget_aset_other by discriminate. rewrite !aget_aset_same. auto.
Qed.
Print Assumptions C136_delta_kappa_refuted.

Example C136_nonvacuous :
  let p := true_parameters [("bmax", 2%Q); ("epsilon", 5%Q)] [("epsilon", 7%Q)] ["alpha"; "beta"; "delta"] (1 # 3) 4 in
  aget "alpha" p = None /\ aget "bmax" p = Some 2%Q /\ aget "epsilon" p = Some 7%Q /\
  aget "dt" p = Some (1 # 1000)%Q /\ aget "delta" p = Some (1 # 3)%Q.
Proof. repeat split. Qed.
