(** Theorems about the losses of the learning models: C96, C99, C102, C103. *)
From Coq Require Import List ZArith Lia Bool Arith String Reals Lra.
From Verif Require Import Base PyMonad RealBase CommandLine CommandLineProps LearningLoss.
Import ListNotations.
Local Open Scope string_scope.
Local Open Scope R_scope.
Local Open Scope list_scope.

(** ---- C96 ---------------------------------------------------------------- *)

Definition largest (m : R) (l : list R) : Prop := In m l /\ forall x, In x l -> x <= m.
Definition smallest (m : R) (l : list R) : Prop := In m l /\ forall x, In x l -> m <= x.

Lemma col_max_largest : forall l x, largest (col_max x l) (x :: l).
Proof.
  unfold col_max. induction l as [|y l IH]; intros x; cbn [fold_left].
  - split; [left; reflexivity|]. intros z [->|[]]. lra.
  - destruct (IH (Rmax x y)) as [H1 H2]. split.
    + destruct H1 as [H1|H1]; [|right; right; exact H1]. rewrite <- H1.
      unfold Rmax. destruct (Rle_dec x y); [right; left|left]; reflexivity.
    + intros z [->|[->|Hz]].
      * eapply Rle_trans; [apply (Rmax_l z y)|]. apply H2. left; reflexivity.
      * eapply Rle_trans; [apply (Rmax_r x z)|]. apply H2. left; reflexivity.
      * apply H2. right; exact Hz.
Qed.

Lemma col_min_smallest : forall l x, smallest (col_min x l) (x :: l).
Proof.
  unfold col_min. induction l as [|y l IH]; intros x; cbn [fold_left].
  - split; [left; reflexivity|]. intros z [->|[]]. lra.
  - destruct (IH (Rmin x y)) as [H1 H2]. split.
    + destruct H1 as [H1|H1]; [|right; right; exact H1]. rewrite <- H1.
      unfold Rmin. destruct (Rle_dec x y); [left|right; left]; reflexivity.
    + intros z [->|[->|Hz]].
      * eapply Rle_trans; [apply H2; left; reflexivity|apply Rmin_l].
      * eapply Rle_trans; [apply H2; left; reflexivity|apply Rmin_r].
      * apply H2. right; exact Hz.
Qed.

Lemma largest_unique : forall a b l, largest a l -> largest b l -> a = b.
Proof. intros a b l [A1 A2] [B1 B2]. apply Rle_antisym; auto. Qed.
Lemma smallest_unique : forall a b l, smallest a l -> smallest b l -> a = b.
Proof. intros a b l [A1 A2] [B1 B2]. apply Rle_antisym; auto. Qed.

(** A feature that takes two values is mapped to [-1,1]: its smallest value to
    -1, its largest to 1, keeping the order. *)
Theorem C96_features_scaled_partial : forall col lo hi,
  smallest lo col -> largest hi col -> lo < hi ->
  exists f vs, scale_features col = Ok vs /\ vs = map (fun v => Some (f v)) col /\
    f lo = -1 /\ f hi = 1 /\
    (forall v, In v col -> -1 <= f v <= 1) /\
    (forall v w, v < w <-> f v < f w).
Proof.
  intros col lo hi HL HH Hlt. destruct col as [|x l]; [destruct HL as [[] _]|].
  unfold scale_features.
  assert (col_max x l = hi) as -> by (apply (largest_unique _ _ (x :: l)); [apply col_max_largest|exact HH]).
  assert (col_min x l = lo) as -> by (apply (smallest_unique _ _ (x :: l)); [apply col_min_smallest|exact HL]).
  exists (fun v => (v - lo) * 2 / (hi - lo) - 1).
  eexists; split; [reflexivity|]. split.
  { apply map_ext. intros v. destruct (Req_EM_T hi lo); [lra|reflexivity]. }
  assert (Hd : 0 < hi - lo) by lra.
  assert (M : forall v w, v < w <-> (v - lo) * 2 / (hi - lo) - 1 < (w - lo) * 2 / (hi - lo) - 1).
  { intros v w.
    assert (E : (w - lo) * 2 / (hi - lo) - 1 - ((v - lo) * 2 / (hi - lo) - 1) = (w - v) * (2 / (hi - lo))) by (field; lra).
    assert (P : 0 < 2 / (hi - lo)) by (apply Rdiv_lt_0_compat; lra).
    split; intros H.
    - assert (0 < (w - v) * (2 / (hi - lo))) by (apply Rmult_lt_0_compat; lra). lra.
    - destruct (Rlt_dec v w) as [L|L]; [exact L|]. exfalso.
      assert ((w - v) * (2 / (hi - lo)) <= 0).
      { replace 0 with (0 * (2 / (hi - lo))) by ring. apply Rmult_le_compat_r; lra. }
      lra. }
  assert (F1 : (lo - lo) * 2 / (hi - lo) - 1 = -1) by (field; lra).
  assert (F2 : (hi - lo) * 2 / (hi - lo) - 1 = 1) by (field; lra).
  split; [exact F1|]. split; [exact F2|]. split; [|exact M].
  intros v Hv. destruct HL as [_ HL], HH as [_ HH]. specialize (HL v Hv). specialize (HH v Hv).
  assert (MM : forall a b, a <= b -> (a - lo) * 2 / (hi - lo) - 1 <= (b - lo) * 2 / (hi - lo) - 1).
  { intros a b [H|H]; [left; apply (proj1 (M a b)); exact H|subst b; right; reflexivity]. }
  split; [pose proof (MM lo v HL); lra|pose proof (MM v hi HH); lra].
Qed.
Print Assumptions C96_features_scaled_partial.

(** A feature with the same value everywhere becomes NaN everywhere. *)
Theorem C96_constant_feature_refuted : forall x n, (0 < n)%nat ->
  scale_features (repeat x n) = Ok (repeat None n).
Proof.
  intros x [|n] H; [lia|]. cbn [repeat scale_features].
  assert (col_max x (repeat x n) = x) as ->.
  { apply (largest_unique _ _ (x :: repeat x n)); [apply col_max_largest|].
    split; [left; reflexivity|]. intros y [->|Hy]; [lra|]. apply repeat_spec in Hy. lra. }
  assert (col_min x (repeat x n) = x) as ->.
  { apply (smallest_unique _ _ (x :: repeat x n)); [apply col_min_smallest|].
    split; [left; reflexivity|]. intros y [->|Hy]; [lra|]. apply repeat_spec in Hy. lra. }
  f_equal. cbn [map]. destruct (Req_EM_T x x) as [_|N]; [|lra]. f_equal.
  induction n as [|n IH]; [reflexivity|]. cbn [repeat map]. f_equal. apply IH. lia.
Qed.
Print Assumptions C96_constant_feature_refuted.

Example C96_nonvacuous : smallest 1 [2; 1; 5] /\ largest 5 [2; 1; 5] /\ 1 < 5.
Proof.
  split; [|split; [|lra]]; (split; [cbn; tauto|]);
    intros x [<-|[<-|[<-|[]]]]; lra.
Qed.

(** ---- C99 ---------------------------------------------------------------- *)

Section LossProps.
  Context {D : Type}.
  Implicit Types (specs : list (string * @loss_spec D)) (valid aux : list (string * D)) (preds : list (string * list D)).

  (** The data set used under a name: the validation data if it has one,
      otherwise the auxiliary inputs. *)
  Definition data_used valid aux (n : string) : option D :=
    match sget n valid with Some d => Some d | None => sget n aux end.

  (** A loss reads only the data sets it names. *)
  Definition reads_own (sp : @loss_spec D) : Prop :=
    forall v1 v2, (forall n, In n (validates sp) -> sget n v1 = sget n v2) -> loss_of sp v1 = loss_of sp v2.

  (** Everything a loss needs is there. *)
  Definition ready specs preds valid aux (prev : list (string * R)) (steps : list (string * Z)) (name : string) : Prop :=
    exists sp n, sget name specs = Some sp /\ predicts sp <> [] /\ (0 < n)%nat /\
      (forall p, In p (predicts sp) -> exists l, sget p preds = Some l /\ List.length l = n) /\
      (forall v, In v (validates sp) -> data_used valid aux v <> None) /\
      sget name prev <> None /\ sget name steps <> None.

  Lemma sizes_ok : forall preds names sizes, prediction_sizes preds names = Ok sizes <->
    Forall2 (fun n k => exists l, sget n preds = Some l /\ List.length l = k) names sizes.
  Proof.
    intros preds names; induction names as [|n names IH]; intros sizes; cbn [prediction_sizes].
    - split; intros H; [injection H as <-; constructor|inversion H; reflexivity].
    - destruct (sget n preds) as [l|] eqn:E.
      + split; intros H.
        * apply rbind_Ok_inv in H as [r [Er H]]. injection H as <-. constructor; [eauto|apply IH; exact Er].
        * inversion H as [|? ? ? ? [l' [E' <-]] H']; subst. apply IH in H'. rewrite H'. cbn. congruence.
      + split; intros H; [discriminate|]. inversion H as [|? ? ? ? [l' [E' _]] H']; subst. congruence.
  Qed.

  Lemma fill_ok : forall aux names valid,
    (exists v, fill_validation valid aux names = Ok v) <-> (forall n, In n names -> data_used valid aux n <> None).
  Proof.
    intros aux names; induction names as [|n names IH]; intros valid; cbn [fill_validation].
    - split; [intros _ n []|eauto].
    - destruct (sget n valid) as [d|] eqn:E.
      + rewrite IH. split; intros H m; [intros [<-|Hm]; [unfold data_used; rewrite E; discriminate|auto]|].
        intros Hm; apply H; right; exact Hm.
      + destruct (sget n aux) as [d|] eqn:Ea.
        * rewrite IH. unfold data_used. split; intros H m Hm.
          -- destruct (sget m valid) eqn:Em; [discriminate|].
             destruct Hm as [<-|Hm]; [congruence|]. specialize (H m Hm). rewrite sget_sset in H.
             destruct (String.eqb_spec m n) as [Emn|Emn]; [rewrite Emn; congruence|]. rewrite Em in H. exact H.
          -- rewrite sget_sset. destruct (String.eqb m n); [discriminate|]. apply (H m). right; exact Hm.
        * split; [intros [v H]; discriminate|]. intros H.
          specialize (H n (or_introl eq_refl)). unfold data_used in H. rewrite E, Ea in H. congruence.
  Qed.

  Lemma fill_value : forall aux names valid v, fill_validation valid aux names = Ok v ->
    (forall n, data_used v aux n = data_used valid aux n) /\
    (forall n, In n names -> sget n v = data_used valid aux n).
  Proof.
    intros aux names; induction names as [|n names IH]; intros valid v H; cbn [fill_validation] in H.
    - injection H as <-. split; [reflexivity|intros n []].
    - destruct (sget n valid) as [d|] eqn:E.
      + destruct (IH _ _ H) as [A B]. split; [exact A|]. intros m [<-|Hm]; [|apply B; exact Hm].
        specialize (A n). unfold data_used in A |- *. rewrite E in *.
        (* the entry of n is still there *)
        clear -H E. revert valid v H E. induction names as [|k names IH']; intros valid v H E; cbn [fill_validation] in H.
        * injection H as <-. exact E.
        * destruct (sget k valid) as [d'|] eqn:Ek; [apply (IH' _ _ H E)|].
          destruct (sget k aux) as [d'|] eqn:Ea; [|discriminate].
          apply (IH' _ _ H). rewrite sget_sset. destruct (String.eqb_spec n k) as [->|]; [congruence|exact E].
      + destruct (sget n aux) as [d|] eqn:Ea; [|discriminate].
        destruct (IH _ _ H) as [A B].
        assert (K : forall m, data_used (sset n d valid) aux m = data_used valid aux m).
        { intros m. unfold data_used. rewrite sget_sset. destruct (String.eqb_spec m n) as [->|]; [|reflexivity].
          rewrite E. symmetry; exact Ea. }
        split; [intros m; rewrite A; apply K|].
        intros m [<-|Hm]; [|rewrite (B m Hm); apply K].
        assert (Es : sget n (sset n d valid) = Some d) by (rewrite sget_sset, String.eqb_refl; reflexivity).
        unfold data_used. rewrite E, Ea.
        clear -H Es. revert H Es. generalize (sset n d valid) as valid'. 
        revert v. induction names as [|k names IH']; intros v valid' H Es; cbn [fill_validation] in H.
        * injection H as <-. exact Es.
        * destruct (sget k valid') as [d'|] eqn:Ek; [apply (IH' _ _ H Es)|].
          destruct (sget k aux) as [d'|] eqn:Ea'; [|discriminate].
          apply (IH' _ _ H). rewrite sget_sset. destruct (String.eqb_spec n k) as [->|]; [congruence|exact Es].
  Qed.

  Lemma update_one_ok : forall specs preds aux prev steps valid name st',
    update_one specs preds aux (prev, steps, valid) name = Ok st' ->
    exists sp p ps samples old k valid',
      sget name specs = Some sp /\ predicts sp = p :: ps /\ sget p preds = Some samples /\ samples <> [] /\
      sget name prev = Some old /\ sget name steps = Some k /\
      fill_validation valid aux (validates sp) = Ok valid' /\
      st' = (sset name (old + list_rsum (map (loss_of sp valid') samples) / INR (List.length samples)) prev,
             sset name (k + 1)%Z steps, valid') /\
      ready specs preds valid aux prev steps name.
  Proof.
    intros specs preds aux prev steps valid name st' H. unfold update_one in H.
    destruct (sget name specs) as [sp|] eqn:Es; [|discriminate].
    apply rbind_Ok_inv in H as [sizes [Ez H]].
    destruct (one_size sizes) eqn:Eo; cbn [negb] in H; [|discriminate].
    apply rbind_Ok_inv in H as [valid' [Ev H]].
    destruct (predicts sp) as [|p ps] eqn:Ep; [discriminate|].
    destruct (sget p preds) as [samples|] eqn:El; [|discriminate].
    destruct (sget name prev) as [old|] eqn:Eold; [|discriminate].
    destruct (Nat.eqb_spec (List.length samples) 0) as [L0|L0]; [discriminate|].
    destruct (sget name steps) as [k|] eqn:Ek; [|discriminate].
    injection H as <-.
    exists sp, p, ps, samples, old, k, valid'.
    split; [reflexivity|]. split; [exact Ep|]. split; [exact El|].
    split; [intros ->; apply L0; reflexivity|]. split; [reflexivity|]. split; [reflexivity|].
    split; [exact Ev|]. split; [reflexivity|].
    exists sp, (List.length samples). split; [exact Es|]. split; [rewrite Ep; discriminate|]. split; [lia|].
    split; [|split; [apply fill_ok; eauto|split; congruence]].
    apply sizes_ok in Ez. rewrite Ep. inversion Ez as [|? n0 ? ns [l0 [El0 Hn0]] Ez']; subst.
    rewrite El in El0. injection El0 as <-. cbn [one_size] in Eo. rewrite forallb_forall in Eo.
    intros q [<-|Hq]; [eauto|].
    clear -Ez' Hq Eo. induction Ez' as [|a b l l' [m [Em Hm]] F IH]; [destruct Hq|].
    destruct Hq as [<-|Hq].
    - exists m. split; [exact Em|]. specialize (Eo b (or_introl eq_refl)). apply Nat.eqb_eq in Eo. lia.
    - apply IH; [|exact Hq]. intros x Hx. apply Eo. right; exact Hx.
  Qed.

  Lemma update_one_succeeds : forall specs preds aux prev steps valid name,
    ready specs preds valid aux prev steps name ->
    exists st', update_one specs preds aux (prev, steps, valid) name = Ok st'.
  Proof.
    intros specs preds aux prev steps valid name [sp [n [Es [Hp [Hn [HP [HV [H1 H2]]]]]]]].
    unfold update_one. rewrite Es.
    assert (Ez : prediction_sizes preds (predicts sp) = Ok (map (fun _ => n) (predicts sp))).
    { apply sizes_ok. clear Hp. induction (predicts sp) as [|q l IH]; cbn; constructor; [apply HP; left; reflexivity|].
      apply IH. intros p Hin. apply HP. right; exact Hin. }
    rewrite Ez. cbn [rbind].
    destruct (predicts sp) as [|p ps] eqn:Ep; [congruence|].
    assert (Eo : one_size (map (fun _ : string => n) (p :: ps)) = true).
    { cbn [map one_size]. apply forallb_forall. intros x Hx. apply in_map_iff in Hx as [_ [<- _]]. apply Nat.eqb_refl. }
    rewrite Eo. cbn [negb]. destruct (proj2 (fill_ok aux (validates sp) valid) HV) as [v Ev]. rewrite Ev. cbn [rbind].
    destruct (HP p (or_introl eq_refl)) as [l [El Hl]]. rewrite El.
    destruct (sget name prev); [|congruence].
    destruct (Nat.eqb_spec (List.length l) 0); [lia|].
    destruct (sget name steps); [|congruence]. eauto.
  Qed.

  Lemma ready_stable : forall specs preds aux prev steps valid st' name q,
    update_one specs preds aux (prev, steps, valid) name = Ok st' ->
    (ready specs preds (snd st') aux (fst (fst st')) (snd (fst st')) q <-> ready specs preds valid aux prev steps q).
  Proof.
    intros specs preds aux prev steps valid st' name q H.
    destruct (update_one_ok _ _ _ _ _ _ _ _ H) as (sp & p & ps & samples & old & k & v & Es & _ & _ & _ & Eo & Ek & Ev & -> & _).
    cbn [fst snd]. destruct (fill_value _ _ _ _ Ev) as [A _].
    unfold ready.
    assert (P : forall X (m : list (string * X)) z z0, sget name m = Some z0 ->
      (sget q (sset name z m) <> None <-> sget q m <> None)).
    { intros X m z z0 Hz. rewrite sget_sset. destruct (String.eqb_spec q name) as [->|]; [|tauto].
      rewrite Hz. split; intros; discriminate. }
    split; intros [sq [n [B1 [B2 [B3 [B4 [B5 [B6 B7]]]]]]]]; exists sq, n; repeat (split; [assumption|]);
      (split; [intros w Hw; first [rewrite <- A|rewrite A]; apply B5; exact Hw|]);
      (split; [eapply P; [exact Eo|exact B6]|eapply P; [exact Ek|exact B7]]).
  Qed.

  (** Updating succeeds exactly when every loss asked for has its data. *)
  Theorem C99_update_succeeds_iff : forall specs preds aux names prev steps valid,
    (exists st', update_losses specs preds aux names (prev, steps, valid) = Ok st') <->
    (forall name, In name names -> ready specs preds valid aux prev steps name).
  Proof.
    intros specs preds aux names; induction names as [|n names IH]; intros prev steps valid; cbn [update_losses].
    - split; [intros _ name []|eauto].
    - split.
      + intros [st' H]. apply rbind_Ok_inv in H as [[[prev1 steps1] valid1] [E1 H]].
        intros name [<-|Hin].
        * destruct (update_one_ok _ _ _ _ _ _ _ _ E1) as (? & ? & ? & ? & ? & ? & ? & _ & _ & _ & _ & _ & _ & _ & _ & X).
          exact X.
        * apply (ready_stable _ _ _ _ _ _ _ _ name E1). cbn [fst snd].
          apply (proj1 (IH prev1 steps1 valid1)); [eauto|exact Hin].
      + intros H. destruct (update_one_succeeds _ _ _ _ _ _ _ (H n (or_introl eq_refl))) as [[[prev1 steps1] valid1] E1].
        rewrite E1. cbn [rbind]. apply IH. intros name Hin.
        apply (ready_stable _ _ _ _ _ _ _ _ name E1). apply H. right; exact Hin.
  Qed.

  (** Each loss asked for grows by the mean of its values over the samples
      supplied, its step count by one; the others stay as they were; the order
      of the losses does not matter. *)
  Theorem C99_loss_is_sample_mean : forall specs preds aux names prev steps valid prev' steps' valid',
    NoDup names -> (forall name sp, sget name specs = Some sp -> reads_own sp) ->
    update_losses specs preds aux names (prev, steps, valid) = Ok (prev', steps', valid') ->
    (forall name, In name names ->
       exists sp p samples old k own,
         sget name specs = Some sp /\ hd_error (predicts sp) = Some p /\ sget p preds = Some samples /\ samples <> [] /\
         sget name prev = Some old /\ sget name steps = Some k /\
         (forall n, In n (validates sp) -> sget n own = data_used valid aux n) /\
         sget name prev' = Some (old + list_rsum (map (loss_of sp own) samples) / INR (List.length samples)) /\
         sget name steps' = Some (k + 1)%Z) /\
    (forall name, ~ In name names -> sget name prev' = sget name prev /\ sget name steps' = sget name steps).
  Proof.
    intros specs preds aux names; induction names as [|n names IH];
      intros prev steps valid prev' steps' valid' HN HR H; cbn [update_losses] in H.
    - injection H as <- <- <-. split; [intros name []|auto].
    - inversion HN as [|? ? Hn HN']; subst.
      apply rbind_Ok_inv in H as [[[prev1 steps1] valid1] [E1 H]].
      destruct (update_one_ok _ _ _ _ _ _ _ _ E1) as
        (sp & p & ps & samples & old & k & v & Es & Ep & El & Hne & Eo & Ek & Ev & Est & _).
      injection Est as -> -> ->.
      destruct (fill_value _ _ _ _ Ev) as [FA FB].
      destruct (IH _ _ _ _ _ _ HN' HR H) as [A B]. split.
      + intros name [<-|Hin].
        * destruct (B n Hn) as [B1 B2]. exists sp, p, samples, old, k, v.
          repeat (split; [first [assumption|rewrite Ep; reflexivity]|]).
          rewrite B1, B2. split; rewrite sget_sset, String.eqb_refl; reflexivity.
        * destruct (A name Hin) as (sp' & p' & sam' & old' & k' & own & C1 & C2 & C3 & C4 & C5 & C6 & C7 & C8 & C9).
          assert (Hne' : name <> n) by (intros ->; contradiction).
          rewrite sget_sset in C5. rewrite sget_sset in C6. destruct (String.eqb_spec name n) as [|_]; [contradiction|].
          exists sp', p', sam', old', k', own. repeat (split; [assumption|]).
          split; [intros w Hw; rewrite C7 by exact Hw; apply FA|split; assumption].
      + intros name Hname. destruct (B name) as [B1 B2]; [intros X; apply Hname; right; exact X|].
        rewrite B1, B2. split; rewrite sget_sset; destruct (String.eqb_spec name n) as [->|]; try reflexivity;
        destruct Hname; left; reflexivity.
  Qed.
End LossProps.
Print Assumptions C99_update_succeeds_iff.
Print Assumptions C99_loss_is_sample_mean.

(** The cost shares compared by the distance losses add up to one. *)
Theorem C99_cost_shares_sum_to_one : forall I J table cost,
  rsum I (fun i => rsum J (fun j => table i j * cost i j)) <> 0 ->
  rsum I (cost_shares I J table cost) = 1.
Proof.
  intros I J table cost H. unfold cost_shares.
  rewrite (rsum_ext I _ (fun i => rsum J (fun j => table i j * cost i j)
    * / rsum I (fun i => rsum J (fun j => table i j * cost i j)))) by reflexivity.
  rewrite rsum_scal_r. apply Rinv_r. exact H.
Qed.
Print Assumptions C99_cost_shares_sum_to_one.

Definition ex_spec : @loss_spec R :=
  {| predicts := ["table"]; validates := ["log_intensity"];
     loss_of := fun v x => match sget "log_intensity" v with Some y => x - y | None => 0 end |}.
Example C99_nonvacuous :
  reads_own ex_spec /\
  update_losses [("table_loss", ex_spec)] [("table", [3; 5])] [("log_intensity", 1)] ["table_loss"]
    ([("table_loss", 10)], [("table_loss", 0%Z)], [])
  = Ok ([("table_loss", 10 + (3 - 1 + (5 - 1 + 0)) / INR 2)], [("table_loss", 1%Z)], [("log_intensity", 1)]).
Proof.
  split; [|reflexivity]. intros v1 v2 H. cbn in *. rewrite (H "log_intensity") by auto. reflexivity.
Qed.

(** ---- C102 --------------------------------------------------------------- *)

(** The mean squared error of predictions for the values they stand for. *)
Definition mean_squared_error (yhat y : list R) : R :=
  list_rsum (map (fun p => (fst p - snd p) * (fst p - snd p)) (combine yhat y)) / INR (List.length y).
Definition mean (y : list R) : R := list_rsum y / INR (List.length y).

Lemma list_rsum_const_sq : forall (y : list R) a,
  list_rsum (map (fun b => (a - b) * (a - b)) y)
  = INR (List.length y) * (a * a) - 2 * a * list_rsum y + list_rsum (map (fun b => b * b) y).
Proof.
  intros y a. induction y as [|b y IH]; [cbn; ring|].
  cbn [map list_rsum fold_right]. unfold list_rsum in IH |- *. rewrite IH.
  change (List.length (b :: y)) with (S (List.length y)). rewrite S_INR. ring.
Qed.

Lemma pair_sum_expand : forall yhat y,
  pair_sum yhat y = INR (List.length y) * list_rsum (map (fun a => a * a) yhat) - 2 * list_rsum yhat * list_rsum y
    + INR (List.length yhat) * list_rsum (map (fun b => b * b) y).
Proof.
  intros yhat y. unfold pair_sum. induction yhat as [|a yhat IH]; [cbn; ring|].
  cbn [map list_rsum fold_right]. unfold list_rsum in IH |- *. rewrite IH.
  fold (list_rsum (map (fun b => (a - b) * (a - b)) y)). rewrite list_rsum_const_sq.
  change (List.length (a :: yhat)) with (S (List.length yhat)). rewrite S_INR. unfold list_rsum. ring.
Qed.

Lemma list_rsum_shift_sq : forall (y : list R) m,
  list_rsum (map (fun b => (b - m) * (b - m)) y)
  = list_rsum (map (fun b => b * b) y) - 2 * m * list_rsum y + INR (List.length y) * (m * m).
Proof.
  intros y m. induction y as [|b y IH]; [cbn; ring|].
  cbn [map list_rsum fold_right]. unfold list_rsum in IH |- *. rewrite IH.
  change (List.length (b :: y)) with (S (List.length y)). rewrite S_INR. ring.
Qed.

(** Spread around a point. *)
Definition spread (y : list R) (m : R) : R := list_rsum (map (fun b => (b - m) * (b - m)) y) / INR (List.length y).

(** What the edge loss is: the spread of the predictions around the mean target
    plus the spread of the targets.  Which prediction belongs to which target
    does not enter. *)
Theorem C102_edge_loss_exact_partial : forall limit yhat y,
  (0 < List.length yhat < limit)%nat -> List.length y = List.length yhat ->
  mse_vector limit yhat y = spread yhat (mean y) + spread y (mean y).
Proof.
  intros limit yhat y Hn Hl. unfold mse_vector. rewrite (proj2 (Nat.ltb_lt _ _)) by lia.
  rewrite pair_sum_expand. unfold spread. rewrite !list_rsum_shift_sq. unfold mean. rewrite Hl.
  assert (INR (List.length yhat) <> 0) by (apply not_0_INR; lia). field. assumption.
Qed.
Print Assumptions C102_edge_loss_exact_partial.

Lemma spread_nonneg : forall y m, (0 < List.length y)%nat -> 0 <= spread y m.
Proof.
  intros y m H. unfold spread. apply Rmult_le_pos.
  - clear H. induction y as [|b y IH]; cbn; [lra|]. unfold list_rsum in IH. pose proof (Rle_0_sqr (b - m)). unfold Rsqr in *. lra.
  - left. apply Rinv_0_lt_compat. apply lt_0_INR. exact H.
Qed.

Lemma spread_zero : forall y m, (0 < List.length y)%nat -> (spread y m = 0 <-> Forall (fun a => a = m) y).
Proof.
  intros y m H. unfold spread.
  assert (P : 0 < / INR (List.length y)) by (apply Rinv_0_lt_compat, lt_0_INR; exact H).
  assert (G : forall l, 0 <= list_rsum (map (fun b => (b - m) * (b - m)) l) /\
    (list_rsum (map (fun b => (b - m) * (b - m)) l) = 0 <-> Forall (fun a => a = m) l)).
  { induction l as [|b l [I1 I2]]; cbn [map list_rsum fold_right].
    - split; [lra|]. split; [constructor|reflexivity].
    - fold (list_rsum (map (fun b => (b - m) * (b - m)) l)). pose proof (Rle_0_sqr (b - m)) as Q. unfold Rsqr in Q.
      split; [lra|]. split.
      + intros E. constructor; [|apply I2; lra].
        assert ((b - m) * (b - m) = 0) as Z by lra. apply Rmult_integral in Z. lra.
      + intros F. inversion F; subst. rewrite (proj2 I2) by assumption. ring. }
  destruct (G y) as [_ G2]. rewrite <- G2. unfold Rdiv. split; intros E.
  - apply Rmult_integral in E. destruct E as [E|E]; [exact E|lra].
  - rewrite E. ring.
Qed.

(** The predictions with the smallest edge loss are all equal to the mean
    target. *)
Theorem C102_best_prediction_is_constant : forall limit yhat y,
  (0 < List.length yhat < limit)%nat -> List.length y = List.length yhat ->
  spread y (mean y) <= mse_vector limit yhat y /\
  (mse_vector limit yhat y = spread y (mean y) <-> Forall (fun a => a = mean y) yhat).
Proof.
  intros limit yhat y Hn Hl. rewrite C102_edge_loss_exact_partial by assumption.
  pose proof (spread_nonneg yhat (mean y) ltac:(lia)). split; [lra|].
  rewrite <- spread_zero by lia. split; lra.
Qed.
Print Assumptions C102_best_prediction_is_constant.

(** So a perfect prediction does not have zero loss. *)
Theorem C102_edge_loss_refuted : exists y,
  mean_squared_error y y = 0 /\ mse_vector 20000 y y = 1 / 2.
Proof.
  exists [0; 1]. split; [unfold mean_squared_error; cbn; field|].
  rewrite C102_edge_loss_exact_partial; [|cbn [List.length]; split; [lia|]|reflexivity].
  - unfold spread, mean. cbn. field.
  - apply Nat.ltb_lt. vm_compute. reflexivity.
Qed.
Print Assumptions C102_edge_loss_refuted.

(** The flow losses compare the prediction with the square root of the region's
    number as well as with that of its flow. *)
Theorem C102_flow_loss_exact_partial : forall flow nodes yhat,
  (0 < List.length nodes)%nat -> List.length yhat = List.length nodes ->
  mse_rows yhat (scaled_rows flow nodes)
  = (mean_squared_error yhat (map (fun v => sqrt (INR v)) nodes)
     + mean_squared_error yhat (map (fun v => sqrt (flow v)) nodes)) / 2.
Proof.
  intros flow nodes yhat H Hl. unfold mse_rows, mean_squared_error, scaled_rows. rewrite !map_length, Hl.
  assert (Hn : INR (List.length nodes) <> 0) by (apply not_0_INR; lia).
  set (n := INR (List.length nodes)) in *.
  assert (E : forall l (f g : nat -> R), List.length l = List.length l ->
    forall h, list_rsum (map (fun p => (fst p - fst (snd p)) * (fst p - fst (snd p))
        + (fst p - snd (snd p)) * (fst p - snd (snd p))) (combine h (map (fun v => (f v, g v)) l)))
    = list_rsum (map (fun p => (fst p - snd p) * (fst p - snd p)) (combine h (map f l)))
      + list_rsum (map (fun p => (fst p - snd p) * (fst p - snd p)) (combine h (map g l)))).
  { intros l f g _. induction l as [|v l IH]; intros [|a h]; cbn [map combine list_rsum fold_right fst snd]; try ring.
    unfold list_rsum in IH. rewrite IH. ring. }
  rewrite (E nodes (fun v => sqrt (INR v)) (fun v => sqrt (flow v)) eq_refl). field. exact Hn.
Qed.
Print Assumptions C102_flow_loss_exact_partial.

Theorem C102_flow_loss_refuted : exists flow nodes,
  let target := map (fun v => sqrt (flow v)) nodes in
  mean_squared_error target target = 0 /\ mse_rows target (scaled_rows flow nodes) = 1 / 2.
Proof.
  exists (fun _ => 0), [1%nat]. cbn. rewrite sqrt_0, sqrt_1. split.
  - unfold mean_squared_error; cbn. field.
  - unfold mse_rows, scaled_rows; cbn. rewrite ?sqrt_0, ?sqrt_1. field.
Qed.
Print Assumptions C102_flow_loss_refuted.

(** The total is the weighted sum of those losses. *)
Example C102_nonvacuous :
  gat_loss 20000 (1/2) (1/4) (1/4) 0 7 [1] [3] [1] (fun _ => 1) [1%nat] [2] (fun _ => 1) [1%nat]
  = (1/2) * (2 * 2) + 1/4 * 1.
Proof.
  unfold gat_loss. rewrite C102_edge_loss_exact_partial; [|cbn [List.length]; split; [lia|]|reflexivity].
  - unfold spread, mean, mse_rows, scaled_rows. cbn. rewrite sqrt_1. field.
  - apply Nat.ltb_lt. vm_compute. reflexivity.
Qed.

(** ---- C103 --------------------------------------------------------------- *)

(** The sampled task weights are non-negative and add up to one, provided some
    draw is below 1. *)
Theorem C103_task_weights : forall us,
  (forall u, In u us -> 0 < u <= 1) -> (exists u, In u us /\ u < 1) ->
  List.length (task_weights us) = List.length us /\
  (forall p, In p (task_weights us) -> 0 <= p <= 1) /\ list_rsum (task_weights us) = 1.
Proof.
  intros us H [u0 [Hu0 Hlt]]. unfold task_weights.
  split; [rewrite !map_length; reflexivity|].
  set (w := map (fun u => - ln u) us).
  assert (NN : forall x, In x w -> 0 <= x).
  { intros x Hx. apply in_map_iff in Hx as [u [<- Hu]]. specialize (H u Hu).
    assert (ln u <= 0); [|lra]. rewrite <- ln_1. destruct H as [Hp [L|E]]; [left; apply ln_increasing; assumption|subst u; right; reflexivity]. }
  assert (PP : exists x, In x w /\ 0 < x).
  { exists (- ln u0). split; [apply in_map_iff; eauto|]. specialize (H u0 Hu0).
    assert (ln u0 < 0); [|lra]. rewrite <- ln_1. apply ln_increasing; lra. }
  clearbody w.
  assert (TL : forall l, (forall x, In x l -> 0 <= x) -> 0 <= list_rsum l /\ forall x, In x l -> x <= list_rsum l).
  { induction l as [|x l IH]; intros Hl; cbn [list_rsum fold_right]; [split; [lra|intros x []]|].
    fold (list_rsum l). destruct (IH ltac:(intros z Hz; apply Hl; right; exact Hz)) as [I1 I2].
    pose proof (Hl x (or_introl eq_refl)). split; [lra|]. intros z [<-|Hz]; [lra|]. specialize (I2 z Hz). lra. }
  destruct (TL w NN) as [T1 T2]. destruct PP as [x0 [Hx0 Px0]]. pose proof (T2 x0 Hx0).
  assert (TP : 0 < list_rsum w) by lra. set (t := list_rsum w) in *.
  assert (IP : 0 < / t) by (apply Rinv_0_lt_compat; exact TP).
  split.
  - intros p Hp. apply in_map_iff in Hp as [x [<- Hx]]. specialize (NN x Hx). specialize (T2 x Hx).
    split; [apply Rmult_le_pos; lra|]. unfold Rdiv. rewrite <- (Rinv_r t) by lra. apply Rmult_le_compat_r; lra.
  - assert (L : forall l, list_rsum (map (fun x => x / t) l) = list_rsum l / t).
    { induction l as [|x l IH]; cbn [map list_rsum fold_right]; [unfold Rdiv; ring|].
      fold (list_rsum (map (fun x => x / t) l)). rewrite IH. fold (list_rsum l). field. lra. }
    rewrite L. fold t. field. lra.
Qed.
Print Assumptions C103_task_weights.

Example C103_nonvacuous : (forall u, In u [1 / 2; 1; 1 / 3] -> 0 < u <= 1) /\ exists u, In u [1 / 2; 1; 1 / 3] /\ u < 1.
Proof.
  split; [intros u [<-|[<-|[<-|[]]]]; lra|]. exists (1 / 2). split; [left; reflexivity|lra].
Qed.
