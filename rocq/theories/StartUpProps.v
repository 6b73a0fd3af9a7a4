(** Properties of StartUp: C142-C147. *)
From Coq Require Import List String ZArith QArith Bool Arith Reals Lia Lra DecimalString DecimalNat DecimalFacts.
From Verif Require SIM.
From Verif Require Import Base PyMonad RealBase ProbUtils ProbUtilsProps Tables MarkovBasis ConfigTree Learning Inputs InputsProps StartUp.
Import ListNotations.
Open Scope string_scope.
Open Scope nat_scope.
Open Scope list_scope.

(** * Stopping times (C142) *)

(** The number of stopping times the settings ask for. *)
Definition wanted (c : st_settings) : nat :=
  match st_theta_steps c with Some (Some m) => st_N c * m | _ => st_N c end.
Lemma count_wanted : forall c, st_count c = wanted c.
Proof. intros c. unfold st_count, wanted. destruct (st_theta_steps c) as [[m|]|]; lia. Qed.

Lemma decimal_inj : forall a b, decimal a = decimal b -> a = b.
Proof.
  intros a b H. unfold decimal in H. apply (f_equal NilZero.uint_of_string) in H.
  assert (NN : forall n, Nat.to_uint n <> Decimal.Nil).
  { intros n E. pose proof (Unsigned.of_to n) as F. pose proof (Unsigned.to_of (Nat.to_uint n)) as G.
    rewrite F in G. rewrite E in G. discriminate. }
  rewrite !NilZero.usu in H by apply NN. inversion H as [K]. now apply Unsigned.to_uint_inj.
Qed.

Lemma sapp_inj : forall p a b : string, (p ++ a = p ++ b)%string -> a = b.
Proof. induction p as [|x p IH]; cbn; intros a b H; [assumption|]. inversion H. now apply IH. Qed.
Lemma sapp_len : forall a b : string, String.length (a ++ b) = String.length a + String.length b.
Proof. induction a as [|x a IH]; cbn; intros b; [reflexivity|]. now rewrite IH. Qed.
Lemma sapp_inj_l : forall a b p : string, (a ++ p = b ++ p)%string -> a = b.
Proof.
  induction a as [|x a IH]; destruct b as [|y b]; intros p H; auto.
  - apply (f_equal String.length) in H. cbn in H. rewrite sapp_len in H. lia.
  - apply (f_equal String.length) in H. cbn in H. rewrite sapp_len in H. lia.
  - cbn in H. inversion H. f_equal. eapply IH; eassumption.
Qed.

(** A generator that returns as many times as it is asked for. *)
Definition generates (gen : nat -> option Z -> list nat) : Prop :=
  forall n s, List.length (gen n s) = n.

Lemma firstn_gen : forall gen n s, generates gen -> firstn n (gen n s) = gen n s.
Proof. intros gen n s G. rewrite <- (G n s) at 1. apply firstn_all. Qed.

Lemma load_cases : forall gen c fs l fs', load_times gen c fs = Ok (l, fs') ->
  (aget (st_path c) fs = Some l /\ fs' = fs /\ List.length l = st_count c /\ st_count c <> 1 /\ st_count c <> 0) \/
  (l = firstn (st_count c) (gen (st_count c) (st_seed c)) /\ List.length l <> 0 /\
   fs' = aset (st_path c) (gen (st_count c) (st_seed c)) fs /\
   forall l0, aget (st_path c) fs = Some l0 -> List.length l0 <> 1 /\ List.length l0 <> st_count c).
Proof.
  intros gen c fs l fs' H. unfold load_times, import_times in H.
  destruct (aget (st_path c) fs) as [l0|] eqn:E.
  - destruct (Nat.eqb_spec (List.length l0) 1) as [E1|E1]; [discriminate|].
    destruct (Nat.eqb_spec (List.length l0) (st_count c)) as [E2|E2]; cbn [rbind fst snd] in H.
    + rewrite <- E2 in H. rewrite firstn_all in H.
      destruct (Nat.eqb_spec (List.length l0) 0) as [E3|E3]; [discriminate|]. inversion H; subst.
      left. repeat split; auto; lia.
    + destruct (Nat.eqb_spec (List.length (firstn (st_count c) (gen (st_count c) (st_seed c)))) 0) as [E3|E3];
        [discriminate|]. inversion H; subst. right. repeat split; auto.
      * inversion H0; now subst.
      * inversion H0; now subst.
  - cbn [rbind fst snd] in H.
    destruct (Nat.eqb_spec (List.length (firstn (st_count c) (gen (st_count c) (st_seed c)))) 0) as [E3|E3];
      [discriminate|]. inversion H; subst. right. repeat split; auto; discriminate.
Qed.

(** A run that starts has exactly the number of stopping times asked for; it
    finds them in its own file if that has the right number, and otherwise
    draws them from its seed and leaves exactly them there; no other file
    changes. *)
Theorem C142_exact_number : forall gen c fs l fs', generates gen ->
  load_times gen c fs = Ok (l, fs') ->
  List.length l = wanted c /\ 0 < wanted c /\
  aget (st_path c) fs' = Some l /\
  (forall q, q <> st_path c -> aget q fs' = aget q fs) /\
  ((aget (st_path c) fs = Some l) \/
   (l = gen (wanted c) (st_seed c) /\
    forall old, aget (st_path c) fs = Some old -> List.length old <> wanted c)).
Proof.
  intros gen c fs l fs' G H. rewrite <- count_wanted.
  destruct (load_cases _ _ _ _ _ H) as [(A & -> & B & C & D)|(A & B & -> & C)].
  - repeat split; auto; lia.
  - assert (l = gen (st_count c) (st_seed c)) as ->.
    { rewrite A. rewrite <- (G (st_count c) (st_seed c)) at 1. now rewrite firstn_all. }
    rewrite G in *. repeat split; auto; try lia.
    + apply aget_aset_same.
    + intros q N. now apply aget_aset_other.
    + right. split; [reflexivity|]. intros old E. now apply C.
Qed.
Print Assumptions C142_exact_number.

(** A second run with the same settings (whatever its seed, and whatever the
    generator would have drawn) uses the same stopping times and changes no
    file, provided more than one is wanted. *)
Theorem C142_second_run_partial : forall gen gen' c c' fs l fs', generates gen ->
  load_times gen c fs = Ok (l, fs') -> st_path c' = st_path c -> wanted c' = wanted c -> wanted c <> 1 ->
  load_times gen' c' fs' = Ok (l, fs').
Proof.
  intros gen gen' c c' fs l fs' G H P W N.
  destruct (C142_exact_number _ _ _ _ _ G H) as (A & B & C & _).
  unfold load_times, import_times. rewrite P, C, !count_wanted, W.
  destruct (Nat.eqb_spec (List.length l) 1); [lia|]. rewrite A, Nat.eqb_refl. cbn [rbind fst snd].
  rewrite <- A. rewrite firstn_all. destruct (Nat.eqb_spec (List.length l) 0); [lia|reflexivity].
Qed.
Print Assumptions C142_second_run_partial.

(** When a single stopping time is wanted, every run after the first fails. *)
Theorem C142_single_refuted : forall gen gen' c c' fs l fs', generates gen ->
  load_times gen c fs = Ok (l, fs') -> st_path c' = st_path c -> wanted c = 1 ->
  load_times gen' c' fs' = Raise EType.
Proof.
  intros gen gen' c c' fs l fs' G H P W.
  destruct (C142_exact_number _ _ _ _ _ G H) as (A & B & C & _).
  unfold load_times, import_times. rewrite P, C, A, W. reflexivity.
Qed.
Print Assumptions C142_single_refuted.

(** The seed of a later run is ignored: it works with the stopping times drawn
    from the seed of the first. *)
Theorem C142_seed_ignored_refuted : forall gen c s fs l, generates gen -> 1 < wanted c ->
  aget (st_path c) fs = None -> l = gen (wanted c) (st_seed c) ->
  exists fs', load_times gen c fs = Ok (l, fs') /\
    load_times gen (mkst (st_N c) (st_theta_steps c) (st_file c) s) fs' = Ok (l, fs').
Proof.
  intros gen c s fs l G W N ->.
  assert (E : load_times gen c fs = Ok (gen (wanted c) (st_seed c), aset (st_path c) (gen (wanted c) (st_seed c)) fs)).
  { unfold load_times, import_times. rewrite N. cbn [rbind fst snd]. rewrite !count_wanted.
    rewrite !firstn_gen by assumption.
    destruct (Nat.eqb_spec (List.length (gen (wanted c) (st_seed c))) 0) as [K|K]; [|reflexivity].
    rewrite G in K. lia. }
  eexists. split; [exact E|]. eapply C142_second_run_partial; [exact G|exact E| | |]; auto. lia.
Qed.
Print Assumptions C142_seed_ignored_refuted.

(** A stopping time file of the user that does not hold the right number is
    replaced. *)
Theorem C142_user_file_overwritten_refuted : forall gen c fs mine, generates gen -> 0 < wanted c ->
  aget (st_path c) fs = Some mine -> List.length mine <> 1 -> List.length mine <> wanted c ->
  exists l fs', load_times gen c fs = Ok (l, fs') /\ aget (st_path c) fs' <> Some mine.
Proof.
  intros gen c fs mine G W A N1 N2.
  exists (gen (wanted c) (st_seed c)), (aset (st_path c) (gen (wanted c) (st_seed c)) fs). split.
  - unfold load_times, import_times. rewrite A, !count_wanted.
    destruct (Nat.eqb_spec (List.length mine) 1); [contradiction|].
    destruct (Nat.eqb_spec (List.length mine) (wanted c)); [contradiction|]. cbn [rbind fst snd].
    rewrite !firstn_gen by assumption.
    destruct (Nat.eqb_spec (List.length (gen (wanted c) (st_seed c))) 0) as [K|K]; [|reflexivity].
    rewrite G in K. lia.
  - rewrite aget_aset_same. intro E. inversion E as [K]. rewrite <- K, G in N2. contradiction.
Qed.
Print Assumptions C142_user_file_overwritten_refuted.

(** A file named in the configuration is the one that is used, and is left as it
    is, if it holds the right number; the default name tells the number. *)
Theorem C142_named_file : forall gen c fs l, 1 < wanted c ->
  aget ("stopping_times/" ++ match st_file c with
                            | Some f => f
                            | None => "stopping_times_N_" ++ decimal (wanted c) ++ ".txt"
                            end)%string fs = Some l ->
  List.length l = wanted c -> load_times gen c fs = Ok (l, fs).
Proof.
  intros gen c fs l W A L. rewrite <- count_wanted in *. unfold load_times, import_times, st_path. rewrite A, L.
  destruct (Nat.eqb_spec (st_count c) 1); [lia|]. rewrite Nat.eqb_refl. cbn [rbind fst snd].
  rewrite <- L, firstn_all. destruct (Nat.eqb_spec (List.length l) 0); [lia|reflexivity].
Qed.
Print Assumptions C142_named_file.

(** Runs that want different numbers never share a file, unless one is named. *)
Theorem C142_default_files_apart : forall c c', st_file c = None -> st_file c' = None ->
  (st_path c = st_path c' <-> wanted c = wanted c').
Proof.
  intros c c' E E'. unfold st_path. rewrite E, E', !count_wanted. split; [|now intros ->].
  intro H. apply sapp_inj in H. apply sapp_inj in H. apply sapp_inj_l in H. now apply decimal_inj.
Qed.
Print Assumptions C142_default_files_apart.

Definition gen0 (n : nat) (s : option Z) : list nat :=
  map (fun i => match s with Some z => Z.to_nat z + i | None => 1 end) (seq 0 n).
Lemma gen0_generates : generates gen0.
Proof. intros n s. unfold gen0. now rewrite map_length, seq_length. Qed.
Definition st0 : st_settings := mkst 2 (Some (Some 2)) None (Some 5%Z).
Example C142_nonvacuous :
  load_times gen0 st0 [("x", [1])] =
    Ok ([5;6;7;8], [("x", [1]); ("stopping_times/stopping_times_N_4.txt", [5;6;7;8])]) /\
  is_ok (load_times gen0 (mkst 1 None None None) []) = true /\
  load_times gen0 (mkst 3 None (Some "mine.txt") (Some 1%Z)) [("stopping_times/mine.txt", [9;9])] =
    Ok ([1;2;3], [("stopping_times/mine.txt", [1;2;3])]).
Proof. repeat split; vm_compute; reflexivity. Qed.

(** * The estimator of 1/Z (C145) *)
Local Open Scope R_scope.

(** With one worker, and all importance weights finite, the estimate for the
    stopping time N is the truncated series of the N+1 weights. *)
Theorem C145_sequential_estimate_partial : forall times index lw k,
  unbiased_z_inverse 1 times index (fun i => Some (lw i)) k = truncated_series (times index) lw k.
Proof.
  intros times index lw k. unfold unbiased_z_inverse.
  assert (Nat.ltb 1 (Nat.min 1 (times index + 1)) = false) as -> by (apply Nat.ltb_ge; lia).
  assert (forallb (fun i => match Some (lw i) with Some _ => true | None => false end) (seq 0 (times index + 1)) = true) as ->.
  { apply forallb_forall. auto. }
  reflexivity.
Qed.
Print Assumptions C145_sequential_estimate_partial.

(** A weight that is not finite is always noticed. *)
Theorem C145_infinite_weight_noticed : forall workers times index weights k i,
  (i <= times index)%nat -> weights i = None ->
  exists e, unbiased_z_inverse workers times index weights k = Raise e.
Proof.
  intros workers times index weights k i L W. unfold unbiased_z_inverse.
  destruct (Nat.ltb 1 (Nat.min workers (times index + 1))); [eauto|].
  assert (forallb (fun i => match weights i with Some _ => true | None => false end) (seq 0 (times index + 1)) = false) as ->; [|eauto].
  apply not_true_iff_false. intro F. rewrite forallb_forall in F. specialize (F i).
  rewrite W in F. discriminate F. apply in_seq. lia.
Qed.
Print Assumptions C145_infinite_weight_noticed.

Lemma loop_ge : forall fuel k u n m, stopping_loop fuel k u n = Some m -> (n <= m)%nat.
Proof.
  induction fuel as [|fuel IH]; intros k u n m H; cbn [stopping_loop] in H; [discriminate|].
  match type of H with (if ?b then _ else _) = _ => destruct b end.
  - apply IH in H. lia.
  - inversion H. lia.
Qed.

(** With two or more workers no estimate is ever made: every stopping time the
    generator can draw runs into the parallel branch, which fails. *)
Theorem C145_parallel_refuted : forall workers times index weights k k' u, (2 <= workers)%nat ->
  stops k' u (times index) ->
  unbiased_z_inverse workers times index weights k = Raise EAttr.
Proof.
  intros workers times index weights k k' u W [fuel S]. apply loop_ge in S. unfold unbiased_z_inverse.
  assert (Nat.ltb 1 (Nat.min workers (times index + 1)) = true) as -> by (apply Nat.ltb_lt; lia). reflexivity.
Qed.
Print Assumptions C145_parallel_refuted.

(** The stopping times a joint run with N iterations of M parameter steps uses:
    the first for the initial value, then time i for each step of iteration i
    (experiments.py 1648, 1679-1707). *)
Definition times_used (N M : nat) : list nat :=
  0%nat :: flat_map (fun i => map (fun j => time_index i j) (seq 0 M)) (seq 0 N).

(** Every time used is one of those loaded. *)
Theorem C145_times_loaded : forall N M i, (0 < N)%nat -> (0 < M)%nat -> In i (times_used N M) -> (i < N * M)%nat /\ (i < N)%nat.
Proof.
  intros N M i H0 H1 [<-|H]; [nia|]. apply in_flat_map in H as (k & K & J). apply in_seq in K.
  apply in_map_iff in J as (j & <- & J). unfold time_index. nia.
Qed.
Print Assumptions C145_times_loaded.

(** With several parameter steps per iteration, they all share one stopping
    time, and all but the first N of the N*M times loaded are never used. *)
Theorem C145_shared_times_refuted : forall N M, (0 < N)%nat -> (2 <= M)%nat ->
  (forall j j', time_index 0 j = time_index 0 j') /\
  (N < N * M)%nat /\ ~ In N (times_used N M) /\
  (forall i, (N <= i)%nat -> ~ In i (times_used N M)).
Proof.
  intros N M H0 H1. split; [reflexivity|]. split; [nia|].
  assert (G : forall i, (N <= i)%nat -> ~ In i (times_used N M)).
  { intros i Hi J. destruct (C145_times_loaded N M i H0 ltac:(lia) J). lia. }
  split; [apply G; lia|exact G].
Qed.
Print Assumptions C145_shared_times_refuted.

(** * Initial values and validation (C146) *)

(** validate_samples accepts exactly the samples with attractions summing to
    one (within 1/1000), sign 0 or 1 and an admissible table. *)
Theorem C146_accepts_exactly : forall J c x,
  validate_samples J c x = Ok tt <->
  s_r2 x = false /\
  (forall w, s_attr x = Some w -> Rabs (rsum J (fun j => exp (w j)) - 1) <= 1 / 1000) /\
  (forall g, s_sign x = Some g -> g = 0%Z \/ g = 1%Z) /\
  (forall t, s_table x = Some t -> table_admissible c t = true).
Proof.
  intros J c [r2 a g t]. unfold validate_samples. cbn [s_r2 s_attr s_sign s_table]. split.
  - destruct r2; [discriminate|]. intro H. apply rbind_Ok_inv in H as (u1 & E1 & H).
    apply rbind_Ok_inv in H as (u2 & E2 & H). split; [reflexivity|]. split; [|split].
    + intros w ->. destruct (Rleb _ _) eqn:E in E1; [|discriminate]. now apply Rleb_spec.
    + intros g' ->. destruct (Z.eqb_spec g' 0); [now left|]. destruct (Z.eqb_spec g' 1); [now right|]. discriminate.
    + intros t' ->. destruct (table_admissible c t'); [reflexivity|discriminate].
  - intros (-> & A & G & T).
    assert (E1 : match a with Some w => if Rleb (Rabs (rsum J (fun j => exp (w j)) - 1)) (1 / 1000) then Ok tt else Raise EExn
                 | None => Ok tt end = Ok tt).
    { destruct a as [w|]; [|reflexivity]. specialize (A w eq_refl). apply Rleb_spec in A. now rewrite A. }
    rewrite E1. cbn [rbind].
    assert (E2 : match g with Some g => if Z.eqb g 0 || Z.eqb g 1 then Ok tt else Raise EExn | None => Ok tt end = Ok tt).
    { destruct g as [g|]; [|reflexivity]. destruct (G g eq_refl) as [-> | ->]; reflexivity. }
    rewrite E2. cbn [rbind]. destruct t as [t|]; [|reflexivity]. now rewrite (T t eq_refl).
Qed.
Print Assumptions C146_accepts_exactly.

(** The initial sample of a run is valid: its attractions sum to exactly one,
    its sign is 1, and its table is the admissible one it was given. *)
Theorem C146_initial_valid : forall J c t, (0 < J)%nat -> table_admissible c t = true ->
  rsum J (fun j => exp (init_log_attraction J j)) = 1 /\
  validate_samples J c (mksample false (Some (init_log_attraction J)) (Some init_sign) (Some t)) = Ok tt.
Proof.
  intros J c t HJ T. assert (P : 0 < INR J) by (apply lt_0_INR; lia).
  assert (S : rsum J (fun j => exp (init_log_attraction J j)) = 1).
  { unfold init_log_attraction. rewrite rsum_const, exp_ln.
    - field. lra.
    - apply Rdiv_lt_0_compat; lra. }
  split; [exact S|]. apply C146_accepts_exactly. cbn [s_r2 s_attr s_sign s_table].
  split; [reflexivity|]. split; [|split].
  - intros w E. inversion E; subst. rewrite S. replace (1 - 1) with 0 by ring. rewrite Rabs_R0. lra.
  - intros g E. inversion E. now right.
  - intros t' E. now inversion E; subst.
Qed.
Print Assumptions C146_initial_valid.

(** The initial parameters are the defaults of the learned names, in their
    order. *)
Theorem C146_initial_theta : forall learn i p, nth_error learn i = Some p ->
  nth_error (init_theta learn) i = Some (aget p parameter_defaults).
Proof. intros learn i p H. unfold init_theta. rewrite nth_error_map, H. reflexivity. Qed.
Print Assumptions C146_initial_theta.

(** A sample with a negative sign, which the debiased estimator returns for
    legitimate weights, is refused. *)
Theorem C146_negative_sign_refuted :
  (exists ret, truncated_series 1 (fun _ => ln (1 / 8)) 1 = Ok (ret, -1)) /\
  (forall J c w t, validate_samples J c (mksample false w (Some (-1)%Z) t) <> Ok tt).
Proof.
  split.
  - unfold truncated_series. cbv zeta.
    assert (E : Rleb (lse (1 + 1) (ln_Y_neg 1 (fun _ => ln (1 / 8)) 1)) (lse (1 + 2) (ln_Y_pos 1 (fun _ => ln (1 / 8)) 1)) = false).
    { apply Rleb_false. apply exp_lt_inv. rewrite !exp_lse by lia.
      assert (RA : forall i, (i <= 1)%nat -> exp (ln_Y 1 (fun _ => ln (1 / 8)) i) = 8).
      { intros i Hi. rewrite exp_ln_Y by exact Hi. unfold running_average. rewrite rsum_const, exp_ln by lra.
        field. apply Rgt_not_eq, lt_0_INR; lia. }
      assert (E2 : Rpower (INR 2) 1 = 2) by (rewrite Rpower_1 by (cbn; lra); reflexivity).
      assert (E1 : Rpower (INR 1) 1 = 1) by (rewrite Rpower_1 by (cbn; lra); reflexivity).
      cbn [Nat.add]. rewrite !rsum_S. cbn [rsum]. unfold ln_Y_neg, ln_Y_pos. cbn [Nat.add].
      rewrite !exp_pow by lia. rewrite !RA by lia. rewrite E1, E2.
      pose proof (exp_ln_Y_last 1 (fun _ => ln (1/8))) as L. cbn [Nat.add] in L. rewrite L. cbn. lra. }
    rewrite E. eauto.
  - intros J c w t H. apply C146_accepts_exactly in H as (_ & _ & G & _). cbn [s_sign] in G.
    destruct (G _ eq_refl); discriminate.
Qed.
Print Assumptions C146_negative_sign_refuted.

(** When r2 is among the outputs, validation always fails. *)
Theorem C146_r2_refuted : forall J c a g t, validate_samples J c (mksample true a g t) = Raise EKey.
Proof. reflexivity. Qed.
Print Assumptions C146_r2_refuted.

Example C145_nonvacuous :
  unbiased_z_inverse 1 (fun _ => 2%nat) 0 (fun _ => Some 0) 1 = truncated_series 2 (fun _ => 0) 1 /\
  (exists ret, truncated_series 2 (fun _ => 0) 1 = Ok (ret, 1)) /\
  stops 1 (2 / 5) 2 /\
  times_used 2 3 = [0; 0; 0; 0; 1; 1; 1]%nat.
Proof.
  split; [apply (C145_sequential_estimate_partial (fun _ => 2%nat) 0 (fun _ => 0) 1)|]. split.
  - destruct (C27_unit_weights_refuted 2 1) as [ret [E _]]. eauto.
  - split; [exact C26_nonvacuous|reflexivity].
Qed.

Example C146_nonvacuous : exists c,
  build_ct (Shape 2 2) (fun _ _ => 1%Z) (axis_margin (Shape 2 2) (fun _ _ => 1%Z)) [A0; A1] [] = Ok c /\
  table_admissible c (fun _ _ => 1%Z) = true /\
  init_theta ["alpha"; "beta"] = [Some (1 # 2)%Q; Some (1 # 2)%Q] /\
  validate_samples 2 c (mksample false (Some (init_log_attraction 2)) (Some 1%Z) (Some (fun _ _ => 1%Z))) = Ok tt.
Proof.
  eexists. split; [reflexivity|]. split; [reflexivity|]. split; [reflexivity|].
  apply C146_initial_valid; [lia|reflexivity].
Qed.

(** * Scaling of beta (C144) *)

(** Two lists of named values agree when they give every name the same value. *)
Definition agree (a b : list (string * R)) : Prop := forall p, aget p a = aget p b.

Lemma named_aux : forall (learn : list string) (theta : list R) (acc : list (string * R)) (p : string), NoDup learn -> (forall q, In q learn -> aget q acc = None) ->
  aget p (fold_left (fun acc pv => aset (fst pv) (snd pv) acc) (combine learn theta) acc) =
  match aget p acc with Some v => Some v | None => aget p (combine learn theta) end.
Proof.
  induction learn as [|a learn IH]; intros theta acc p ND H; cbn [combine fold_left aget].
  - now destruct (aget p acc).
  - destruct theta as [|x theta]; cbn [combine fold_left aget]; [now destruct (aget p acc)|].
    inversion ND; subst. cbn [fst snd]. rewrite IH; [|assumption|].
    + destruct (String.eqb_spec p a) as [->|N].
      * now rewrite aget_aset_same, (H a) by now left.
      * now rewrite aget_aset_other.
    + intros q Q. rewrite aget_aset_other by (intros ->; contradiction). apply H. now right.
Qed.
Lemma named_get : forall learn theta p, NoDup learn -> aget p (named learn theta) = aget p (combine learn theta).
Proof. intros learn theta p ND. unfold named. now rewrite named_aux by auto. Qed.
Lemma stored_get : forall learn bmax theta p,
  aget p (stored_parameters learn bmax theta) =
  option_map (fun v => if String.eqb p "beta" then v * bmax else v) (aget p (named learn theta)).
Proof.
  intros learn bmax theta p. unfold stored_parameters. induction (named learn theta) as [|[q v] l IH]; [reflexivity|].
  cbn [map aget fst snd]. destruct (String.eqb_spec p q) as [->|N]; [reflexivity|exact IH].
Qed.

(** The intensity of a run can be recomputed from its stored samples, for any
    number of learned parameters, when the second of them is beta. *)
Theorem C144_recomputed_partial : forall learn bmax theta, NoDup learn ->
  nth_error learn 1 = Some "beta" -> List.length theta = List.length learn ->
  exists ps, run_parameters learn bmax theta = Ok ps /\ agree ps (stored_parameters learn bmax theta).
Proof.
  intros learn bmax theta ND B L. destruct learn as [|a [|b learn]]; try discriminate.
  cbn in B. inversion B; subst b. destruct theta as [|x [|y theta]]; try discriminate.
  unfold run_parameters. cbn [scale_second rbind]. eexists. split; [reflexivity|].
  intro p. rewrite stored_get, !named_get by assumption. cbn [combine aget].
  inversion ND as [|? ? Na ND2]; subst. inversion ND2 as [|? ? Nb ND3]; subst.
  destruct (String.eqb_spec p a) as [->|N].
  - cbn. destruct (String.eqb_spec a "beta") as [->|]; [exfalso; apply Na; now left|reflexivity].
  - destruct (String.eqb_spec p "beta") as [->|N2]; [reflexivity|].
    now destruct (aget p (combine learn theta)).
Qed.
Print Assumptions C144_recomputed_partial.

(** With two learned parameters this is the only order that works, but for a
    scale of one. *)
Theorem C144_only_order : forall a b bmax, a <> b ->
  ((forall theta, List.length theta = 2%nat ->
      exists ps, run_parameters [a; b] bmax theta = Ok ps /\ agree ps (stored_parameters [a; b] bmax theta))
   <-> b = "beta" \/ bmax = 1).
Proof.
  intros a b bmax N.
  assert (ND : NoDup [a; b]) by (constructor; [intros [E|[]]; congruence|repeat constructor; auto]).
  split.
  - intro H. destruct (String.eqb_spec b "beta") as [->|Nb]; [now left|]. right.
    destruct (H [1; 1] eq_refl) as (ps & E & A). unfold run_parameters in E. cbn [scale_second rbind] in E.
    inversion E; subst ps. specialize (A b). rewrite stored_get, !named_get in A by assumption.
    cbn [combine aget] in A. rewrite String.eqb_refl in A.
    destruct (String.eqb_spec b a) as [K|_]; [congruence|]. cbn in A.
    destruct (String.eqb_spec b "beta"); [contradiction|]. inversion A. lra.
  - intros [-> | ->] theta L.
    + apply C144_recomputed_partial; auto.
    + destruct theta as [|x [|y [|z theta]]]; try discriminate.
      unfold run_parameters. cbn [scale_second rbind]. eexists. split; [reflexivity|].
      intro p. rewrite stored_get, !named_get by assumption. cbn [combine aget].
      destruct (String.eqb p a); cbn; [destruct (String.eqb p "beta"); f_equal; ring|].
      destruct (String.eqb p b); cbn; [destruct (String.eqb p "beta"); f_equal; ring|reflexivity].
Qed.
Print Assumptions C144_only_order.

(** A joint run draws its tables from the unscaled beta: the intensity
    recomputed from its samples is another one unless bmax is one. *)
Definition beta_of (ps : list (string * R)) : R := match aget "beta" ps with Some b => b | None => 0 end.
Theorem C144_table_intensity_refuted : forall bmax, bmax <> 1 -> exists theta c x,
  let flow b := SIM.tc_log_flow 1 2 c 1 x 1 b in
  flow (beta_of (table_parameters ["alpha"; "beta"] theta)) 0%nat 0%nat <>
  flow (beta_of (stored_parameters ["alpha"; "beta"] bmax theta)) 0%nat 0%nat.
Proof.
  intros bmax N. exists [1; 1], (fun _ j => INR j), (fun _ => 0). cbv zeta.
  assert (E1 : beta_of (table_parameters ["alpha"; "beta"] [1; 1]) = 1) by reflexivity.
  assert (E2 : beta_of (stored_parameters ["alpha"; "beta"] bmax [1; 1]) = 1 * bmax) by reflexivity.
  rewrite E1, E2. intro H.
  assert (L : forall b, exp (SIM.tc_log_flow 1 2 (fun _ j => INR j) 1 (fun _ => 0) 1 b 0%nat 0%nat) = / (1 + exp (- b))).
  { intro b. unfold SIM.tc_log_flow, SIM.log_utility. rewrite ln_1.
    replace (1 * 0 - b * INR 0 - lse2 1 2 (fun _ j : nat => 1 * 0 - b * INR j) + 0)
      with (- lse2 1 2 (fun _ j : nat => 1 * 0 - b * INR j)) by (cbn; ring).
    rewrite exp_Ropp. f_equal. rewrite exp_lse2 by lia. unfold rsum2. cbn.
    replace (1 * 0 - b * 0) with 0 by ring. rewrite exp_0.
    replace (1 * 0 - b * 1) with (- b) by ring. ring. }
  apply (f_equal exp) in H. rewrite !L in H.
  assert (P : forall b, 0 < 1 + exp (- b)) by (intro b; pose proof (exp_pos (- b)); lra).
  apply (f_equal Rinv) in H. rewrite !Rinv_inv in H.
  assert (exp (- (1)) = exp (- (1 * bmax))) by lra. apply exp_inv in H0. lra.
Qed.
Print Assumptions C144_table_intensity_refuted.

(** A run that learns fewer than two parameters fails. *)
Theorem C144_two_parameters_needed : forall learn bmax theta, (List.length theta < 2)%nat ->
  run_parameters learn bmax theta = Raise EIndex.
Proof. intros learn bmax [|x [|y theta]] L; cbn in *; try reflexivity; lia. Qed.
Print Assumptions C144_two_parameters_needed.

Example C144_nonvacuous :
  run_parameters ["alpha"; "beta"] 3 [2; 5] = Ok [("alpha", 2); ("beta", 5 * 3)] /\
  stored_parameters ["alpha"; "beta"] 3 [2; 5] = [("alpha", 2); ("beta", 5 * 3)] /\
  run_parameters ["beta"; "alpha"] 3 [2; 5] = Ok [("beta", 2); ("alpha", 5 * 3)] /\
  stored_parameters ["beta"; "alpha"] 3 [2; 5] = [("beta", 2 * 3); ("alpha", 5)].
Proof. repeat split; reflexivity. Qed.
