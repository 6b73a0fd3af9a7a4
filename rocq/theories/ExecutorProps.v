(** Properties C47 (bounded executor), C48 (chunks), C60 (positions) and C81
    (failing configurations). *)
From Coq Require Import List ZArith Lia Bool Arith.
From Verif Require Import Base PyMonad Executor.
Import ListNotations.
Local Open Scope nat_scope.

Lemma NoDup_app_iff_l : forall (l m : list nat), NoDup (l ++ m) <->
  NoDup l /\ NoDup m /\ (forall x, In x l -> ~ In x m).
Proof.
  intros l m. induction l as [|a l IH]; cbn [app].
  - split; [intros H; repeat split; [constructor|auto|tauto]|tauto].
  - rewrite !NoDup_cons_iff, IH, in_app_iff. split.
    + intros (H1 & H2 & H3 & H4). repeat split; auto. intros x [<-|Hx]; auto.
    + intros ((H1 & H2) & H3 & H4). repeat split; auto.
      * intros [H|H]; [tauto|]. apply (H4 a); auto. left; auto.
      * intros x Hx. apply H4. right; auto.
Qed.

Lemma skipn_skipn' : forall A (a b : nat) (l : list A), skipn a (skipn b l) = skipn (a + b) l.
Proof.
  intros A a b. induction b as [|b IH]; intros l; [now rewrite Nat.add_0_r|].
  rewrite Nat.add_succ_r. destruct l as [|x l]; cbn [skipn]; [apply skipn_nil|apply IH].
Qed.

Ltac psimp := cbn [limit permits holding unfinished finished lost used over_released List.length app].

(** * C47 *)
Lemma mem_nat_In : forall i l, mem_nat i l = true <-> In i l.
Proof.
  intros i l. unfold mem_nat. rewrite existsb_exists. split.
  - intros (x & H & E). apply Nat.eqb_eq in E. now subst.
  - intros H. exists i. split; auto. apply Nat.eqb_refl.
Qed.

Lemma remove_one_length : forall i l, In i l -> S (List.length (remove_one i l)) = List.length l.
Proof.
  intros i l. induction l as [|x l IH]; intros H; cbn in *; [tauto|].
  destruct (Nat.eqb_spec i x); cbn; [reflexivity|]. rewrite IH; [reflexivity|]. destruct H; congruence.
Qed.

Lemma remove_one_In : forall i j l, In j (remove_one i l) -> In j l.
Proof.
  intros i j l. induction l as [|x l IH]; cbn; [tauto|].
  destruct (Nat.eqb i x); cbn; tauto.
Qed.

Lemma remove_one_NoDup : forall i l, NoDup l -> NoDup (remove_one i l) /\ ~ In i (remove_one i l).
Proof.
  intros i l H. induction H as [|x l Hx H [IH1 IH2]]; cbn; [split; [constructor|tauto]|].
  destruct (Nat.eqb_spec i x) as [->|Hne]; [auto|]. split.
  - constructor; auto. intros Hin. apply remove_one_In in Hin. tauto.
  - intros [E|Hin]; [congruence|tauto].
Qed.

Definition accounted (s : pool) : Prop :=
  permits s + holding s + List.length (unfinished s) + List.length (finished s) + lost s = limit s /\
  over_released s = false.

Lemma step_accounted : forall s e s', accounted s -> step s e = Some s' ->
  accounted s' /\ limit s' = limit s.
Proof.
  intros s e s' [H1 H2] Hs. destruct e as [|i| |i|i]; cbn [step] in Hs.
  - destruct (permits s) eqn:Ep; [discriminate|]. injection Hs as <-. unfold accounted. psimp. split; [split; [lia|auto]|auto].
  - destruct (holding s) eqn:Eh; [discriminate|]. destruct (mem_nat i (used s)); [discriminate|].
    injection Hs as <-. unfold accounted. psimp. split; [split; [lia|auto]|auto].
  - destruct (holding s) eqn:Eh; [discriminate|]. injection Hs as <-. unfold accounted. psimp. split; [split; [lia|auto]|auto].
  - destruct (mem_nat i (unfinished s)) eqn:Em; [|discriminate]. apply mem_nat_In in Em.
    pose proof (remove_one_length _ _ Em). injection Hs as <-. unfold accounted. psimp. split; [split; [lia|auto]|auto].
  - destruct (mem_nat i (finished s)) eqn:Em; [|discriminate]. apply mem_nat_In in Em.
    pose proof (remove_one_length _ _ Em). injection Hs as <-. unfold accounted. psimp.
    assert (Hlt : (permits s <? limit s) = true) by (apply Nat.ltb_lt; lia). rewrite Hlt, H2. cbn [orb negb].
    split; [split; [lia|auto]|auto].
Qed.

Lemma run_accounted : forall es s s', accounted s -> run s es = Some s' ->
  accounted s' /\ limit s' = limit s.
Proof.
  induction es as [|e es IH]; intros s s' H Hr; cbn in Hr; [injection Hr as <-; auto|].
  destruct (step s e) as [s1|] eqn:E; [|discriminate].
  destruct (step_accounted _ _ _ H E) as [H1 L1]. destruct (IH _ _ H1 Hr) as [H2 L2]. split; [auto|congruence].
Qed.

Lemma init_accounted : forall n, accounted (init n).
Proof. intros n. unfold accounted, init. cbn. split; [lia|reflexivity]. Qed.

(** C47: at every moment of every schedule at most [n] tasks are submitted and
    unfinished, and the semaphore is never released too often. *)
Theorem C47_bounded : forall n es s, run (init n) es = Some s ->
  List.length (unfinished s) <= n /\
  holding s + List.length (unfinished s) + List.length (finished s) <= n /\
  over_released s = false.
Proof.
  intros n es s H. destruct (run_accounted _ _ _ (init_accounted n) H) as [[H1 H2] L]. cbn in L. lia.
Qed.
Print Assumptions C47_bounded.

(** Each finished task frees exactly one slot, once. *)
Theorem C47_finished_frees_one_slot : forall n es s i s', run (init n) es = Some s ->
  step s (Callback i) = Some s' ->
  permits s' = S (permits s) /\ unfinished s' = unfinished s /\ holding s' = holding s /\
  forall es' s'', run s' es' = Some s'' -> step s'' (Callback i) = None.
Proof.
  intros n es s i s' Hr Hs.
  assert (Hinv : forall es s0 s1, (NoDup (unfinished s0 ++ finished s0) /\ incl (unfinished s0 ++ finished s0) (used s0)) ->
     run s0 es = Some s1 -> (NoDup (unfinished s1 ++ finished s1) /\ incl (unfinished s1 ++ finished s1) (used s1)) /\
       (forall j, In j (used s0) -> ~ In j (unfinished s0 ++ finished s0) ->
          In j (used s1) /\ ~ In j (unfinished s1 ++ finished s1))).
  { induction es0 as [|e es0 IH]; intros s0 s1 Hi Hr0; cbn in Hr0; [injection Hr0 as <-; auto|].
    destruct (step s0 e) as [s2|] eqn:E; [|discriminate].
    assert (Hstep : (NoDup (unfinished s2 ++ finished s2) /\ incl (unfinished s2 ++ finished s2) (used s2)) /\
       (forall j, In j (used s0) -> ~ In j (unfinished s0 ++ finished s0) ->
          In j (used s2) /\ ~ In j (unfinished s2 ++ finished s2))).
    { destruct Hi as [Hnd Hincl]. destruct e as [|k| |k|k]; cbn [step] in E.
      - destruct (permits s0); [discriminate|]. injection E as <-. psimp. auto.
      - destruct (holding s0); [discriminate|]. destruct (mem_nat k (used s0)) eqn:Ek; [discriminate|].
        injection E as <-. psimp.
        assert (Hk : ~ In k (used s0)) by (rewrite <- mem_nat_In; congruence).
        split; [split|].
        + constructor; auto.
        + intros x [<-|Hx]; [left; auto|right; auto].
        + intros j Hj Hn. split; [right; auto|]. intros [->|H]; tauto.
      - destruct (holding s0); [discriminate|]. injection E as <-. psimp. auto.
      - destruct (mem_nat k (unfinished s0)) eqn:Ek; [|discriminate]. apply mem_nat_In in Ek.
        injection E as <-. psimp.
        assert (Hp : forall x, In x (remove_one k (unfinished s0) ++ k :: finished s0) -> In x (unfinished s0 ++ finished s0)).
        { intros x Hx. apply in_app_iff in Hx as [Hx|[<-|Hx]]; apply in_or_app; [left; eapply remove_one_In; eauto|auto|auto]. }
        split; [split|].
        + apply NoDup_app_iff_l. apply NoDup_app_iff_l in Hnd as (A & B & C).
          destruct (remove_one_NoDup k _ A) as [A1 A2].
          split; [auto|split].
          * constructor; auto.
          * intros x Hx [<-|H]; [tauto|]. apply (C x); auto. eapply remove_one_In; eauto.
        + intros x Hx. apply Hincl, Hp, Hx.
        + intros j Hj Hn. split; [auto|]. intros H. apply Hn, Hp, H.
      - destruct (mem_nat k (finished s0)) eqn:Ek; [|discriminate]. apply mem_nat_In in Ek.
        injection E as <-. psimp.
        assert (Hp : forall x, In x (unfinished s0 ++ remove_one k (finished s0)) -> In x (unfinished s0 ++ finished s0)).
        { intros x Hx. apply in_app_iff in Hx as [Hx|Hx]; apply in_or_app; [auto|right; eapply remove_one_In; eauto]. }
        split; [split|].
        + apply NoDup_app_iff_l in Hnd as (A & B & C). apply NoDup_app_iff_l.
          split; [auto|split; [apply (remove_one_NoDup k _ B)|]]. intros x Hx H. apply (C x); auto. eapply remove_one_In; eauto.
        + intros x Hx. apply Hincl, Hp, Hx.
        + intros j Hj Hn. split; [auto|]. intros H. apply Hn, Hp, H. }
    destruct Hstep as [Hi2 Hj2]. destruct (IH _ _ Hi2 Hr0) as [Hi3 Hj3]. split; [auto|].
    intros j Hj Hn. destruct (Hj2 j Hj Hn). auto. }
  assert (H0 : NoDup (unfinished (init n) ++ finished (init n)) /\ incl (unfinished (init n) ++ finished (init n)) (used (init n)))
    by (cbn; split; [constructor|intros x []]).
  destruct (Hinv _ _ _ H0 Hr) as [[Hnd Hincl] _].
  destruct (run_accounted _ _ _ (init_accounted n) Hr) as [[Hacc _] _].
  cbn [step] in Hs. destruct (mem_nat i (finished s)) eqn:Em; [|discriminate]. apply mem_nat_In in Em.
  pose proof (remove_one_length _ _ Em) as Hl.
  assert (Hlt : (permits s <? limit s) = true) by (apply Nat.ltb_lt; lia).
  injection Hs as <-. psimp. rewrite Hlt. split; [reflexivity|split; [reflexivity|split; [reflexivity|]]].
  intros es' s'' Hr'.
  apply NoDup_app_iff_l in Hnd as (A & B & C).
  destruct (remove_one_NoDup i _ B) as [B1 B2].
  assert (Hi : ~ In i (unfinished s)) by (intros H; apply (C i); auto).
  edestruct Hinv as [_ Hj]; [|exact Hr'|].
  - cbn. split; [apply NoDup_app_iff_l; split; [auto|split; [auto|]]|].
    + intros x Hx H. apply (C x); auto. eapply remove_one_In; eauto.
    + intros x Hx. apply in_app_iff in Hx as [Hx|Hx]; apply Hincl, in_or_app; [auto|right; eapply remove_one_In; eauto].
  - destruct (Hj i) as [_ Hn].
    + cbn. apply Hincl, in_or_app; auto.
    + cbn. rewrite in_app_iff. tauto.
    + cbn [step]. destruct (mem_nat i (finished s'')) eqn:E; [|reflexivity].
      apply mem_nat_In in E. exfalso. apply Hn, in_or_app; auto.
Qed.
Print Assumptions C47_finished_frees_one_slot.

(** With a positive limit, as long as fewer than [n] submissions failed,
    submission can always proceed after the tasks in flight finish: a blocked
    state has a task or a callback under way, and with nothing under way a
    submission is possible. *)
Theorem C47_never_blocked_forever_partial : forall n es s, run (init n) es = Some s -> lost s < n ->
  (step s Acquire = None ->
     0 < holding s \/ (exists i, In i (unfinished s)) \/ (exists i, In i (finished s))) /\
  (holding s = 0 -> exists es' s', run s es' = Some s' /\ step s' Acquire <> None /\
     Forall (fun e => match e with Complete _ | Callback _ => True | _ => False end) es').
Proof.
  intros n es s Hr Hlost. destruct (run_accounted _ _ _ (init_accounted n) Hr) as [[H1 H2] L]. cbn in L.
  split.
  - intros Hb. cbn in Hb. destruct (permits s) eqn:Ep; [|discriminate].
    destruct (unfinished s) as [|x l]; [|right; left; exists x; left; auto].
    destruct (finished s) as [|x l]; [|right; right; exists x; left; auto]. cbn in H1. lia.
  - intros Hh. destruct (permits s) as [|p] eqn:Ep.
    + destruct (finished s) as [|x l] eqn:Ef.
      * destruct (unfinished s) as [|x l] eqn:Eu; [cbn in H1; lia|].
        exists [Complete x; Callback x].
        assert (Hm : mem_nat x (x :: l) = true) by (apply mem_nat_In; left; auto).
        cbn [run step]. rewrite Eu, Hm. cbn [finished]. rewrite Ef.
        assert (Hm2 : mem_nat x [x] = true) by (apply mem_nat_In; left; auto). rewrite Hm2.
        eexists. split; [reflexivity|]. split; [|repeat constructor].
        cbn [step permits]; psimp. rewrite Ep. assert (Hlt : (0 <? limit s) = true) by (apply Nat.ltb_lt; lia). rewrite Hlt. discriminate.
      * exists [Callback x]. assert (Hm : mem_nat x (x :: l) = true) by (apply mem_nat_In; left; auto).
        cbn [run step]. rewrite Ef, Hm.
        eexists. split; [reflexivity|]. split; [|repeat constructor].
        cbn [step permits]; psimp. rewrite Ep. assert (Hlt : (0 <? limit s) = true) by (apply Nat.ltb_lt; lia). rewrite Hlt. discriminate.
    + exists [], s. split; [reflexivity|]. split; [cbn; rewrite Ep; discriminate|constructor].
Qed.
Print Assumptions C47_never_blocked_forever_partial.

Lemma lost_monotone : forall es s s', run s es = Some s' -> lost s <= lost s'.
Proof.
  induction es as [|e es IH]; intros s s' H; cbn in H; [injection H as <-; lia|].
  destruct (step s e) as [s1|] eqn:E; [|discriminate]. apply IH in H.
  assert (lost s <= lost s1); [|lia].
  destruct e as [|i| |i|i]; cbn [step] in E.
  - destruct (permits s); [discriminate|]. injection E as <-. cbn. lia.
  - destruct (holding s); [discriminate|]. destruct (mem_nat i (used s)); [discriminate|]. injection E as <-. cbn. lia.
  - destruct (holding s); [discriminate|]. injection E as <-. cbn. lia.
  - destruct (mem_nat i (unfinished s)); [|discriminate]. injection E as <-. cbn. lia.
  - destruct (mem_nat i (finished s)); [|discriminate]. injection E as <-. cbn. lia.
Qed.

(** A submission that raises keeps its permit: after [n] of them every later
    submission blocks forever, whatever finishes. *)
Theorem C47_failed_submissions_block_refuted : forall n, exists es s,
  run (init n) es = Some s /\ unfinished s = [] /\ finished s = [] /\
  forall es' s', run s es' = Some s' -> step s' Acquire = None.
Proof.
  intros n.
  assert (H : forall m k l f, run {| limit := l; permits := m + k; holding := 0; unfinished := []; finished := [];
      lost := f; used := []; over_released := false |} (concat (repeat [Acquire; EnqueueRaises] m)) =
    Some {| limit := l; permits := k; holding := 0; unfinished := []; finished := [];
      lost := m + f; used := []; over_released := false |}).
  { induction m as [|m IH]; intros k l f; [reflexivity|].
    cbn [repeat concat app Nat.add run step permits holding limit unfinished finished lost used over_released].
    rewrite IH. repeat f_equal. lia. }
  specialize (H n 0 n 0). rewrite !Nat.add_0_r in H.
  exists (concat (repeat [Acquire; EnqueueRaises] n)). eexists. split; [exact H|].
  split; [reflexivity|split; [reflexivity|]].
  intros es' s' Hr. pose proof (lost_monotone _ _ _ Hr) as Hl. cbn in Hl.
  edestruct run_accounted as [[A _] L]; [|exact Hr|].
  - split; [cbn; lia|reflexivity].
  - cbn in L. cbn. destruct (permits s'); [reflexivity|lia].
Qed.
Print Assumptions C47_failed_submissions_block_refuted.

(** The limit is the number given, or the number of workers; a negative one is
    refused, but zero is accepted and then nothing can ever be submitted. *)
Theorem C47_limit_of_new_pool : forall workers,
  create workers None = Ok (init workers) /\
  (forall w, (w < 0)%Z -> create workers (Some w) = Raise EValue) /\
  (forall w, (0 <= w)%Z -> create workers (Some w) = Ok (init (Z.to_nat w))).
Proof.
  intros workers. split; [reflexivity|split]; intros w Hw; cbn.
  - apply Z.ltb_lt in Hw. now rewrite Hw.
  - apply Z.ltb_ge in Hw. now rewrite Hw.
Qed.
Print Assumptions C47_limit_of_new_pool.

Theorem C47_zero_limit_blocks_refuted : forall workers, exists s,
  create workers (Some 0%Z) = Ok s /\ forall es s', run s es = Some s' -> step s' Acquire = None.
Proof.
  intros workers. exists (init 0). split; [reflexivity|]. intros es s' H.
  destruct (run_accounted _ _ _ (init_accounted 0) H) as [[A _] L]. cbn in L. cbn.
  destruct (permits s'); [reflexivity|lia].
Qed.
Print Assumptions C47_zero_limit_blocks_refuted.

Example C47_nonvacuous :
  let s := {| limit := 2; permits := 0; holding := 0; unfinished := [2; 0]; finished := []; lost := 0;
              used := [2; 1; 0]; over_released := false |} in
  run (init 2) [Acquire; Enqueue 0; Acquire; Enqueue 1; Complete 1; Callback 1; Acquire; Enqueue 2] = Some s /\
  step s Acquire = None /\ lost s < 2.
Proof. repeat split; cbn; auto. Qed.

(** * C48 *)
Lemma chunks_concat : forall A (m k : nat) (l : list A), 0 < m -> List.length l <= k * m ->
  concat (map (fun j => firstn m (skipn (j * m) l)) (seq 0 k)) = l.
Proof.
  intros A m k. induction k as [|k IH]; intros l Hm Hl.
  - destruct l; [reflexivity|cbn in Hl; lia].
  - cbn [seq map concat]. rewrite <- seq_shift, map_map. cbn [Nat.mul skipn].
    transitivity (firstn m l ++ skipn m l); [|apply firstn_skipn]. f_equal.
    transitivity (concat (map (fun j => firstn m (skipn (j * m) (skipn m l))) (seq 0 k))).
    + f_equal. apply map_ext. intros j. rewrite skipn_skipn'. f_equal. f_equal. lia.
    + apply IH; [auto|]. rewrite skipn_length. cbn in Hl. lia.
Qed.

Lemma ceil_div_bound : forall len m, 0 < m -> len <= (len + m - 1) / m * m /\ (len + m - 1) / m * m < len + m.
Proof.
  intros len m Hm. pose proof (Nat.div_mod (len + m - 1) m ltac:(lia)) as H.
  pose proof (Nat.mod_upper_bound (len + m - 1) m ltac:(lia)). lia.
Qed.

(** C48: for a positive chunk size the chunks, in order, make up the list;
    every chunk has between 1 and n elements and all but the last exactly n. *)
Theorem C48_chunks : forall (A : Type) (l : list A) n, (0 < n)%Z ->
  exists chunks, divide_chunks l n = Ok chunks /\
    concat chunks = l /\
    Forall (fun c => 0 < List.length c /\ (Z.of_nat (List.length c) <= n)%Z) chunks /\
    forall i c, nth_error chunks i = Some c -> S i < List.length chunks -> Z.of_nat (List.length c) = n.
Proof.
  intros A l n Hn. unfold divide_chunks.
  assert (E1 : (n =? 0)%Z = false) by (apply Z.eqb_neq; lia).
  assert (E2 : (n <? 0)%Z = false) by (apply Z.ltb_ge; lia). rewrite E1, E2.
  assert (Zm : Z.of_nat (Z.to_nat n) = n) by lia.
  set (m := Z.to_nat n) in *. assert (Hm : 0 < m) by lia. clearbody m.
  destruct (ceil_div_bound (List.length l) m Hm) as [B1 B2].
  eexists. split; [reflexivity|]. split; [apply chunks_concat; auto|].
  assert (Hlen : forall k, List.length (firstn m (skipn (k * m) l)) = Nat.min m (List.length l - k * m))
    by (intros; rewrite firstn_length, skipn_length; reflexivity).
  set (K := (List.length l + m - 1) / m) in *. clearbody K.
  assert (Hk : forall k, k < K -> k * m + m <= K * m).
  { intros k H. replace (k * m + m) with (S k * m) by lia. apply Nat.mul_le_mono_r. lia. }
  split.
  - apply Forall_forall. intros c Hc. apply in_map_iff in Hc as (k & <- & Hin). apply in_seq in Hin.
    rewrite Hlen. specialize (Hk k ltac:(lia)). split; lia.
  - intros i c Hc Hi. rewrite map_length, seq_length in Hi.
    rewrite nth_error_map in Hc. destruct (nth_error (seq 0 K) i) as [k|] eqn:Ek; [|discriminate].
    injection Hc as <-. pose proof Ek as Ek'. apply nth_error_nth with (d := 0) in Ek'.
    rewrite seq_nth in Ek' by lia. cbn in Ek'. subst k. rewrite Hlen.
    specialize (Hk (S i) ltac:(lia)). cbn in Hk. lia.
Qed.
Print Assumptions C48_chunks.

Lemma enumerate_snd : forall A (l : list A), map snd (enumerate l) = l.
Proof.
  intros A l. unfold enumerate. generalize 0. induction l as [|x l IH]; intros n; cbn; [reflexivity|].
  now rewrite IH.
Qed.

(** Every configuration of the sweep is submitted exactly once, in order. *)
Theorem C48_every_configuration_submitted_once : forall (A : Type) (confs : list A) n, (0 < n)%Z ->
  exists subs, submissions confs n = Ok subs /\ map snd subs = confs.
Proof.
  intros A confs n Hn. destruct (C48_chunks A confs n Hn) as (chunks & E & Hc & _).
  unfold submissions. rewrite E. cbn [rbind]. eexists. split; [reflexivity|].
  rewrite concat_map, map_map.
  transitivity (concat (map snd (enumerate chunks))); [|now rewrite enumerate_snd].
  f_equal. apply map_ext. intros [k c]. cbn [fst snd]. rewrite map_map. cbn [snd]. apply enumerate_snd.
Qed.
Print Assumptions C48_every_configuration_submitted_once.

(** Instance numbers restart in every chunk: with more than one chunk two
    configurations of a sweep run under the same instance number. *)
Theorem C48_instance_numbers_repeat_refuted : forall (A : Type) (confs : list A) n,
  (0 < n)%Z -> (n < Z.of_nat (List.length confs))%Z ->
  exists subs k1 c1 k2 c2, submissions confs n = Ok subs /\ k1 <> k2 /\
    In (k1, 0, c1) subs /\ In (k2, 0, c2) subs.
Proof.
  intros A confs n Hn Hlt. destruct (C48_chunks A confs n Hn) as (chunks & E & Hc & Hf & _).
  unfold submissions. rewrite E. cbn [rbind].
  destruct chunks as [|ch1 [|ch2 chunks]].
  - cbn in Hc. subst confs. cbn in Hlt. lia.
  - cbn in Hc. rewrite app_nil_r in Hc. subst ch1. inversion Hf; subst. lia.
  - inversion Hf as [|? ? [L1 _] Hf2]; subst. inversion Hf2 as [|? ? [L2 _] _]; subst.
    destruct ch1 as [|c1 ch1]; [cbn in L1; lia|]. destruct ch2 as [|c2 ch2]; [cbn in L2; lia|].
    eexists. exists 0, c1, 1, c2. split; [reflexivity|]. split; [discriminate|].
    cbn [List.length enumerate seq combine map concat fst snd app]. split; [left; reflexivity|].
    right. apply in_or_app. right. left. reflexivity.
Qed.
Print Assumptions C48_instance_numbers_repeat_refuted.

(** Chunk sizes the schema does not permit: zero raises, negative ones lose
    all configurations. *)
Theorem C48_bad_sizes : forall (A : Type) (l : list A) n,
  divide_chunks l 0 = Raise EValue /\ ((n < 0)%Z -> divide_chunks l n = Ok []).
Proof.
  intros A l n. split; [reflexivity|]. intros H. unfold divide_chunks.
  assert (E1 : (n =? 0)%Z = false) by (apply Z.eqb_neq; lia).
  assert (E2 : (n <? 0)%Z = true) by (apply Z.ltb_lt; lia). now rewrite E1, E2.
Qed.
Print Assumptions C48_bad_sizes.

Example C48_nonvacuous :
  divide_chunks [1; 2; 3; 4; 5] 2 = Ok [[1; 2]; [3; 4]; [5]] /\
  submissions [10; 20; 30] 2 = Ok [(0, 0, 10); (0, 1, 20); (1, 0, 30)].
Proof. split; reflexivity. Qed.

(** * C81 *)
(** A sequential sweep runs the configurations in order up to and including
    the first failing one, and fails exactly when there is one. *)
Theorem C81_sequential_exact : forall (A : Type) (succeeds : A -> bool) confs,
  (Forall (fun c => succeeds c = true) confs /\ run_sequential succeeds confs = (confs, Ok tt)) \/
  (exists before c after, confs = before ++ c :: after /\
     Forall (fun c => succeeds c = true) before /\ succeeds c = false /\
     run_sequential succeeds confs = (before ++ [c], Raise EExn)).
Proof.
  intros A succeeds confs. induction confs as [|c confs IH]; [left; split; [constructor|reflexivity]|].
  cbn [run_sequential]. destruct (succeeds c) eqn:Ec.
  - destruct IH as [[H1 H2]|(b & x & a & -> & H1 & H2 & H3)].
    + left. rewrite H2. split; [constructor; auto|reflexivity].
    + right. exists (c :: b), x, a. rewrite H3. repeat split; auto.
  - right. exists [], c, confs. repeat split; auto.
Qed.
Print Assumptions C81_sequential_exact.

(** A concurrent sweep runs every configuration whatever fails ... *)
Theorem C81_concurrent_runs_all : forall (A : Type) (succeeds : A -> bool) confs n, (0 < n)%Z ->
  run_concurrent succeeds confs n = Ok confs.
Proof.
  intros A succeeds confs n Hn. destruct (C48_every_configuration_submitted_once A confs n Hn) as (subs & E & H).
  unfold run_concurrent. rewrite E. cbn [rbind]. now rewrite H.
Qed.
Print Assumptions C81_concurrent_runs_all.

(** ... but reports no failure, where the sequential one does. *)
Theorem C81_concurrent_silent_refuted : exists (succeeds : nat -> bool) confs,
  snd (run_sequential succeeds confs) = Raise EExn /\
  is_ok (run_concurrent succeeds confs 1) = true.
Proof. exists (fun _ => false), [0]. split; reflexivity. Qed.
Print Assumptions C81_concurrent_silent_refuted.

Example C81_nonvacuous :
  run_sequential (fun c => negb (Nat.eqb c 2)) [1; 2; 3] = ([1; 2], Raise EExn) /\
  run_sequential (fun _ => true) [1; 2; 3] = ([1; 2; 3], Ok tt).
Proof. split; reflexivity. Qed.

(** * C60 *)
Fixpoint prun (s : board) (es : list pevent) : option board :=
  match es with
  | [] => Some s
  | e :: es' => match pstep s e with Some s' => prun s' es' | None => None end
  end.

(** A prompt schedule: no run fails and a worker starts only when fewer than
    [n] positions are held by running workers or not yet given back. *)
Fixpoint prompt (n : nat) (s : board) (es : list pevent) : Prop :=
  match es with
  | [] => True
  | e :: es' =>
    match e with
    | Claim _ => List.length (active s) + List.length (ending s) < n
    | End _ ok => ok = true
    | Free _ => True
    end /\ match pstep s e with Some s' => prompt n s' es' | None => True end
  end.

Definition held (s : board) : list nat := map snd (active s) ++ map (fun x => snd (fst x)) (ending s).

Lemma set_slot_nth : forall i j b l, nth j (set_slot i b l) true =
  if (Nat.eqb i j && (i <? List.length l))%bool then b else nth j l true.
Proof.
  intros i j b l. revert i j. induction l as [|x l IH]; intros i j; cbn [set_slot List.length].
  - destruct i; rewrite andb_false_r; reflexivity.
  - destruct i as [|i], j as [|j]; cbn [nth]; try reflexivity. apply IH.
Qed.

Lemma set_slot_length : forall i b l, List.length (set_slot i b l) = List.length l.
Proof. intros i b l. revert i. induction l as [|x l IH]; intros [|i]; cbn; auto. Qed.

Lemma position_index_Some : forall l i, position_index l = Some i ->
  i < List.length l /\ nth i l true = false /\ forall j, j < i -> nth j l true = true.
Proof.
  induction l as [|[] l IH]; intros i H; cbn in H.
  - discriminate.
  - destruct (position_index l) as [k|] eqn:E; [|discriminate]. injection H as <-.
    destruct (IH k eq_refl) as (H1 & H2 & H3). cbn. split; [lia|split; [auto|]].
    intros [|j] Hj; [reflexivity|]. apply H3. lia.
  - injection H as <-. cbn. split; [lia|split; [reflexivity|]]. intros j Hj; lia.
Qed.

Lemma position_index_None : forall l, position_index l = None -> forall j, nth j l true = true.
Proof.
  induction l as [|[] l IH]; intros H j; cbn in H.
  - destruct j; reflexivity.
  - destruct (position_index l) eqn:E; [discriminate|]. destruct j; cbn; auto.
  - discriminate.
Qed.

Lemma take_active_spec : forall w l p r, take_active w l = Some (p, r) ->
  In (w, p) l /\ exists a b, l = a ++ (w, p) :: b /\ r = a ++ b.
Proof.
  intros w l. induction l as [|[w' p'] l IH]; intros p r H; cbn in H; [discriminate|].
  destruct (Nat.eqb_spec w w') as [->|Hne].
  - injection H as <- <-. split; [left; auto|]. exists [], l. auto.
  - destruct (take_active w l) as [[p2 r2]|]; [|discriminate]. injection H as <- <-.
    destruct (IH _ _ eq_refl) as (H1 & a & b & -> & ->). split; [right; auto|].
    exists ((w', p') :: a), b. auto.
Qed.

Lemma take_ending_spec : forall w l p b r, take_ending w l = Some (p, b, r) ->
  exists x y, l = x ++ (w, p, b) :: y /\ r = x ++ y.
Proof.
  intros w l. induction l as [|[[w' p'] b'] l IH]; intros p b r H; cbn in H; [discriminate|].
  destruct (Nat.eqb_spec w w') as [->|Hne].
  - injection H as <- <- <-. exists [], l. auto.
  - destruct (take_ending w l) as [[[p2 b2] r2]|]; [|discriminate]. injection H as <- <- <-.
    destruct (IH _ _ _ eq_refl) as (a & c & -> & ->). exists ((w', p', b') :: a), c. auto.
Qed.

Record board_ok (n : nat) (s : board) : Prop := {
  b_len : List.length (slots s) = n;
  b_nodup : NoDup (held s);
  b_slots : forall i, i < n -> (nth i (slots s) true = true <-> In i (held s));
  b_range : forall i, In i (held s) -> i < n;
  b_okflags : Forall (fun x => snd x = true) (ending s)
}.

Lemma NoDup_bounded_length : forall n (l : list nat), NoDup l -> (forall i, i < n -> In i l) ->
  n <= List.length l.
Proof.
  intros n l Hl H. rewrite <- (seq_length n 0). apply NoDup_incl_length; [apply seq_NoDup|].
  intros i Hi. apply in_seq in Hi. apply H. lia.
Qed.

Lemma NoDup_middle : forall A (a b : list A) x, NoDup (a ++ x :: b) <-> NoDup (x :: a ++ b).
Proof.
  intros A a b x. split; intros H.
  - constructor; [now apply NoDup_remove_2|now apply NoDup_remove_1 with x].
  - inversion H; subst. clear H. induction a as [|y a IH]; cbn in *; [constructor; auto|].
    inversion H3; subst. constructor.
    + rewrite in_app_iff in *. cbn. intuition.
    + apply IH; auto.
Qed.

Lemma pstep_ok : forall n s e s', board_ok n s -> pstep s e = Some s' ->
  match e with
  | Claim _ => List.length (active s) + List.length (ending s) < n
  | End _ ok => ok = true
  | Free _ => True
  end -> board_ok n s'.
Proof.
  intros n s e s' [L ND SL RG FL] Hs Hp. destruct e as [w|w ok|w]; cbn [pstep] in Hs.
  - destruct (position_index (slots s)) as [i|] eqn:Ei.
    + destruct (position_index_Some _ _ Ei) as (H1 & H2 & H3). injection Hs as <-.
      assert (Hni : ~ In i (held s)).
      { rewrite <- SL by lia. congruence. }
      constructor; unfold held in *; cbn [slots active ending map snd].
      * now rewrite set_slot_length.
      * cbn [app]. constructor; auto.
      * intros j Hj. rewrite set_slot_nth. destruct (Nat.eqb_spec i j) as [<-|Hne].
        -- assert (E : (i <? List.length (slots s)) = true) by (apply Nat.ltb_lt; lia). rewrite E. cbn. tauto.
        -- cbn [andb]. rewrite (SL j Hj). cbn. intuition congruence.
      * intros j [<-|Hj]; [lia|auto].
      * auto.
    + exfalso. pose proof (position_index_None _ Ei) as Hall.
      pose proof (NoDup_bounded_length n (held s) ND) as Hle.
      assert (n <= List.length (held s)) by (apply Hle; intros i Hi; apply SL; auto).
      unfold held in H. rewrite app_length, !map_length in H. lia.
  - destruct (take_active w (active s)) as [[p r]|] eqn:Et; [|discriminate]. injection Hs as <-.
    apply take_active_spec in Et as (_ & a & b & Ea & ->). subst ok.
    assert (Hheld : forall i, In i (held {| slots := slots s; active := a ++ b; ending := (w, p, true) :: ending s |}) <-> In i (held s)).
    { intros i. unfold held. cbn [active ending map fst snd]. rewrite Ea, !map_app, !in_app_iff. cbn [map snd In]. tauto. }
    constructor; cbn [slots active ending]; auto.
    * unfold held in *. cbn [active ending map fst snd]. rewrite Ea, map_app in ND. cbn [map snd] in ND.
      rewrite map_app. apply NoDup_middle. rewrite <- app_assoc in ND. cbn [app] in ND.
      apply NoDup_middle in ND. now rewrite <- app_assoc.
    * intros i Hi. rewrite Hheld. auto.
    * intros i Hi. apply RG, Hheld, Hi.
  - destruct (take_ending w (ending s)) as [[[p ok] r]|] eqn:Et; [|discriminate]. injection Hs as <-.
    apply take_ending_spec in Et as (a & b & Ea & ->).
    assert (ok = true).
    { rewrite Ea in FL. apply Forall_app in FL as [_ FL]. inversion FL; auto. }
    subst ok.
    assert (Hmid : NoDup (p :: held {| slots := set_slot p false (slots s); active := active s; ending := a ++ b |}) /\
      forall i, In i (held s) <-> i = p \/ In i (held {| slots := set_slot p false (slots s); active := active s; ending := a ++ b |})).
    { unfold held in *. cbn [active ending]. rewrite Ea in *. rewrite !map_app in *. cbn [map fst snd] in *. split.
      - rewrite app_assoc in ND |- *. now apply NoDup_middle in ND.
      - intros i. rewrite !in_app_iff. cbn [In]. intuition. }
    destruct Hmid as [Hnd Hin]. inversion Hnd as [|? ? Hnp Hnd']. subst x l.
    assert (Hpn : p < n) by (apply RG, Hin; auto).
    constructor; cbn [slots active ending]; auto.
    * now rewrite set_slot_length.
    * intros i Hi. rewrite set_slot_nth. destruct (Nat.eqb_spec p i) as [<-|Hne].
      -- assert (E : (p <? List.length (slots s)) = true) by (apply Nat.ltb_lt; lia). rewrite E. cbn [andb].
         split; [discriminate|intros H; exfalso; exact (Hnp H)].
      -- cbn [andb]. rewrite (SL i Hi), Hin. intuition congruence.
    * intros i Hi. apply RG, Hin. auto.
    * rewrite Ea in FL. apply Forall_app in FL as [F1 F2]. inversion F2; subst. apply Forall_app. auto.
Qed.

Lemma prun_ok : forall n es s s', board_ok n s -> prompt n s es -> prun s es = Some s' -> board_ok n s'.
Proof.
  intros n es. induction es as [|e es IH]; intros s s' H Hp Hr; cbn in Hr; [injection Hr as <-; auto|].
  cbn [prompt] in Hp. destruct Hp as [Hp1 Hp2]. destruct (pstep s e) as [s1|] eqn:E; [|discriminate].
  eapply IH; [|exact Hp2|exact Hr]. eapply pstep_ok; eauto.
Qed.

Lemma board0_ok : forall n, board_ok n (board0 n).
Proof.
  intros n. constructor; unfold held; cbn [board0 slots active ending map app].
  - apply repeat_length.
  - constructor.
  - intros i Hi. split; [|intros []]. rewrite nth_indep with (d' := false) by (now rewrite repeat_length).
    rewrite nth_repeat. discriminate.
  - intros i [].
  - constructor.
Qed.

(** C60, for atomic claims in prompt schedules: the positions of workers
    running at the same time are distinct and below the number of workers, and
    a new worker gets the smallest position not held. *)
Theorem C60_positions_distinct_partial : forall n es s,
  prompt n (board0 n) es -> prun (board0 n) es = Some s ->
  NoDup (map snd (active s)) /\ Forall (fun p => p < n) (map snd (active s)) /\
  forall w s', pstep s (Claim w) = Some s' -> List.length (active s) + List.length (ending s) < n ->
    exists p, active s' = (w, p) :: active s /\ ~ In p (held s) /\ forall q, q < p -> In q (held s).
Proof.
  intros n es s Hp Hr. pose proof (prun_ok n es _ _ (board0_ok n) Hp Hr) as Hok.
  pose proof Hok as [L ND SL RG FL]. split; [|split].
  - unfold held in ND. apply NoDup_app_iff_l in ND. tauto.
  - apply Forall_forall. intros p Hin. apply RG. unfold held. apply in_or_app. auto.
  - intros w s' Hs Hlt. cbn [pstep] in Hs. destruct (position_index (slots s)) as [i|] eqn:Ei.
    + destruct (position_index_Some _ _ Ei) as (H1 & H2 & H3). injection Hs as <-. exists i.
      split; [reflexivity|split].
      * rewrite <- SL by lia. congruence.
      * intros q Hq. apply SL; [lia|auto].
    + exfalso. pose proof (position_index_None _ Ei) as Hall.
      assert (n <= List.length (held s)) by (apply NoDup_bounded_length; auto; intros i Hi; apply SL; auto).
      unfold held in H. rewrite app_length, !map_length in H. lia.
Qed.
Print Assumptions C60_positions_distinct_partial.

(** A position given back is the one reused when it is the smallest. *)
Theorem C60_position_reused : forall s s1 s2 w p r w',
  take_ending w (ending s) = Some (p, true, r) -> p < List.length (slots s) ->
  (forall q, q < p -> nth q (slots s) true = true) ->
  pstep s (Free w) = Some s1 -> pstep s1 (Claim w') = Some s2 ->
  active s2 = (w', p) :: active s.
Proof.
  intros s s1 s2 w p r w' Ht Hp Hq H1 H2. cbn [pstep] in H1. rewrite Ht in H1. injection H1 as <-.
  cbn [pstep slots active] in H2.
  assert (E : position_index (set_slot p false (slots s)) = Some p).
  { clear -Hp Hq. revert p Hp Hq. induction (slots s) as [|x l IH]; intros p Hp Hq; cbn in Hp; [lia|].
    destruct p as [|p]; [reflexivity|]. cbn [set_slot position_index].
    rewrite (Hq 0 ltac:(lia)) || (specialize (Hq 0 ltac:(lia)) as Hx; cbn in Hx; subst x).
    rewrite IH; [reflexivity|lia|]. intros q Hlt. apply (Hq (S q)). lia. }
  rewrite E in H2. injection H2 as <-. reflexivity.
Qed.
Print Assumptions C60_position_reused.

(** The executor frees its permit before the position is given back, so a
    third worker can start in between and gets position 0 although the worker
    at position 0 is running; at most n workers run at any time. *)
Theorem C60_late_release_refuted : exists es s, prun (board0 2) es = Some s /\
  List.length (active s) <= 2 /\ ~ NoDup (map snd (active s)).
Proof.
  exists [Claim 1; Claim 2; End 2 true; Claim 3]. eexists. split; [reflexivity|]. cbn. split; [lia|].
  intros H. inversion H as [|? ? Hn _]. apply Hn. left. reflexivity.
Qed.
Print Assumptions C60_late_release_refuted.

(** A failed run never gives its position back: even with prompt callbacks a
    later worker shares a position. *)
Theorem C60_failed_run_refuted : exists es s, prun (board0 2) es = Some s /\
  ending s = [] /\ List.length (active s) <= 2 /\ ~ NoDup (map snd (active s)).
Proof.
  exists [Claim 1; Claim 2; End 2 false; Free 2; Claim 3]. eexists. split; [reflexivity|]. cbn.
  split; [reflexivity|split; [lia|]].
  intros H. inversion H as [|? ? Hn _]. apply Hn. left. reflexivity.
Qed.
Print Assumptions C60_failed_run_refuted.

(** The claim is in fact two steps; two workers looking before either marks
    get the same position. *)
Theorem C60_interleaved_claims_refuted : forall n, 0 < n ->
  let s := fold_left nstep [Look 1; Look 2; Mark 1; Mark 2] (repeat false n, []) in
  snd s = [(2, Some 0); (1, Some 0)].
Proof. intros [|n] H; [lia|]. reflexivity. Qed.
Print Assumptions C60_interleaved_claims_refuted.

Example C60_nonvacuous : exists s,
  let es := [Claim 1; Claim 2; End 1 true; Free 1; Claim 3] in
  prompt 2 (board0 2) es /\ prun (board0 2) es = Some s /\ active s = [(3, 0); (2, 1)].
Proof. eexists. cbn. repeat split; lia. Qed.
