(** Proofs about the hyper-parameter search (model: Trials). *)
From Coq Require Import String List ZArith Lia Bool Arith QArith.
From Verif Require Import Base PyMonad Inputs InputsProps Summaries CommandLine Learning CollectionsProps LearningProps StartUpHyper HandlerProps Trials.
Import ListNotations.
Local Open Scope string_scope.
Local Open Scope nat_scope.
Local Open Scope list_scope.

Lemma nth_error_upd_same : forall A (f : A -> A) i l x, nth_error l i = Some x -> nth_error (upd_nth i f l) i = Some (f x).
Proof. intros A f i l; revert i; induction l as [|y l IH]; intros [|i] x H; cbn in *; try congruence; auto. Qed.
Lemma nth_error_upd_diff : forall A (f : A -> A) i j l, i <> j -> nth_error (upd_nth i f l) j = nth_error l j.
Proof. intros A f i j l; revert i j; induction l as [|x l IH]; intros [|i] [|j] H; cbn; auto; try congruence. Qed.

Notation report := (nat * nat * Q)%type.
Section SearchProofs.
  Variable N : nat.
  Hypothesis HN : 0 < N.
  Variable metric : nat -> nat -> nat -> Q.
  Variable step_of : nat -> nat.
  Variable should_prune : list report -> nat -> bool.
  Let step := step N metric step_of should_prune.
  Let steps := steps N metric step_of should_prune.

  (** Specification: the metric of trial [t] in iteration [i], computed on the
      model built for [t] itself, called once per iteration; its reports. *)
  Definition own (t i : nat) : Q := metric t i i.
  Definition reports_of (t : nat) (l : list report) : list report := filter (fun r => fst (fst r) =? t) l.
  Definition told (t k : nat) : list report :=
    fold_left (fun l i => add_report t (step_of i) (own t i) l) (seq 0 k) [].

  Lemma reports_of_add : forall t s v l, reports_of t (add_report t s v l) = add_report t s v (reports_of t l).
  Proof.
    intros t s v l. unfold add_report.
    assert (E : existsb (fun r : report => (fst (fst r) =? t) && (snd (fst r) =? s)) (reports_of t l) =
                existsb (fun r : report => (fst (fst r) =? t) && (snd (fst r) =? s)) l).
    { induction l as [|r l IH]; [reflexivity|]. cbn [reports_of filter existsb]. destruct (fst (fst r) =? t) eqn:T.
      - cbn [existsb]. rewrite T. fold (reports_of t l). rewrite IH. reflexivity.
      - cbn [andb orb]. exact IH. }
    rewrite E. destruct (existsb _ l); [reflexivity|]. unfold reports_of. rewrite filter_app. cbn [filter fst].
    rewrite Nat.eqb_refl. reflexivity.
  Qed.
  Lemma reports_of_other : forall t t' s v l, t <> t' -> reports_of t' (add_report t s v l) = reports_of t' l.
  Proof.
    intros t t' s v l H. unfold add_report. destruct (existsb _ l); [reflexivity|]. unfold reports_of. rewrite filter_app.
    cbn [filter fst]. destruct (Nat.eqb_spec t t'); [congruence|]. apply app_nil_r.
  Qed.
  Lemma told_S : forall t k, told t (S k) = add_report t (step_of k) (own t k) (told t k).
  Proof. intros t k. unfold told. rewrite seq_S, fold_left_app. reflexivity. Qed.
  Lemma metrics_S : forall t k, map (own t) (seq 0 k) ++ [own t k] = map (own t) (seq 0 (S k)).
  Proof. intros t k. rewrite seq_S, map_app. reflexivity. Qed.

  Definition good (s : world) (t : nat) (p : place) (ms : list Q) : Prop :=
    match p with
    | Predict i => i < N /\ ms = map (own t) (seq 0 i) /\ reports_of t (reports s) = told t i /\ calls s t = i
    | Tell i v => i < N /\ v = own t i /\ ms = map (own t) (seq 0 i) /\ reports_of t (reports s) = told t i /\ calls s t = S i
    | Complete v => ms = map (own t) (seq 0 N) /\ v = mean ms /\ reports_of t (reports s) = told t N
    | Pruned => exists i, i < N /\ ms = map (own t) (seq 0 i) /\ reports_of t (reports s) = told t (S i)
    end.
  Definition inv (s : world) : Prop :=
    (forall t p ms, nth_error (trials s) t = Some (p, ms) -> good s t p ms /\ (active (p, ms) = true -> S t = List.length (trials s))) /\
    (trials s <> [] -> S (model s) = List.length (trials s)) /\
    (forall t, List.length (trials s) <= t -> reports_of t (reports s) = [] /\ calls s t = 0).

  Lemma inv_step : forall w s e s', w <= 1 -> inv s -> step w s e = Some s' -> inv s'.
  Proof.
    intros w s e s' Hw (H1 & H2 & H3) E. unfold step in E. destruct e as [|t]; cbn [Trials.step] in E.
    - destruct (Nat.ltb_spec (List.length (filter active (trials s))) w) as [L|]; [|discriminate]. injection E as <-.
      assert (Hna : forall t p ms, nth_error (trials s) t = Some (p, ms) -> active (p, ms) = false).
      { intros t p ms Hn. destruct (active (p, ms)) eqn:A; [|reflexivity]. exfalso.
        assert (Hi : In (p, ms) (filter active (trials s))) by (apply filter_In; split; [eapply nth_error_In; exact Hn|exact A]).
        destruct (filter active (trials s)); [destruct Hi|cbn in L; lia]. }
      split; [|split].
      + intros t p ms Hn. cbn [trials] in *. destruct (Nat.lt_ge_cases t (List.length (trials s))) as [Lt|Ge].
        * rewrite nth_error_app1 in Hn by exact Lt. destruct (H1 t p ms Hn) as [G _]. split; [exact G|].
          intro A. rewrite (Hna t p ms Hn) in A. discriminate.
        * rewrite nth_error_app2 in Hn by exact Ge.
          destruct (t - List.length (trials s)) as [|k] eqn:Ek; [|destruct k; discriminate].
          assert (t = List.length (trials s)) by lia. subst t. cbn in Hn. injection Hn as <- <-.
          destruct (H3 _ (le_n _)) as [R C]. split; [|intros _; rewrite app_length; cbn; lia].
          unfold good. cbn [reports calls]. repeat split; auto.
      + cbn [trials model]. intros _. rewrite app_length. cbn. lia.
      + cbn [trials reports calls]. intros t Ht. rewrite app_length in Ht. cbn in Ht. apply H3. lia.
    - destruct (nth_error (trials s) t) as [[p ms]|] eqn:Hn; [|discriminate].
      destruct (H1 t p ms Hn) as [G A].
      assert (Hne : trials s <> []) by (intro X; rewrite X in Hn; destruct t; discriminate).
      assert (Hlt : t < List.length (trials s)) by (apply nth_error_Some; congruence).
      destruct p as [i|i v|v|]; try discriminate; injection E as <-.
      + assert (Hm : model s = t) by (specialize (A eq_refl); specialize (H2 Hne); lia). rewrite Hm.
        destruct G as (Gi & Gms & Gr & Gc). split; [|split].
        * intros t' p' ms' Hn'. cbn [trials] in Hn' |- *. rewrite upd_nth_length. destruct (Nat.eq_dec t t') as [<-|Hd].
          -- rewrite (nth_error_upd_same _ _ _ _ _ Hn) in Hn'. injection Hn' as <- <-. split; [|intros _; apply A; reflexivity].
             unfold good. cbn [reports calls]. rewrite Nat.eqb_refl, Gc. repeat split; auto.
          -- rewrite nth_error_upd_diff in Hn' by exact Hd. destruct (H1 t' p' ms' Hn') as [G' A']. split; [|exact A'].
             unfold good in *. cbn [reports calls]. destruct (Nat.eqb_spec t' t); [congruence|]. exact G'.
        * cbn [trials model]. rewrite upd_nth_length. intros _. specialize (H2 Hne). lia.
        * cbn [trials reports calls]. rewrite upd_nth_length. intros t' Ht'. destruct (Nat.eqb_spec t' t); [lia|]. apply H3. exact Ht'.
      + assert (Hm : model s = t) by (specialize (A eq_refl); specialize (H2 Hne); lia). rewrite Hm.
        destruct G as (Gi & Gv & Gms & Gr & Gc). subst v. set (rs := add_report t (step_of i) (own t i) (reports s)).
        assert (Er : reports_of t rs = told t (S i)) by (unfold rs; rewrite reports_of_add, Gr, told_S; reflexivity).
        assert (Eo : forall t', t' <> t -> reports_of t' rs = reports_of t' (reports s)).
        { intros t' Hd. unfold rs. apply reports_of_other. congruence. }
        clearbody rs. split; [|split].
        * intros t' p' ms' Hn'. cbn [trials] in Hn' |- *. rewrite upd_nth_length. destruct (Nat.eq_dec t t') as [<-|Hd].
          -- rewrite (nth_error_upd_same _ _ _ _ _ Hn) in Hn'. split; [|intros _; apply A; reflexivity].
             destruct (should_prune rs t).
             ++ injection Hn' as <- <-. unfold good. cbn [reports]. exists i. repeat split; auto.
             ++ destruct (Nat.ltb_spec (S i) N) as [L|L]; injection Hn' as <- <-; subst ms; rewrite metrics_S; unfold good; cbn [reports calls].
                ** repeat split; auto.
                ** assert (S i = N) as <- by lia. repeat split; auto.
          -- rewrite nth_error_upd_diff in Hn' by exact Hd. destruct (H1 t' p' ms' Hn') as [G' A']. split; [|exact A'].
             unfold good in *. cbn [reports calls]. rewrite Eo by congruence. exact G'.
        * cbn [trials model]. rewrite upd_nth_length. intros _. specialize (H2 Hne). lia.
        * cbn [trials reports calls]. rewrite upd_nth_length. intros t' Ht'. rewrite Eo by lia. apply H3. exact Ht'.
  Qed.

  Lemma inv_initially : inv initially.
  Proof.
    split; [|split]; cbn; auto.
    - intros [|t] p ms H; discriminate.
    - congruence.
  Qed.
  Lemma inv_steps : forall es w s s', w <= 1 -> inv s -> steps w s es = Some s' -> inv s'.
  Proof.
    induction es as [|e es IH]; intros w s s' Hw Hi H; [injection H as <-; exact Hi|].
    unfold steps in H. cbn [Trials.steps] in H. change (Trials.step N metric step_of should_prune w s e) with (step w s e) in H.
    destruct (step w s e) as [s1|] eqn:E; [|discriminate]. exact (IH w s1 s' Hw (inv_step w s e s1 Hw Hi E) H).
  Qed.

  (** ** C174: with one worker *)

  (** In every run of the search with one worker the value of a completed trial
      is the mean of the metrics of its own model, one per iteration. *)
  Theorem C174_own_model_partial : forall es s t v ms,
    steps 1 initially es = Some s -> nth_error (trials s) t = Some (Complete v, ms) ->
    v = mean (map (fun i => metric t i i) (seq 0 N)).
  Proof.
    intros es s t v ms Hs Hn. pose proof (inv_steps es 1 _ _ (le_n _) inv_initially Hs) as (H1 & _ & _).
    destruct (H1 t _ _ Hn) as [(-> & -> & _) _]. reflexivity.
  Qed.

  (** Its reports are those of its own metrics, each under its own iteration
      (models that report by iteration), complete for a completed trial. *)
  Theorem C174_own_reports_partial : forall es s t p ms,
    (forall i, step_of i = i) ->
    steps 1 initially es = Some s -> nth_error (trials s) t = Some (p, ms) ->
    exists k, k <= N /\ reports_of t (reports s) = map (fun i => ((t, i), metric t i i)) (seq 0 k) /\
      (forall v, p = Complete v -> k = N).
  Proof.
    intros es s t p ms Hid Hs Hn. pose proof (inv_steps es 1 _ _ (le_n _) inv_initially Hs) as (H1 & _ & _).
    assert (T : forall k, told t k = map (fun i => ((t, i), metric t i i)) (seq 0 k)).
    { induction k as [|k IH]; [reflexivity|]. rewrite told_S, IH, Hid, seq_S, map_app. cbn [map Nat.add]. unfold add_report.
      destruct (existsb _ _) eqn:X; [|reflexivity]. exfalso. apply existsb_exists in X as (r & Hr & X).
      apply in_map_iff in Hr as (i & <- & Hi). cbn [fst snd] in X. apply andb_true_iff in X as [_ X]. apply Nat.eqb_eq in X.
      apply in_seq in Hi. lia. }
    destruct (H1 t _ _ Hn) as [G _]. destruct p as [i|i v|v|]; cbn [good] in G.
    - exists i. rewrite <- T. repeat split; [lia|tauto|discriminate].
    - exists i. rewrite <- T. repeat split; [lia|tauto|discriminate].
    - exists N. rewrite <- T. repeat split; [lia|tauto].
    - destruct G as (i & Hi & _ & G). exists (S i). rewrite <- T. repeat split; [lia|exact G|discriminate].
  Qed.

  (** "Every iteration's metric is reported" is false of random forests and
      gradient boosting, which report every iteration as step 0: all but the
      first are ignored. *)
  Theorem C174_reports_dropped_refuted : forall es s t v ms,
    (forall i, step_of i = 0) ->
    steps 1 initially es = Some s -> nth_error (trials s) t = Some (Complete v, ms) ->
    reports_of t (reports s) = [((t, 0), metric t 0 0)].
  Proof.
    intros es s t v ms Hz Hs Hn. pose proof (inv_steps es 1 _ _ (le_n _) inv_initially Hs) as (H1 & _ & _).
    destruct (H1 t _ _ Hn) as [(_ & _ & ->) _].
    assert (T : forall k, told t (S k) = [((t, 0), metric t 0 0)]).
    { induction k as [|k IH]; [unfold told; cbn; rewrite Hz; reflexivity|]. rewrite told_S, IH, Hz. unfold add_report.
      cbn [existsb fst snd]. rewrite !Nat.eqb_refl. reflexivity. }
    destruct N as [|n]; [lia|]. apply T.
  Qed.

  (** ** C174: with several workers *)

  Hypothesis never_pruned : forall rs t, should_prune rs t = false.

  (** Trial [t] runs alone from iteration i to its end while the shared model is
      that of trial [m]. *)
  Lemma runs_on : forall n w s t m ms i c,
    n + i = N -> 0 < n -> model s = m -> calls s m = c -> nth_error (trials s) t = Some (Predict i, ms) ->
    exists s', steps w s (concat (repeat [Go t; Go t] n)) = Some s' /\ model s' = m /\ calls s' m = c + n /\
      (let vs := ms ++ map (fun k => metric m (i + k) (c + k)) (seq 0 n) in nth_error (trials s') t = Some (Complete (mean vs), vs)) /\
      (forall t', t' <> t -> nth_error (trials s') t' = nth_error (trials s) t') /\
      (forall t', t' <> m -> reports_of t' (reports s') = reports_of t' (reports s)).
  Proof.
    induction n as [|n IH]; intros w s t m ms i c Hni Hn0 Hm Hc Ht; [lia|].
    cbn [repeat List.concat app]. unfold steps. cbn [Trials.steps]. cbn [Trials.step]. rewrite Ht. cbn [trials].
    rewrite (nth_error_upd_same _ _ _ _ _ Ht). cbn [model reports]. rewrite never_pruned. rewrite Hm.
    set (v := metric m i (calls s m)).
    set (rs := add_report m (step_of i) v (reports s)).
    assert (Er : forall t', t' <> m -> reports_of t' rs = reports_of t' (reports s)).
    { intros t' Hd. unfold rs. apply reports_of_other. congruence. }
    destruct n as [|n'].
    - cbn [repeat List.concat Trials.steps]. destruct (Nat.ltb_spec (S i) N) as [L|L]; [lia|].
      eexists. split; [reflexivity|]. cbn [model calls trials reports]. rewrite Nat.eqb_refl.
      split; [reflexivity|]. split; [lia|]. split; [|split].
      + cbn [seq map]. rewrite !Nat.add_0_r. rewrite <- Hc. fold v.
        erewrite nth_error_upd_same; [reflexivity|]. erewrite nth_error_upd_same; [reflexivity|exact Ht].
      + intros t' Hd. rewrite !nth_error_upd_diff by congruence. reflexivity.
      + exact Er.
    - destruct (Nat.ltb_spec (S i) N) as [L|L]; [|lia].
      match goal with |- context [Trials.steps _ _ _ _ w ?s2 _] => set (s2' := s2) end.
      destruct (IH w s2' t m (ms ++ [v]) (S i) (S c)) as (s' & Hs & A & B & C & D & F).
      + lia.
      + lia.
      + reflexivity.
      + unfold s2'. cbn [calls]. rewrite Nat.eqb_refl, Hc. reflexivity.
      + unfold s2'. cbn [trials]. erewrite nth_error_upd_same; [reflexivity|]. erewrite nth_error_upd_same; [reflexivity|exact Ht].
      + exists s'. split; [exact Hs|]. split; [exact A|]. split; [rewrite B; lia|]. split; [|split].
        * cbv zeta in C |- *.
          assert (X : (ms ++ [v]) ++ map (fun k => metric m (S i + k) (S c + k)) (seq 0 (S n')) =
                      ms ++ map (fun k => metric m (i + k) (c + k)) (seq 0 (S (S n')))).
          { rewrite <- app_assoc. f_equal. change (seq 0 (S (S n'))) with (0 :: seq 1 (S n')).
            rewrite <- (seq_shift (S n') 0). rewrite map_cons, map_map. cbn [app]. f_equal.
            - unfold v. rewrite Hc, !Nat.add_0_r. reflexivity.
            - apply map_ext. intros k. f_equal; lia. }
          rewrite <- X. exact C.
        * intros t' Hd. rewrite D by exact Hd. unfold s2'. cbn [trials]. rewrite !nth_error_upd_diff by congruence. reflexivity.
        * intros t' Hd. rewrite F by exact Hd. unfold s2'. cbn [reports]. apply Er; exact Hd.
  Qed.

  (** "The value of a trial is that of its own model" is false for every number
      of workers above one: there is a schedule in which the first trial is
      scored on the model of the second, the second on a model already used, and
      nothing is ever reported for the first. *)
  Theorem C174_workers_refuted : forall w, 2 <= w ->
    exists es s ms0 ms1, steps w initially es = Some s /\
      trials s = [(Complete (mean (map (fun i => metric 1 i i) (seq 0 N))), ms0);
                  (Complete (mean (map (fun i => metric 1 i (N + i)) (seq 0 N))), ms1)] /\
      reports_of 0 (reports s) = [].
  Proof.
    intros w Hw.
    assert (Hsteps : forall a b s s1, steps w s a = Some s1 -> steps w s (a ++ b) = steps w s1 b).
    { induction a as [|e a IH]; intros b s s1 H; cbn in H |- *; [injection H as ->; reflexivity|].
      fold step in H |- *. destruct (step w s e) as [s2|]; [|discriminate]. apply IH; exact H. }
    set (s0 := {| model := 1; calls := fun _ => 0; trials := [(Predict 0, []); (Predict 0, [])]; reports := [] |}).
    assert (E0 : steps w initially [Start; Start] = Some s0).
    { unfold steps, s0, initially. cbn [Trials.steps Trials.step trials filter List.length].
      destruct (Nat.ltb_spec 0 w); [|lia]. cbn [trials app filter active fst List.length model calls reports].
      destruct (Nat.ltb_spec 1 w); [|lia]. reflexivity. }
    destruct (runs_on N w s0 0 1 [] 0 0 (Nat.add_0_r N) HN eq_refl eq_refl eq_refl) as (s1 & E1 & A1 & B1 & C1 & D1 & F1).
    assert (Hn1 : nth_error (trials s1) 1 = Some (Predict 0, [])) by (rewrite D1 by discriminate; reflexivity).
    destruct (runs_on N w s1 1 1 [] 0 N (Nat.add_0_r N) HN A1 B1 Hn1) as (s2 & E2 & A2 & B2 & C2 & D2 & F2).
    exists (([Start; Start] ++ concat (repeat [Go 0; Go 0] N)) ++ concat (repeat [Go 1; Go 1] N)).
    assert (E : steps w initially (([Start; Start] ++ concat (repeat [Go 0; Go 0] N)) ++ concat (repeat [Go 1; Go 1] N)) = Some s2).
    { erewrite Hsteps; [exact E2|]. erewrite Hsteps; [exact E1|exact E0]. }
    assert (L : List.length (trials s2) = 2).
    { assert (K : forall es s s', steps w s es = Some s' -> ~ In Start es -> List.length (trials s') = List.length (trials s)).
      { induction es as [|e es IH]; intros s s' H Hns; cbn in H; [injection H as ->; reflexivity|].
        fold step in H. destruct (step w s e) as [s3|] eqn:X; [|discriminate].
        rewrite (IH _ _ H) by (intro; apply Hns; cbn; auto).
        destruct e as [|t]; [exfalso; apply Hns; cbn; auto|]. unfold step in X. cbn [Trials.step] in X.
        destruct (nth_error (trials s) t) as [[[i|i v|v|] ms]|]; try discriminate; injection X as <-; cbn [trials]; apply upd_nth_length. }
      assert (NS : forall t n, ~ In Start (concat (repeat [Go t; Go t] n))).
      { intros t n H. apply in_concat in H as (l & Hl & H). apply repeat_spec in Hl as ->. cbn in H. intuition discriminate. }
      rewrite (K _ _ _ E2 (NS 1 N)), (K _ _ _ E1 (NS 0 N)). reflexivity. }
    cbv zeta in C1, C2. cbn [app Nat.add] in C1, C2.
    assert (Hz : nth_error (trials s2) 0 = Some (Complete (mean (map (fun i => metric 1 i i) (seq 0 N))), map (fun k => metric 1 k k) (seq 0 N))).
    { rewrite D2 by discriminate. exact C1. }
    exists s2. destruct (trials s2) as [|x0 [|x1 [|? ?]]] eqn:ET; cbn in L; try discriminate.
    cbn in Hz, C2. injection Hz as ->. injection C2 as ->. do 2 eexists. split; [exact E|]. split; [reflexivity|].
    rewrite F2 by discriminate. rewrite F1 by discriminate. reflexivity.
  Qed.
End SearchProofs.
Print Assumptions C174_own_model_partial.
Print Assumptions C174_own_reports_partial.
Print Assumptions C174_reports_dropped_refuted.
Print Assumptions C174_workers_refuted.

(** Two iterations; the metric of a prediction tells the model, the iteration and
    the number of earlier calls. *)
Definition demo_metric (m i k : nat) : Q := inject_Z (Z.of_nat (100 * m + 10 * i + k)).
Example C174_nonvacuous :
  (exists s, steps 2 demo_metric (fun i => i) (fun _ _ => false) 1 initially
     [Start; Go 0; Go 0; Go 0; Go 0; Start; Go 1; Go 1; Go 1; Go 1] = Some s /\
     map fst (trials s) = [Complete (mean [demo_metric 0 0 0; demo_metric 0 1 1]); Complete (mean [demo_metric 1 0 0; demo_metric 1 1 1])]) /\
  steps 2 demo_metric (fun i => i) (fun _ _ => false) 1 initially [Start; Go 0; Start] = None /\
  (exists s, steps 2 demo_metric (fun i => i) (fun _ _ => false) 2 initially
     [Start; Go 0; Start; Go 0; Go 1] = Some s /\ reports s = [((1, 0), demo_metric 0 0 0)]).
Proof. split; [|split]; [eexists; split; [vm_compute; reflexivity|vm_compute; reflexivity]|vm_compute; reflexivity|eexists; split; [vm_compute; reflexivity|vm_compute; reflexivity]]. Qed.

(** * C175: what the search recommends *)

(** The best trial is one of the completed ones, and none of them is better in
    the configured direction. *)
Theorem C175_best_trial : forall minimise values b, best_trial minimise values = Ok b ->
  In b values /\ forall x, In x values -> if minimise then (snd b <= snd x)%Q else (snd x <= snd b)%Q.
Proof.
  intros minimise [|x values] b H; [discriminate|]. injection H as <-.
  revert x; induction values as [|y values IH]; intros x.
  - cbn [best_from]. split; [cbn; auto|]. intros z [<-|[]]. destruct minimise; apply Qle_refl.
  - cbn [best_from]. set (b := if (if minimise then negb (Qle_bool (snd x) (snd y)) else negb (Qle_bool (snd y) (snd x))) then y else x).
    destruct (IH b) as [I1 I2].
    assert (Hb : (b = x \/ b = y) /\ (if minimise then (snd b <= snd x)%Q /\ (snd b <= snd y)%Q else (snd x <= snd b)%Q /\ (snd y <= snd b)%Q)).
    { unfold b. destruct minimise.
      - destruct (Qle_bool (snd x) (snd y)) eqn:E; cbn [negb].
        + apply Qle_bool_iff in E. split; [auto|]. split; [apply Qle_refl|exact E].
        + split; [auto|]. split; [|apply Qle_refl].
          destruct (Qlt_le_dec (snd x) (snd y)) as [L|L]; [|exact L]. apply Qlt_le_weak, Qle_bool_iff in L. congruence.
      - destruct (Qle_bool (snd y) (snd x)) eqn:E; cbn [negb].
        + apply Qle_bool_iff in E. split; [auto|]. split; [apply Qle_refl|exact E].
        + split; [auto|]. split; [|apply Qle_refl].
          destruct (Qlt_le_dec (snd y) (snd x)) as [L|L]; [|exact L]. apply Qlt_le_weak, Qle_bool_iff in L. congruence. }
    clearbody b. destruct Hb as [Hb Ho]. split.
    + destruct I1 as [I1|I1]; [|cbn; auto]. rewrite <- I1. destruct Hb as [-> | ->]; cbn; auto.
    + pose proof (I2 b (or_introl eq_refl)) as I3. intros z [<-|[<-|Hz]].
      * destruct minimise; destruct Ho as [O1 O2]; eapply Qle_trans; eauto.
      * destruct minimise; destruct Ho as [O1 O2]; eapply Qle_trans; eauto.
      * apply I2. cbn; auto.
Qed.
Print Assumptions C175_best_trial.

Section HyperProofs.
  Context {V : Type}.

  Definition kinds : list string := ["RF_Model"; "GBRT_Model"; "XGB_Model"; "HarrisWilson_NN"; "GAT_Model"].

  Lemma kind_tables : forall kind, In kind kinds ->
    NoDup (default_names kind) /\ (forall p, In p (default_names kind) -> ~ In p dict_attributes).
  Proof.
    intros kind H.
    assert (C : forallb (fun k => nodupb (default_names k) && forallb (fun p => negb (memb p dict_attributes)) (default_names k)) kinds = true)
      by (vm_compute; reflexivity).
    pose proof (proj1 (forallb_forall _ _) C kind H) as C'. apply andb_true_iff in C' as [C1 C2]. split; [apply nodupb_NoDup; exact C1|].
    intros p Hp Hq. pose proof (proj1 (forallb_forall _ _) C2 p Hp) as C3. apply negb_true_iff in C3.
    apply (proj1 (memb_false _ _) C3). exact Hq.
  Qed.

  (** Every value a trial suggests is the one its model is built with, except
      the number of estimators of gradient boosting and XGBoost. *)
  Theorem C175_suggestion_used_partial : forall kind prefix (sug defaults start config : list (string * V)) p v,
    In kind kinds -> map fst defaults = default_names kind ->
    NoDup (map fst sug) -> map fst sug = suggested_names kind -> In (p, v) sug ->
    ~ (p = "n_estimators" /\ (kind = "GBRT_Model" \/ kind = "XGB_Model")) ->
    exists h c, update_hyperparameters prefix (Some sug) defaults start (Some config) = Ok (h, Some c) /\ sget p h = Some v.
  Proof.
    intros kind prefix sug defaults start config p v Hk Hd Hnd Hs Hp Hx.
    destruct (kind_tables kind Hk) as [T1 T2].
    destruct (C97_hyperparameters_exact_partial prefix (Some sug) defaults start (Some config)) as (h & c' & E & H1 & H2 & H3).
    { rewrite Hd; exact T1. } { rewrite Hd; exact T2. }
    destruct c' as [c'|]; [|destruct H3]. exists h, c'. split; [exact E|].
    assert (Hin : In p (map fst defaults)).
    { rewrite Hd. assert (Hps : In p (suggested_names kind)) by (rewrite <- Hs; apply (in_map fst) in Hp; exact Hp).
      clear - Hk Hps Hx.
      assert (C : forallb (fun k => forallb (fun p => memb p (default_names k) ||
         (String.eqb p "n_estimators" && (String.eqb k "GBRT_Model" || String.eqb k "XGB_Model"))) (suggested_names k)) kinds = true)
        by (vm_compute; reflexivity).
      pose proof (proj1 (forallb_forall _ _) (proj1 (forallb_forall _ _) C kind Hk) p Hps) as C1. cbv beta in C1.
      apply orb_true_iff in C1 as [C1|C1]; [apply memb_In; exact C1|]. exfalso. apply Hx.
      apply andb_true_iff in C1 as [C1 C2]. apply String.eqb_eq in C1. split; [exact C1|].
      apply orb_true_iff in C2 as [C2|C2]; apply String.eqb_eq in C2; auto. }
    apply in_map_iff in Hin as ([p' d] & Ep & Hin). cbn in Ep. subst p'.
    rewrite (H1 p d Hin). unfold suggestion_or_default. rewrite (sget_in _ sug p v Hnd Hp). reflexivity.
  Qed.

  (** "Every parameter tuned has an effect" is false of those two: what a trial
      suggests as the number of estimators, which is reported as part of the best
      parameters, is not looked at. *)
  Theorem C175_estimators_unused_refuted : forall kind prefix (sug defaults start : list (string * V)) config v v',
    kind = "GBRT_Model" \/ kind = "XGB_Model" -> map fst defaults = default_names kind ->
    In "n_estimators" (suggested_names kind) /\
    update_hyperparameters prefix (Some (("n_estimators", v) :: sug)) defaults start config =
    update_hyperparameters prefix (Some (("n_estimators", v') :: sug)) defaults start config.
  Proof.
    intros kind prefix sug defaults start config v v' Hk Hd. split; [destruct Hk as [-> | ->]; cbn; auto|].
    assert (Hn : ~ In "n_estimators" (map fst defaults)) by (rewrite Hd; destruct Hk as [-> | ->]; apply memb_false; vm_compute; reflexivity).
    unfold update_hyperparameters. generalize (start, config). clear - Hn.
    induction defaults as [|[p d] ds IH]; intros st; [reflexivity|].
    cbn [map fst In] in Hn. cbn [hyper_loop]. 
    assert (E : hyper_step prefix (Some (("n_estimators", v) :: sug)) st (p, d) = hyper_step prefix (Some (("n_estimators", v') :: sug)) st (p, d)).
    { unfold hyper_step. destruct st as [h c].
      assert (G : forall w : V, sget p (("n_estimators", w) :: sug) = sget p sug).
      { intros w. cbn [sget]. destruct (String.eqb_spec p "n_estimators") as [->|N]; [exfalso; auto|]. reflexivity. }
      rewrite !G. reflexivity. }
    rewrite E. clear E. destruct (hyper_step prefix (Some (("n_estimators", v') :: sug)) st (p, d)); cbn [rbind]; [apply IH; tauto|reflexivity].
  Qed.

  (** After the search the configuration written with the best parameters holds,
      in its hyper-parameters, the values of the last trial. *)
  Theorem C175_config_of_last_trial_refuted : forall prefix (defaults start config : list (string * V)) trials last hs c,
    NoDup (map fst defaults) -> (forall p, In p (map fst defaults) -> ~ In p dict_attributes) ->
    search prefix defaults start config (trials ++ [last]) = Ok (hs, c) ->
    forall p dflt, In (p, dflt) defaults ->
      sget (prefix ++ p)%string c = Some (match sget p last with Some v => v | None => dflt end).
  Proof.
    intros prefix defaults start config trials last hs c HN HA. revert config hs c.
    induction trials as [|t trials IH]; intros config hs c H p dflt Hp; cbn [app search] in H.
    - destruct (C97_hyperparameters_exact_partial prefix (Some last) defaults start (Some config) HN HA) as (h & c' & E & _ & _ & H3).
      rewrite E in H. cbn [rbind snd] in H. destruct c' as [c'|]; [|destruct H3]. cbn [search rbind] in H. injection H as _ <-.
      destruct H3 as [H3 _]. exact (H3 p dflt Hp).
    - destruct (update_hyperparameters prefix (Some t) defaults start (Some config)) as [[h c']|x]; [|discriminate]. cbn [rbind snd] in H.
      destruct c' as [c'|]; [|discriminate]. apply rbind_Ok_inv in H as ([hs' c1] & E & H). injection H as _ <-. eauto.
  Qed.

  (** Every trial's model has its own suggestions, whatever the earlier trials
      left in the shared configuration. *)
  Theorem C175_trials_independent : forall prefix (defaults start config : list (string * V)) trials,
    NoDup (map fst defaults) -> (forall p, In p (map fst defaults) -> ~ In p dict_attributes) ->
    exists hs c, search prefix defaults start config trials = Ok (hs, c) /\
    Forall2 (fun t h => forall p dflt, In (p, dflt) defaults ->
      sget p h = Some (match sget p t with Some v => v | None => dflt end)) trials hs.
  Proof.
    intros prefix defaults start config trials HN HA. revert config.
    induction trials as [|t trials IH]; intros config; [exists [], config; split; [reflexivity|constructor]|].
    cbn [search].
    destruct (C97_hyperparameters_exact_partial prefix (Some t) defaults start (Some config) HN HA) as (h & c' & E & H1 & _ & H3).
    rewrite E. cbn [rbind snd fst]. destruct c' as [c'|]; [|destruct H3].
    destruct (IH c') as (hs & c & E2 & HF). rewrite E2. cbn [rbind fst snd]. exists (h :: hs), c. split; [reflexivity|].
    constructor; [|exact HF]. intros p dflt Hp. exact (H1 p dflt Hp).
  Qed.
End HyperProofs.
Print Assumptions C175_suggestion_used_partial.
Print Assumptions C175_estimators_unused_refuted.
Print Assumptions C175_config_of_last_trial_refuted.
Print Assumptions C175_trials_independent.

Example C175_nonvacuous :
  best_trial true [(0, 3%Q); (1, 1%Q); (2, 2%Q)] = Ok (1, 1%Q) /\
  update_hyperparameters "gbrt_" (Some [("n_estimators", 60); ("max_depth", 4); ("min_samples_split", 12); ("min_samples_leaf", 6)])
    [("max_depth", 0); ("min_samples_split", 10); ("min_samples_leaf", 1)] [("n_estimators", 100)] (Some [])
  = Ok ([("n_estimators", 100); ("max_depth", 4); ("min_samples_split", 12); ("min_samples_leaf", 6)],
        Some [("gbrt_max_depth", 4); ("gbrt_min_samples_split", 12); ("gbrt_min_samples_leaf", 6)]) /\
  search "rf_" [("max_depth", 0)] [] [] [[("max_depth", 5)]; [("max_depth", 7)]] = Ok ([[("max_depth", 5)]; [("max_depth", 7)]], [("rf_max_depth", 7)]).
Proof. split; [|split]; reflexivity. Qed.

(** * C176: what can be optimised *)

(** The experiments that train a model by gradient descent or regression give a
    best trial. *)
Theorem C176_trained_models_partial : forall minimise type v values,
  In type ["SIM_NN"; "NonJointTableSIM_NN"; "JointTableSIM_NN"; "XGBoost_Comparison"; "RandomForest_Comparison";
           "GBRT_Comparison"; "GraphAttentionNetwork_Comparison"] ->
  exists t q, optimise minimise (objective_of false type) (v :: values) = Ok (t, q) /\
    nth_error (v :: values) t = Some q /\ forall q', In q' (v :: values) -> if minimise then (q <= q')%Q else (q' <= q)%Q.
Proof.
  intros minimise type v values Ht.
  assert (E : objective_of false type = ReturnsMean) by (clear - Ht; cbn [In] in Ht; decompose [or] Ht; subst; try reflexivity; contradiction).
  rewrite E. clear E Ht. unfold optimise. set (vs := v :: values). set (c := combine (seq 0 (List.length vs)) vs).
  destruct (best_trial minimise c) as [[t q]|x] eqn:B; [|discriminate].
  destruct (C175_best_trial minimise c (t, q) B) as [Hin Hbest]. exists t, q. split; [reflexivity|].
  assert (Hc : forall (l : list Q) n t q, In (t, q) (combine (seq n (List.length l)) l) -> n <= t /\ nth_error l (t - n) = Some q).
  { clear. induction l as [|y l IH]; intros n t q H; [destruct H|]. cbn [List.length seq combine] in H.
    destruct H as [H|H].
    - injection H as <- <-. rewrite Nat.sub_diag. auto.
    - apply IH in H as [L H]. split; [lia|]. replace (t - n) with (S (t - S n)) by lia. exact H. }
  assert (Hs : forall (l : list Q) n q, In q l -> exists t, In (t, q) (combine (seq n (List.length l)) l)).
  { clear. induction l as [|y l IH]; intros n q H; [destruct H|]. cbn [List.length seq combine].
    destruct H as [-> |H]; [exists n; cbn; auto|]. destruct (IH (S n) q H) as (t & Ht). exists t; cbn; auto. }
  split.
  - apply Hc in Hin as [_ Hin]. rewrite Nat.sub_0_r in Hin. exact Hin.
  - intros q' Hq'. destruct (Hs vs 0 q' Hq') as (t' & Ht'). exact (Hbest _ Ht').
Qed.
Print Assumptions C176_trained_models_partial.

(** "Every type of experiment offered by the command can be optimised" is false:
    the analyses and the samplers have no value, so that asking for the best
    trial raises after all trials were run; a sweep of any type does not accept a
    trial. *)
Theorem C176_not_optimisable_refuted : forall minimise values,
  (forall type, In type ["RSquared_Analysis"; "LogTarget_Analysis"; "SIM_MCMC"; "JointTableSIM_MCMC"; "Table_MCMC"] ->
     optimise minimise (objective_of false type) values = Raise EValue) /\
  (forall type, values <> [] -> optimise minimise (objective_of true type) values = Raise EType).
Proof.
  intros minimise values. split.
  - intros type Ht. cbn [In] in Ht; decompose [or] Ht; subst; try reflexivity; contradiction.
  - intros type Hv. destruct values; [congruence|reflexivity].
Qed.
Print Assumptions C176_not_optimisable_refuted.
Example C176_nonvacuous : optimise false (objective_of false "SIM_NN") [1%Q; 3%Q; 2%Q] = Ok (1, 3%Q).
Proof. reflexivity. Qed.

(** * C177: the computation time recorded *)

(** The time recorded by the first run of an experiment is the time since its
    construction. *)
Theorem C177_first_run_partial : forall start e rest, hd_error (recorded_times start (e :: rest)) = Some (e - start)%Z.
Proof. reflexivity. Qed.

(** "The time recorded is that of the run" is false of every second run of the
    same object (the second, fourth, ... trial of a search): it is too large by at
    least the time of construction on the clock (seconds since 1970). *)
Fixpoint increasing (from : Z) (ends : list Z) : Prop :=
  match ends with [] => True | e :: r => (from <= e)%Z /\ increasing e r end.
Lemma recorded_length : forall ends total, List.length (recorded_times total ends) = List.length ends.
Proof. induction ends; intros; cbn; auto. Qed.
Lemma recorded_even : forall k start total offset ends e r, increasing offset ends ->
  (offset - total <= offset - start)%Z -> 
  nth_error ends (2 * k) = Some e -> nth_error (recorded_times total ends) (2 * k) = Some r -> (r <= e - start)%Z.
Proof.
  induction k as [|k IH]; intros start total offset ends e r Hi Ho He Hr.
  - destruct ends as [|e0 ends]; [discriminate|]. cbn in He, Hr. injection He as <-. injection Hr as <-. lia.
  - replace (2 * S k) with (S (S (2 * k))) in * by lia. destruct ends as [|e0 [|e1 ends]]; try discriminate.
    cbn [nth_error recorded_times] in He, Hr. cbn [increasing] in Hi. destruct Hi as (I1 & I2 & I3).
    apply (IH start (e1 - (e0 - total))%Z e1 ends e r I3); auto. lia.
Qed.
Theorem C177_second_run_refuted : forall start ends k begins ends1 r1,
  increasing start ends -> nth_error ends (S (2 * k)) = Some ends1 -> 
  nth_error (recorded_times start ends) (S (2 * k)) = Some r1 ->
  (forall e, nth_error ends (2 * k) = Some e -> (e <= begins)%Z) ->
  (r1 >= (ends1 - begins) + start)%Z.
Proof.
  intros start ends k begins ends1 r1 Hi He Hr Hb.
  destruct (nth_error ends (2 * k)) as [e|] eqn:Ek;
    [|exfalso; apply nth_error_None in Ek; assert (nth_error ends (S (2 * k)) <> None) by congruence; apply nth_error_Some in H; lia].
  specialize (Hb e eq_refl).
  destruct (nth_error (recorded_times start ends) (2 * k)) as [r|] eqn:Rk;
    [|exfalso; apply nth_error_None in Rk; rewrite recorded_length in Rk; assert (nth_error ends (2 * k) <> None) by congruence; apply nth_error_Some in H; lia].
  pose proof (recorded_even k start start start ends e r Hi ltac:(lia) Ek Rk) as L.
  assert (Q : forall n total ends r r1 e1, nth_error (recorded_times total ends) n = Some r -> nth_error (recorded_times total ends) (S n) = Some r1 ->
    nth_error ends (S n) = Some e1 -> r1 = (e1 - r)%Z).
  { clear. induction n as [|n IH]; intros total ends r r1 e1 H1 H2 H3.
    - destruct ends as [|a [|b ends]]; try discriminate. cbn in *. congruence.
    - destruct ends as [|a ends]; try discriminate. cbn [recorded_times] in H1, H2. eapply (IH (a - total)%Z ends); eauto. }
  rewrite (Q _ _ _ _ _ _ Rk Hr He). lia.
Qed.
Print Assumptions C177_first_run_partial.
Print Assumptions C177_second_run_refuted.
Example C177_nonvacuous : recorded_times 1000 [1010; 1025; 1030]%Z = [10; 1015; 15]%Z.
Proof. reflexivity. Qed.
