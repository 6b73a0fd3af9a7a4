(** Properties C157 and C158: the log of a run and what the console shows. *)
From Coq Require Import List String Bool Arith Lia Permutation.
From Verif Require Import Base Inputs InputsProps RunLog.
Import ListNotations.
Open Scope string_scope.
Open Scope nat_scope.
Open Scope list_scope.

(** * Specification *)

(** The messages of level [lv] or above, in order. *)
Definition lines_from (lv : nat) (l : list (kind * string)) : list string :=
  map snd (filter (fun km => lv <=? level_of (fst km)) l).
(** A file of the user's, not the logger's temporary one. *)
Definition proper (p : string) : Prop := String.prefix "logs/temp_" p = false.
(** What a file holds; a missing file holds nothing. *)
Definition holds (s : log) (p : string) : list string :=
  match aget p (files s) with Some l => l | None => [] end.
(** All lines of all files. *)
Definition all_lines (s : log) : list string := List.concat (map snd (files s)).
(** The messages that reach the file log in the course of [es], when the levels
    of its logger and handler are [f] and [h] at first. *)
Fixpoint accepted (f h : nat) (es : list event) : list string :=
  match es with
  | [] => []
  | Say k m :: r =>
      if (effective f <=? level_of k) && (h <=? level_of k) then m :: accepted f h r else accepted f h r
  | Levels _ (Some l) :: r => accepted l l r
  | _ :: r => accepted f h r
  end.

(** * Lemmas *)

Lemma happen_app : forall a b s, happen (a ++ b) s = happen b (happen a s).
Proof. intros. apply fold_left_app. Qed.
Lemma happen_cons : forall e r s, happen (e :: r) s = happen r (step s e).
Proof. reflexivity. Qed.

(** Only lines are added to buffer and console by messages. *)
Definition passes (s : log) (k : kind) : bool := enabled (f_level s) (level_of k) && (h_level s <=? level_of k).
Lemma says_effect : forall l s, let s' := happen (says l) s in
  c_level s' = c_level s /\ f_level s' = f_level s /\ h_level s' = h_level s /\ h_file s' = h_file s /\
  files s' = files s /\ h_buffer s' = h_buffer s ++ map snd (filter (fun km => passes s (fst km)) l).
Proof.
  induction l as [|[k m] l IH]; intros s s'.
  - subst s'. cbn. rewrite app_nil_r. repeat split.
  - subst s'. change (happen (says ((k, m) :: l)) s) with (happen (says l) (say k m s)).
    destruct (IH (say k m s)) as (A & B & C & D & E & F).
    rewrite A, B, C, D, E, F. repeat split.
    assert (P : forall km : kind * string, passes (say k m s) (fst km) = passes s (fst km)) by reflexivity.
    rewrite (filter_ext _ _ P). unfold say at 1. cbn [h_buffer filter fst].
    change (enabled (f_level s) (level_of k) && (h_level s <=? level_of k)) with (passes s k).
    destruct (passes s k); [|reflexivity]. cbn [map snd]. now rewrite <- app_assoc.
Qed.

Lemma filter_lines : forall s lv l, (forall k, passes s k = (lv <=? level_of k)) ->
  map snd (filter (fun km : kind * string => passes s (fst km)) l) = lines_from lv l.
Proof.
  intros s lv l H. unfold lines_from. f_equal. apply filter_ext. intros [k m]. apply H.
Qed.

Lemma lines_app : forall lv a b, lines_from lv (a ++ b) = lines_from lv a ++ lines_from lv b.
Proof. intros. unfold lines_from. now rewrite filter_app, map_app. Qed.

Lemma holds_written : forall s p, holds (write_out s) p = if String.eqb p (h_file s) then holds s p ++ h_buffer s else holds s p.
Proof.
  intros s p. unfold holds, write_out. cbn [files]. destruct (String.eqb_spec p (h_file s)) as [->|N].
  - rewrite aget_aset_same. reflexivity.
  - now rewrite aget_aset_other by auto.
Qed.

(** One experiment of a sweep. *)
Lemma one_run : forall lv x s, proper (x_file x) -> (forall k, passes s k = (lv <=? level_of k)) ->
  let s' := happen (set_up x ++ running x) s in
  c_level s' = c_level s /\ f_level s' = f_level s /\ h_level s' = h_level s /\ h_file s' = x_file x /\
  h_buffer s' = lines_from lv (x_after x) /\
  forall p, holds s' p = if String.eqb p (x_file x)
                         then holds s p ++ h_buffer s ++ lines_from lv (x_setup x ++ x_run x) else holds s p.
Proof.
  intros lv x s P L s'. unfold set_up, running in s'.
  set (s1 := step s (Open (x_file x))).
  assert (L1 : forall k, passes s1 k = (lv <=? level_of k)) by exact L.
  set (s2 := happen (says (x_setup x)) s1). set (s3 := happen (says (x_run x)) s2).
  set (s4 := close_run s3).
  assert (E : s' = happen (says (x_after x)) s4).
  { subst s'. cbn [app]. rewrite happen_cons, happen_app, happen_app. reflexivity. }
  destruct (says_effect (x_setup x) s1) as (A2 & B2 & C2 & D2 & F2 & G2). fold s2 in A2, B2, C2, D2, F2, G2.
  destruct (says_effect (x_run x) s2) as (A3 & B3 & C3 & D3 & F3 & G3). fold s3 in A3, B3, C3, D3, F3, G3.
  assert (D3' : h_file s3 = x_file x) by (rewrite D3, D2; reflexivity).
  assert (E4 : s4 = write_out s3).
  { unfold s4, close_run, is_temp. rewrite D3'. unfold proper in P. now rewrite P. }
  assert (L2 : forall k, passes s2 k = (lv <=? level_of k)) by (intros; unfold passes; rewrite B2, C2; apply L1).
  assert (L3 : forall k, passes s3 k = (lv <=? level_of k)) by (intros; unfold passes; rewrite B3, C3; apply L2).
  assert (L4 : forall k, passes s4 k = (lv <=? level_of k)) by (intros; rewrite E4; apply L3).
  destruct (says_effect (x_after x) s4) as (A5 & B5 & C5 & D5 & F5 & G5). rewrite <- E in A5, B5, C5, D5, F5, G5.
  rewrite (filter_lines _ _ _ L1) in G2. rewrite (filter_lines _ _ _ L2) in G3. rewrite (filter_lines _ _ _ L4) in G5.
  rewrite E4 in A5, B5, C5, D5, G5. unfold write_out in A5, B5, C5, D5, G5.
  cbn [c_level f_level h_level h_file h_buffer app] in A5, B5, C5, D5, G5.
  repeat split.
  - rewrite A5, A3, A2. reflexivity.
  - rewrite B5, B3, B2. reflexivity.
  - rewrite C5, C3, C2. reflexivity.
  - rewrite D5. exact D3'.
  - exact G5.
  - intros p. unfold holds at 1. rewrite F5, E4. change (holds (write_out s3) p = if String.eqb p (x_file x)
                         then holds s p ++ h_buffer s ++ lines_from lv (x_setup x ++ x_run x) else holds s p).
    rewrite holds_written, D3'. assert (Hp : holds s3 p = holds s p) by (unfold holds; rewrite F3, F2; reflexivity).
    rewrite Hp. destruct (String.eqb p (x_file x)); [|reflexivity]. f_equal.
    rewrite G3, G2, lines_app, app_assoc. reflexivity.
Qed.

Lemma debug_passes : forall c s k, passes (set_levels c (Some 10) s) k = (10 <=? level_of k).
Proof. intros c s k. unfold passes, enabled, effective. cbn [f_level h_level set_levels Nat.eqb]. now rewrite andb_diag. Qed.

Lemma sweep_one : forall x s, proper (x_file x) ->
  let s' := happen (Levels (Some 25) (Some 10) :: set_up x ++ running x) s in
  c_level s' = 25 /\ h_buffer s' = lines_from 10 (x_after x) /\ h_file s' = x_file x /\
  forall p, holds s' p = if String.eqb p (x_file x)
                         then holds s p ++ h_buffer s ++ lines_from 10 (x_setup x ++ x_run x) else holds s p.
Proof.
  intros x s P s'. subst s'. rewrite happen_cons. cbn [step].
  destruct (one_run 10 x (set_levels (Some 25) (Some 10) s) P (debug_passes _ s)) as (A & B & C & D & E & F).
  rewrite A, E, D. repeat split. intros p. rewrite F. reflexivity.
Qed.

Lemma sweep_others : forall xs s p, Forall (fun x => proper (x_file x)) xs -> ~ In p (map x_file xs) ->
  holds (happen (sweep_events xs) s) p = holds s p.
Proof.
  induction xs as [|x xs IH]; intros s p F N; [reflexivity|]. inversion F; subst. cbn [map In] in N.
  unfold sweep_events. cbn [flat_map]. rewrite happen_app. fold (sweep_events xs).
  rewrite IH by tauto. destruct (sweep_one x s H1) as (_ & _ & _ & E). rewrite E.
  destruct (String.eqb_spec p (x_file x)) as [->|]; tauto.
Qed.
Lemma sweep_app : forall a b, sweep_events (a ++ b) = sweep_events a ++ sweep_events b.
Proof. intros. unfold sweep_events. apply flat_map_app. Qed.
Lemma sweep_cons : forall x b s, happen (sweep_events (x :: b)) s
  = happen (sweep_events b) (happen (Levels (Some 25) (Some 10) :: set_up x ++ running x) s).
Proof. intros. unfold sweep_events. cbn [flat_map]. now rewrite happen_app. Qed.

(** * C157 *)

(** In a sweep run in sequence, every run appends to its own file, in order, all
    its messages of debug level and above; no other file changes.  What precedes
    them was said since the previous run was closed. *)
Theorem C157_sweep_partial : forall xs s, NoDup (map x_file xs) -> Forall (fun x => proper (x_file x)) xs ->
  let s' := happen (sweep_events xs) s in
  (forall x post, xs = x :: post ->
     holds s' (x_file x) = holds s (x_file x) ++ h_buffer s ++ lines_from 10 (x_setup x ++ x_run x)) /\
  (forall pre y x post, xs = pre ++ y :: x :: post ->
     holds s' (x_file x) = holds s (x_file x) ++ lines_from 10 (x_after y) ++ lines_from 10 (x_setup x ++ x_run x)) /\
  (forall p, ~ In p (map x_file xs) -> holds s' p = holds s p).
Proof.
  intros xs s ND F s'. split; [|split].
  - intros x post ->. inversion F; subst. inversion ND; subst. subst s'. rewrite sweep_cons.
    rewrite sweep_others by assumption. destruct (sweep_one x s H1) as (_ & _ & _ & E). rewrite E, String.eqb_refl. reflexivity.
  - intros pre y x post ->. subst s'. rewrite sweep_app, happen_app.
    apply Forall_app in F as [Fp F]. inversion F as [|? ? Fy F']; subst. inversion F' as [|? ? Fx Fo]; subst.
    rewrite map_app in ND. cbn [map] in ND.
    assert (N1 : ~ In (x_file x) (map x_file pre)).
    { intro I. apply (NoDup_remove_2 (map x_file pre ++ [x_file y]) (map x_file post) (x_file x)).
      - now rewrite <- app_assoc.
      - apply in_or_app; left. apply in_or_app; now left. }
    assert (N2 : x_file x <> x_file y).
    { intro Q. apply NoDup_remove_2 in ND. apply ND. apply in_or_app; right. left; auto. }
    assert (N3 : ~ In (x_file x) (map x_file post)).
    { intro I. apply (NoDup_remove_2 (map x_file pre ++ [x_file y]) (map x_file post) (x_file x)).
      - now rewrite <- app_assoc.
      - apply in_or_app; now right. }
    rewrite !sweep_cons, sweep_others by assumption.
    set (s1 := happen (sweep_events pre) s).
    destruct (sweep_one y s1 Fy) as (_ & By & _ & Ey).
    set (s2 := happen (Levels (Some 25) (Some 10) :: set_up y ++ running y) s1) in *.
    destruct (sweep_one x s2 Fx) as (_ & _ & _ & Ex). rewrite Ex, String.eqb_refl, By, Ey.
    destruct (String.eqb_spec (x_file x) (x_file y)); [contradiction|].
    unfold s1. now rewrite sweep_others.
  - intros p N. now apply sweep_others.
Qed.
Print Assumptions C157_sweep_partial.

Lemma lines_write : forall s, Permutation (all_lines (write_out s)) (all_lines s ++ h_buffer s).
Proof.
  intros s. unfold all_lines, write_out. cbn [files]. unfold file_of.
  generalize (h_file s) (h_buffer s) (files s). intros p b fs. induction fs as [|[q l] fs IH]; cbn [aset aget map List.concat snd].
  - cbn. now rewrite app_nil_r.
  - destruct (String.eqb p q) eqn:E; cbn [map List.concat snd].
    + rewrite <- !app_assoc. apply Permutation_app_head. apply Permutation_app_comm.
    + rewrite <- app_assoc. apply Permutation_app_head. exact IH.
Qed.

(** Whatever happens, if the process ends of its own accord, every message that
    reaches the file log ends in some file, exactly once. *)
Theorem C157_nothing_lost : forall es s,
  Permutation (all_lines (exit_process (happen es s)))
              (all_lines s ++ h_buffer s ++ accepted (f_level s) (h_level s) es).
Proof.
  assert (G : forall es s, Permutation (all_lines (happen es s) ++ h_buffer (happen es s))
                             (all_lines s ++ h_buffer s ++ accepted (f_level s) (h_level s) es)).
  { induction es as [|e es IH]; intros s; [cbn; now rewrite app_nil_r|].
    rewrite happen_cons. rewrite IH. destruct e as [k m|c f|p|]; cbn [step accepted].
    - unfold say at 1 2 3 4. unfold enabled. cbn [files h_buffer f_level h_level].
      change (all_lines (say k m s)) with (all_lines s).
      destruct ((effective (f_level s) <=? level_of k) && (h_level s <=? level_of k)); [|reflexivity].
      now rewrite <- app_assoc.
    - destruct f; reflexivity.
    - reflexivity.
    - unfold close_run. destruct (is_temp (h_file s)); [reflexivity|].
      cbn [h_buffer write_out f_level h_level]. rewrite lines_write. cbn [app]. now rewrite <- app_assoc. }
  intros es s. unfold exit_process. rewrite lines_write. apply G.
Qed.
Print Assumptions C157_nothing_lost.

(** Until a run is closed nothing at all is written, so if it is killed, all it
    said is lost. *)
Theorem C157_killed_refuted : forall es s, ~ In Close es -> files (happen es s) = files s.
Proof.
  induction es as [|e es IH]; intros s N; [reflexivity|]. rewrite happen_cons, IH by (intro; apply N; now right).
  destruct e; cbn [step]; try reflexivity. elim N. now left.
Qed.
Print Assumptions C157_killed_refuted.

Lemma unset_passes : forall c t fs k, passes (setup c t fs) k = (30 <=? level_of k).
Proof. intros c t fs k. destruct k; reflexivity. Qed.

(** A single run: its file only gets warnings and worse. *)
Theorem C157_single_run_partial : forall c t fs before x, proper (x_file x) ->
  holds (happen (says before ++ batch_events [x]) (setup c t fs)) (x_file x)
  = holds (setup c t fs) (x_file x) ++ lines_from 30 (before ++ x_setup x ++ x_run x).
Proof.
  intros c t fs before x P. set (s := setup c t fs). rewrite happen_app.
  destruct (says_effect before s) as (A & B & C & D & E & F). set (s1 := happen (says before) s) in *.
  assert (L : forall k, passes s1 k = (30 <=? level_of k)).
  { intros k. unfold passes. rewrite B, C. apply (unset_passes c t fs). }
  destruct (one_run 30 x s1 P L) as (_ & _ & _ & _ & _ & G).
  unfold batch_events. cbn [flat_map]. rewrite !app_nil_r. rewrite G, String.eqb_refl.
  unfold holds at 1. rewrite E. fold (holds s (x_file x)). f_equal.
  rewrite F, (filter_lines s 30) by apply unset_passes. now rewrite (lines_app 30 before).
Qed.
Print Assumptions C157_single_run_partial.

(** So a run that only reports progress leaves its log empty. *)
Theorem C157_info_refuted : forall c t fs x, proper (x_file x) -> aget (x_file x) (files (setup c t fs)) = None ->
  (forall k m, In (k, m) (x_setup x ++ x_run x) -> level_of k <= level_of Hilight) ->
  holds (happen (batch_events [x]) (setup c t fs)) (x_file x) = [].
Proof.
  intros c t fs x P N H. pose proof (C157_single_run_partial c t fs [] x P) as E. cbn [says map app] in E. rewrite E.
  unfold holds. rewrite N. cbn [app]. unfold lines_from.
  replace (filter _ (x_setup x ++ x_run x)) with (@nil (kind * string)); [reflexivity|].
  symmetry. revert H. generalize (x_setup x ++ x_run x). induction l as [|[k m] l IH]; intros H; [reflexivity|].
  cbn [filter fst]. assert (level_of k <= 25) by (apply (H k m); now left).
  destruct (Nat.leb_spec 30 (level_of k)); [lia|]. apply IH. intros. apply (H k0 m0). now right.
Qed.
Print Assumptions C157_info_refuted.

(** Several experiments in one command: the log of each but the last goes to the
    file of the last, and their own files stay as they were. *)
Theorem C157_several_refuted : forall xs z s p, proper (x_file z) -> p <> x_file z ->
  holds (happen (batch_events (xs ++ [z])) s) p = holds s p.
Proof.
  intros xs z s p P N. unfold batch_events. rewrite happen_app, (flat_map_app set_up xs [z]), (happen_app (flat_map set_up xs)).
  set (s1 := happen (flat_map set_up [z]) (happen (flat_map set_up xs) s)).
  assert (K : forall x s, let s' := happen (set_up x) s in h_file s' = x_file x /\ files s' = files s).
  { intros x s0. unfold set_up. rewrite happen_cons. destruct (says_effect (x_setup x) (step s0 (Open (x_file x)))) as (_ & _ & _ & D & E & _).
    cbn zeta. rewrite D, E. auto. }
  assert (F0 : forall l s0, files (happen (flat_map set_up l) s0) = files s0).
  { induction l as [|x l IH]; intros s0; [reflexivity|]. cbn [flat_map]. rewrite happen_app, IH. apply K. }
  assert (H1 : h_file s1 = x_file z) by (unfold s1; cbn [flat_map]; rewrite app_nil_r; apply K).
  assert (H2 : holds s1 p = holds s p) by (unfold holds, s1; now rewrite !F0).
  rewrite <- H2. clear H2. clearbody s1. clear - P N H1. revert s1 H1.
  induction (xs ++ [z]) as [|x l IH]; intros s1 H1; [reflexivity|].
  cbn [flat_map]. rewrite happen_app. unfold running at 2. rewrite !happen_app.
  destruct (says_effect (x_run x) s1) as (_ & _ & _ & D & E & _). set (s2 := happen (says (x_run x)) s1) in *.
  assert (C : happen [Close] s2 = write_out s2).
  { cbn. unfold close_run, is_temp. rewrite D, H1. unfold proper in P. now rewrite P. }
  rewrite C. destruct (says_effect (x_after x) (write_out s2)) as (_ & _ & _ & D3 & E3 & _).
  set (s3 := happen (says (x_after x)) (write_out s2)) in *.
  rewrite IH by (rewrite D3; cbn [write_out h_file]; now rewrite D). unfold holds at 1. rewrite E3.
  change (holds (write_out s2) p = holds s1 p). rewrite holds_written, D, H1.
  destruct (String.eqb_spec p (x_file z)); [contradiction|]. unfold holds. now rewrite E.
Qed.
Print Assumptions C157_several_refuted.

Definition demo_x (p : string) : expt := mkexpt p [(Hilight, "Creating")] [(Info, "i"); (Warning, "w")] [(Success, "Experiment finished.")].
Example C157_nonvacuous :
  let s := setup 20 "m" [] in
  let t := happen (says [(Info, "hello")] ++ sweep_events [demo_x "a"; demo_x "b"]) s in
  holds t "a" = ["Creating"; "i"; "w"] /\ holds t "b" = ["Experiment finished."; "Creating"; "i"; "w"] /\
  proper "a" /\ NoDup (map x_file [demo_x "a"; demo_x "b"]) /\
  holds (happen (batch_events [demo_x "a"; demo_x "b"]) s) "a" = [] /\
  holds (happen (batch_events [demo_x "a"; demo_x "b"]) s) "b" = ["w"; "Experiment finished."; "w"].
Proof.
  cbn zeta. repeat split; try reflexivity.
  repeat constructor; cbn; intuition discriminate.
Qed.

(** * C158 *)

(** A message is shown on the console. *)
Definition shown (s : log) (k : kind) (m : string) : Prop := console (say k m s) = console s ++ [m].

(** With a console level chosen, exactly the messages of that level and above
    are shown, but for warnings at a level between info and warning. *)
Theorem C158_console_partial : forall s k m, c_level s <> 0 ->
  (k = Warning -> c_level s <= level_of Info \/ level_of Warning < c_level s) ->
  (shown s k m <-> c_level s <= level_of k).
Proof.
  intros s k m N W. unfold shown, say, enabled, effective. cbn [console].
  destruct (Nat.eqb_spec (c_level s) 0); [contradiction|].
  assert (L : forall b : bool, (if b then console s ++ [m] else console s) = console s ++ [m] <-> b = true).
  { intros []; split; auto. intros E. exfalso. apply (f_equal (@List.length string)) in E. rewrite app_length in E. cbn in E. lia.
    discriminate. }
  rewrite L, !andb_true_iff, !Nat.leb_le. clear L.
  destruct k; cbn [asked_of_console level_of] in *; try (split; intros; lia).
  specialize (W eq_refl). split; intros; lia.
Qed.
Print Assumptions C158_console_partial.

(** Asking for warnings hides them. *)
Theorem C158_warnings_refuted : forall s m, level_of Info < c_level s -> c_level s <= level_of Warning ->
  console (say Warning m s) = console s.
Proof.
  intros s m A B. unfold say, enabled, effective. cbn [console asked_of_console].
  destruct (Nat.eqb_spec (c_level s) 0); [cbn in A; lia|].
  destruct (Nat.leb_spec (c_level s) (level_of Info)); [lia|reflexivity].
Qed.
Print Assumptions C158_warnings_refuted.

(** After a sweep the console stays at the level hilight for the rest of the
    command, whatever level was chosen. *)
Theorem C158_after_sweep_refuted : forall xs s, xs <> [] -> Forall (fun x => proper (x_file x)) xs ->
  c_level (happen (sweep_events xs) s) = level_of Hilight.
Proof.
  intros xs s N F. destruct xs as [|x xs _] using rev_ind; [congruence|].
  apply Forall_app in F as [_ F]. inversion F; subst. rewrite sweep_app, happen_app, sweep_cons. cbn [sweep_events flat_map happen fold_left].
  now destruct (sweep_one x (happen (sweep_events xs) s) H1) as (A & _).
Qed.
Print Assumptions C158_after_sweep_refuted.

Example C158_nonvacuous :
  console (happen (says [(Debug, "d"); (Info, "i"); (Warning, "w")]) (setup 20 "m" [])) = ["i"; "w"] /\
  console (happen (says [(Warning, "w"); (Error, "e")]) (setup 30 "m" [])) = ["e"].
Proof. split; reflexivity. Qed.
