(** Theorems about the comparison experiments: C94, C95, C97, C98, C100, C101,
    C104. *)
From Coq Require Import List ZArith Lia Bool Arith String Permutation.
From Coq Require Import ZifyBool.
From Verif Require Import Base PyMonad ConfigTree TextCodec Executor ExecutorProps CommandLine CommandLineProps Learning.
Import ListNotations.
Local Open Scope string_scope.
Local Open Scope nat_scope.
Local Open Scope list_scope.

(** ---- C94 ---------------------------------------------------------------- *)

(** The position a possibly negative number names on an axis of length n. *)
Definition names_position (n : nat) (i : Z) (a : nat) : Prop :=
  a < n /\ (i = Z.of_nat a \/ i = Z.of_nat a - Z.of_nat n)%Z.

Lemma np_index_ok : forall n i a, np_index n i = Ok a <-> names_position n i a.
Proof.
  intros n i a; unfold np_index, names_position.
  destruct ((0 <=? i)%Z && (i <? Z.of_nat n)%Z) eqn:E1;
    [|destruct ((- Z.of_nat n <=? i)%Z && (i <? 0)%Z) eqn:E2]; split; intros H;
    try discriminate; try (injection H as <-); try lia; f_equal; lia.
Qed.

Lemma np_index_raise : forall n i, (exists e, np_index n i = Raise e) <-> forall a, ~ names_position n i a.
Proof.
  intros n i. split.
  - intros [e E] a H. apply np_index_ok in H. congruence.
  - intros H. destruct (np_index n i) as [a|e] eqn:E; [|eauto].
    apply np_index_ok in E. destruct (H _ E).
Qed.

Lemma mask_cells_spec : forall I J cells m0 m,
  mask_cells I J cells m0 = Ok m ->
  forall a b, m a b = true <->
    m0 a b = true \/ exists i j, In (i, j) cells /\ names_position I i a /\ names_position J j b.
Proof.
  intros I J cells; induction cells as [|[i j] cells IH]; intros m0 m H a b; cbn [mask_cells] in H.
  - injection H as <-. split; [auto|]. intros [H|[i [j [[] _]]]]. exact H.
  - apply rbind_Ok_inv in H as [x [Ex H]]. apply rbind_Ok_inv in H as [y [Ey H]].
    rewrite (IH _ _ H a b). apply np_index_ok in Ex, Ey.
    unfold put. destruct (Nat.eqb_spec a x) as [->|Na]; cbn [andb].
    + destruct (Nat.eqb_spec b y) as [->|Nb].
      * split; intros _; [right; exists i, j; cbn; auto|left; reflexivity].
      * split; (intros [X|[i' [j' [X [Y Z0]]]]]; [left; exact X|right; exists i', j'; split; [|split; assumption]]).
        -- right; exact X.
        -- destruct X as [X|X]; [|exact X]. injection X as <- <-. exfalso. unfold names_position in *. lia.
    + split; (intros [X|[i' [j' [X [Y Z0]]]]]; [left; exact X|right; exists i', j'; split; [|split; assumption]]).
      * right; exact X.
      * destruct X as [X|X]; [|exact X]. injection X as <- <-. exfalso. unfold names_position in *. lia.
Qed.

Lemma mask_cells_ok : forall I J cells m0,
  (exists m, mask_cells I J cells m0 = Ok m) <->
  (forall i j, In (i, j) cells -> (exists a, names_position I i a) /\ (exists b, names_position J j b)).
Proof.
  intros I J cells; induction cells as [|[i j] cells IH]; intros m0; cbn [mask_cells].
  - split; [intros _ i j []|eauto].
  - split.
    + intros [m H]. apply rbind_Ok_inv in H as [x [Ex H]]. apply rbind_Ok_inv in H as [y [Ey H]].
      apply np_index_ok in Ex, Ey. intros i' j' [E|Hin].
      * injection E as <- <-. split; eauto.
      * apply (proj1 (IH _) (ex_intro _ _ H)). exact Hin.
    + intros H. destruct (H i j (or_introl eq_refl)) as [[a Ha] [b Hb]].
      rewrite (proj2 (np_index_ok _ _ _) Ha), (proj2 (np_index_ok _ _ _) Hb). cbn [rbind].
      apply IH. intros i' j' Hin. apply H. right; exact Hin.
Qed.

(** The mask is made exactly when every cell names a position of the table, and
    then marks exactly the named positions. *)
Theorem C94_mask_marks_listed_cells : forall I J cells,
  ((exists m, create_mask I J cells = Ok m) <->
   (forall i j, In (i, j) cells -> (exists a, names_position I i a) /\ (exists b, names_position J j b))) /\
  (forall m, create_mask I J cells = Ok m -> forall a b,
     m a b = true <-> exists i j, In (i, j) cells /\ names_position I i a /\ names_position J j b).
Proof.
  intros I J cells; split; [apply mask_cells_ok|].
  intros m H a b. unfold create_mask in H. rewrite (mask_cells_spec _ _ _ _ _ H a b).
  split; [intros [X|X]; [discriminate|exact X]|auto].
Qed.
Print Assumptions C94_mask_marks_listed_cells.

(** Without negative numbers: exactly the listed cells. *)
Definition cell_ok (I J : nat) (c : Z * Z) : Prop :=
  (0 <= fst c < Z.of_nat I)%Z /\ (0 <= snd c < Z.of_nat J)%Z.

Theorem C94_ordinary_cells : forall I J cells, Forall (cell_ok I J) cells ->
  exists m, create_mask I J cells = Ok m /\
  forall a b, m a b = true <-> In (Z.of_nat a, Z.of_nat b) cells.
Proof.
  intros I J cells H. rewrite Forall_forall in H.
  assert (HE : exists m, create_mask I J cells = Ok m).
  { apply mask_cells_ok. intros i j Hin. specialize (H _ Hin). unfold cell_ok in H; cbn [fst snd] in H.
    split; [exists (Z.to_nat i)|exists (Z.to_nat j)]; unfold names_position; lia. }
  destruct HE as [m Hm]. exists m. split; [exact Hm|]. intros a b.
  rewrite (proj2 (C94_mask_marks_listed_cells I J cells) m Hm a b). split.
  - intros [i [j [Hin [Ha Hb]]]]. pose proof (H _ Hin) as Hc. unfold cell_ok in Hc; cbn [fst snd] in Hc.
    unfold names_position in *. replace (Z.of_nat a) with i by lia. replace (Z.of_nat b) with j by lia. exact Hin.
  - intros Hin. pose proof (H _ Hin) as Hc. unfold cell_ok in Hc; cbn [fst snd] in Hc.
    exists (Z.of_nat a), (Z.of_nat b). unfold names_position. split; [exact Hin|lia].
Qed.
Print Assumptions C94_ordinary_cells.

Example C94_nonvacuous :
  exists m, create_mask 2 3 [(0, 1); (-1, -3)]%Z = Ok m /\
    m 0 1 = true /\ m 1 0 = true /\ m 0 0 = false /\ m 1 2 = false /\
  create_mask 2 3 [(0, 3)]%Z = Raise EIndex.
Proof. eexists. split; [reflexivity|]. repeat split. Qed.

(** ---- C95 ---------------------------------------------------------------- *)

Lemma ravel_ok : forall I J c, cell_ok I J c -> exists k, ravel I J c = Ok k /\
  unravel J k = (Z.to_nat (fst c), Z.to_nat (snd c)).
Proof.
  intros I J [i j] H; unfold cell_ok in H; cbn [fst snd] in H. unfold ravel.
  replace ((0 <=? i)%Z && (i <? Z.of_nat I)%Z && (0 <=? j)%Z && (j <? Z.of_nat J)%Z) with true by lia.
  eexists; split; [reflexivity|]. unfold unravel; cbn [fst snd].
  rewrite Nat.div_add_l by lia. rewrite Nat.div_small by lia. rewrite Nat.add_0_r.
  rewrite Nat.add_comm, Nat.mod_add by lia. rewrite Nat.mod_small by lia. reflexivity.
Qed.

Lemma ravel_bad : forall I J c, ~ cell_ok I J c -> ravel I J c = Raise EValue.
Proof.
  intros I J [i j] H; unfold cell_ok in H; cbn [fst snd] in H. unfold ravel.
  destruct ((0 <=? i)%Z && (i <? Z.of_nat I)%Z && (0 <=? j)%Z && (j <? Z.of_nat J)%Z) eqn:E; [|reflexivity].
  exfalso; lia.
Qed.

Definition positions (cs : list (Z * Z)) : list (nat * nat) :=
  map (fun c => (Z.to_nat (fst c), Z.to_nat (snd c))) cs.

Lemma ravel_all_ok : forall I J cs, Forall (cell_ok I J) cs ->
  exists flat, ravel_all I J cs = Ok flat /\ map (unravel J) flat = positions cs.
Proof.
  intros I J cs H; induction H as [|c cs Hc _ [flat [E1 E2]]]; cbn [ravel_all positions map].
  - exists []; split; reflexivity.
  - destruct (ravel_ok I J c Hc) as [k [Ek Eu]]. exists (k :: flat). rewrite Ek, E1. cbn [rbind map].
    split; [reflexivity|]. rewrite Eu, E2. reflexivity.
Qed.

Lemma ravel_all_bad : forall I J cs, ~ Forall (cell_ok I J) cs -> ravel_all I J cs = Raise EValue.
Proof.
  intros I J cs; induction cs as [|c cs IH]; intros H; [destruct H; constructor|].
  cbn [ravel_all].
  destruct (ravel I J c) as [k|e] eqn:E.
  - cbn [rbind]. rewrite IH; [reflexivity|]. intros F. apply H. constructor; [|exact F].
    assert (cell_ok I J c \/ ~ cell_ok I J c) as [X|X] by (unfold cell_ok; lia); [exact X|].
    rewrite (ravel_bad _ _ _ X) in E. discriminate.
  - assert (cell_ok I J c \/ ~ cell_ok I J c) as [X|X] by (unfold cell_ok; lia).
    + destruct (ravel_ok _ _ _ X) as [k [Y _]]. congruence.
    + rewrite (ravel_bad _ _ _ X) in E. injection E as <-. reflexivity.
Qed.

Lemma write_all_other : forall V pos (vals : list V) g i j, ~ In (i, j) pos -> write_all pos vals g i j = g i j.
Proof.
  intros V pos; induction pos as [|[a b] pos IH]; intros [|v vals] g i j H; cbn [write_all]; try reflexivity.
  rewrite IH by (intros X; apply H; right; exact X). unfold put.
  destruct (Nat.eqb_spec i a) as [->|]; [|reflexivity]. destruct (Nat.eqb_spec j b) as [->|]; [|reflexivity].
  destruct H; left; reflexivity.
Qed.

Lemma write_all_at : forall V (d : V) pos vals g k, NoDup pos -> List.length vals = List.length pos ->
  k < List.length pos -> let c := nth k pos (0, 0) in write_all pos vals g (fst c) (snd c) = nth k vals d.
Proof.
  intros V d pos; induction pos as [|[a b] pos IH]; intros [|v vals] g k HN HL HK; cbn in HL, HK; try lia.
  inversion HN; subst. destruct k as [|k]; cbn [nth write_all].
  - cbn [fst snd]. rewrite write_all_other by assumption. unfold put. rewrite !Nat.eqb_refl. reflexivity.
  - apply IH; [assumption|lia|lia].
Qed.

Lemma positions_nodup : forall I J cs, Forall (cell_ok I J) cs -> NoDup cs -> NoDup (positions cs).
Proof.
  intros I J cs HF HN; induction HN as [|c cs Hc HN IH]; cbn [positions map]; [constructor|].
  inversion HF as [|? ? Hok HF']; subst. constructor; [|apply IH; assumption].
  intros X. apply in_map_iff in X as [c' [E Hin]]. apply Hc.
  rewrite Forall_forall in HF'. specialize (HF' _ Hin). destruct c as [i j], c' as [i' j'].
  unfold cell_ok in *; cbn [fst snd] in *. injection E as E1 E2.
  replace i with i' by lia. replace j with j' by lia. exact Hin.
Qed.

(** The cell a pair of numbers names. *)
Definition cell_of (c : Z * Z) : nat * nat := (Z.to_nat (fst c), Z.to_nat (snd c)).

Lemma populate_ok : forall V (zero d : V) I J index vals,
  Forall (cell_ok I J) index -> NoDup index -> List.length vals = List.length index ->
  exists g, populate_array zero I J index vals = Ok g /\
    (forall k c, nth_error index k = Some c -> g (fst (cell_of c)) (snd (cell_of c)) = nth k vals d).
Proof.
  intros V zero d I J index vals HF HN HL. unfold populate_array.
  destruct (ravel_all_ok I J index HF) as [flat [E1 E2]]. rewrite E1. cbn [rbind]. rewrite E2.
  assert (EL : List.length (positions index) = List.length index) by apply map_length.
  rewrite EL, HL, Nat.eqb_refl. eexists; split; [reflexivity|].
  intros k c Hk.
  assert (HK : k < List.length index) by (apply nth_error_Some; congruence).
  pose proof (write_all_at V d (positions index) vals (fun _ _ => zero) k
    (positions_nodup I J index HF HN) ltac:(lia) ltac:(lia)) as W. cbn zeta in W.
  assert (EP : nth k (positions index) (0, 0) = cell_of c).
  { unfold positions. apply nth_error_nth. rewrite nth_error_map, Hk. reflexivity. }
  rewrite EP in W. exact W.
Qed.

Lemma cell_of_inj : forall I J c c', cell_ok I J c -> cell_ok I J c' -> cell_of c = cell_of c' -> c = c'.
Proof.
  intros I J [i j] [i' j'] H H' E; unfold cell_ok, cell_of in *; cbn [fst snd] in *.
  injection E as E1 E2. f_equal; lia.
Qed.

(** Every table written by a comparison experiment holds, at each evaluation
    cell, the prediction that iteration made for that cell; at every training
    cell that is not evaluated, the observed value; elsewhere the fill value. *)
Theorem C95_predictions_in_their_cells : forall V (zero fill d : V) I J truth train eval preds,
  Forall (cell_ok I J) train -> Forall (cell_ok I J) eval -> NoDup eval ->
  Forall (fun p => List.length p = List.length eval) preds ->
  exists tables, comparison_run zero fill I J truth train eval preds = Ok tables /\
  List.length tables = List.length preds /\
  forall t g p, nth_error tables t = Some g -> nth_error preds t = Some p ->
    (forall k c, nth_error eval k = Some c -> g (fst (cell_of c)) (snd (cell_of c)) = nth k p d) /\
    (forall c, In c train -> ~ In c eval -> g (fst (cell_of c)) (snd (cell_of c)) = truth (fst (cell_of c)) (snd (cell_of c))) /\
    (forall c, cell_ok I J c -> ~ In c train -> ~ In c eval -> g (fst (cell_of c)) (snd (cell_of c)) = fill).
Proof.
  intros V zero fill d I J truth train eval preds HT HE HN HP.
  unfold comparison_run.
  destruct (C94_ordinary_cells I J train HT) as [tm [Et Mt]].
  destruct (C94_ordinary_cells I J eval HE) as [em [Ee Me]].
  rewrite Et, Ee. cbn [rbind].
  set (cur0 := where_ tm truth (fun _ _ => fill)).
  assert (G : forall cur, (forall c, cell_ok I J c -> ~ In c eval ->
      cur (fst (cell_of c)) (snd (cell_of c)) = cur0 (fst (cell_of c)) (snd (cell_of c))) ->
    exists tables, prediction_loop zero I J em eval preds cur = Ok tables /\ List.length tables = List.length preds /\
    forall t g p, nth_error tables t = Some g -> nth_error preds t = Some p ->
      (forall k c, nth_error eval k = Some c -> g (fst (cell_of c)) (snd (cell_of c)) = nth k p d) /\
      (forall c, cell_ok I J c -> ~ In c eval -> g (fst (cell_of c)) (snd (cell_of c)) = cur0 (fst (cell_of c)) (snd (cell_of c)))).
  { clearbody cur0. induction HP as [|p preds Hp HP IH]; intros cur Hcur; cbn [prediction_loop].
    - exists []. split; [reflexivity|]. split; [reflexivity|]. intros [|t] g p X; discriminate.
    - destruct (populate_ok V zero d I J eval p HE HN Hp) as [a [Ea Ha]]. rewrite Ea. cbn [rbind].
      assert (MC : forall c, cell_ok I J c -> em (fst (cell_of c)) (snd (cell_of c)) = true <-> In c eval).
      { intros [i j] Hc. unfold cell_ok in Hc; cbn [fst snd] in Hc. rewrite Me. unfold cell_of; cbn [fst snd].
        rewrite !Z2Nat.id by lia. tauto. }
      assert (Hcur' : forall c, cell_ok I J c -> ~ In c eval ->
        where_ em a cur (fst (cell_of c)) (snd (cell_of c)) = cur0 (fst (cell_of c)) (snd (cell_of c))).
      { intros c Hc Hn. unfold where_. destruct (em (fst (cell_of c)) (snd (cell_of c))) eqn:Em.
        - apply MC in Em; [contradiction|exact Hc].
        - apply Hcur; assumption. }
      destruct (IH _ Hcur') as [tables [E1 [E2 E3]]]. rewrite E1. cbn [rbind].
      eexists; split; [reflexivity|]. split; [cbn; lia|].
      intros [|t] g p' Hg Hp'; cbn [nth_error] in Hg, Hp'.
      + injection Hg as <-. injection Hp' as <-. split; [|exact Hcur'].
        intros k c Hk. unfold where_.
        assert (Hin : In c eval) by (eapply nth_error_In; exact Hk).
        assert (Hc : cell_ok I J c) by (rewrite Forall_forall in HE; apply HE; exact Hin).
        rewrite (proj2 (MC c Hc) Hin). apply Ha; exact Hk.
      + apply (E3 t); assumption. }
  destruct (G cur0 ltac:(reflexivity)) as [tables [E1 [E2 E3]]].
  exists tables. split; [exact E1|]. split; [exact E2|].
  intros t g p Hg Hp. destruct (E3 t g p Hg Hp) as [A B]. split; [exact A|].
  assert (TC : forall c, cell_ok I J c -> tm (fst (cell_of c)) (snd (cell_of c)) = true <-> In c train).
  { intros [i j] Hc. unfold cell_ok in Hc; cbn [fst snd] in Hc. rewrite Mt. unfold cell_of; cbn [fst snd].
    rewrite !Z2Nat.id by lia. tauto. }
  split.
  - intros c Hin Hn. rewrite Forall_forall in HT. rewrite (B c (HT _ Hin) Hn). unfold cur0, where_.
    rewrite (proj2 (TC c (HT _ Hin)) Hin). reflexivity.
  - intros c Hc Hn He. rewrite (B c Hc He). unfold cur0, where_.
    destruct (tm (fst (cell_of c)) (snd (cell_of c))) eqn:E; [|reflexivity].
    apply TC in E; [contradiction|exact Hc].
Qed.
Print Assumptions C95_predictions_in_their_cells.

(** A cell that the mask accepts by counting from the end, or that is outside
    the table, stops the run at its first prediction. *)
Theorem C95_other_cells_raise : forall V (zero fill : V) I J truth train eval p preds,
  ~ Forall (cell_ok I J) eval ->
  exists e, comparison_run zero fill I J truth train eval (p :: preds) = Raise e.
Proof.
  intros V zero fill I J truth train eval p preds H. unfold comparison_run.
  destruct (create_mask I J train); cbn [rbind]; [|eauto].
  destruct (create_mask I J eval); cbn [rbind]; [|eauto].
  cbn [prediction_loop]. unfold populate_array. rewrite (ravel_all_bad _ _ _ H). cbn. eauto.
Qed.
Print Assumptions C95_other_cells_raise.

(** A wrong number of predictions is refused, except a single one, which is
    written to every evaluation cell. *)
Theorem C95_number_of_predictions : forall V (zero : V) I J index vals,
  Forall (cell_ok I J) index ->
  ((exists g, populate_array zero I J index vals = Ok g) <->
   List.length vals = List.length index \/ List.length vals = 1).
Proof.
  intros V zero I J index vals HF. unfold populate_array.
  destruct (ravel_all_ok I J index HF) as [flat [E1 E2]]. rewrite E1. cbn [rbind]. rewrite E2.
  assert (EL : List.length (positions index) = List.length index) by apply map_length. rewrite EL.
  destruct (Nat.eqb_spec (List.length vals) (List.length index)) as [E|E].
  - split; [auto|eauto].
  - destruct vals as [|v [|w vals]].
    + split; [intros [g X]; discriminate|cbn in *; intros [X|X]; lia].
    + split; [auto|eauto].
    + split; [intros [g X]; discriminate|]. intros [X|X]; [contradiction|cbn in X; lia].
Qed.
Print Assumptions C95_number_of_predictions.

Example C95_nonvacuous :
  exists g1 g2, comparison_run 0%Z (-1)%Z 2 2 (fun i j => Z.of_nat (10 * i + j)) [(1, 0); (1, 1)]%Z [(0, 1); (1, 1)]%Z
    [[5; 6]; [7; 8]]%Z = Ok [g1; g2] /\
  g1 0 1 = 5%Z /\ g1 1 1 = 6%Z /\ g1 1 0 = 10%Z /\ g1 0 0 = (-1)%Z /\ g2 0 1 = 7%Z /\ g2 1 1 = 8%Z.
Proof. eexists; eexists. split; [reflexivity|]. repeat split. Qed.

(** ---- C97 ---------------------------------------------------------------- *)

Section HyperProps.
  Context {V : Type}.

  (** What ends up being used, in words: the suggestion of the trial, otherwise
      the built-in default. *)
  Definition suggestion_or_default (trial : option (list (string * V))) (p : string) (dflt : V) : V :=
    match trial with
    | Some t => match sget p t with Some v => v | None => dflt end
    | None => dflt
    end.

  Lemma app_prefix_inj : forall (p a b : string), (p ++ a = p ++ b)%string -> a = b.
  Proof.
    induction p as [|c p IH]; intros a b H; cbn in H; [exact H|]. injection H as H. apply IH; exact H.
  Qed.

  Lemma hyper_step_ok : forall prefix trial h config p dflt,
    is_dict_attribute p = false ->
    hyper_step prefix trial (h, config) (p, dflt)
    = Ok (sset p (suggestion_or_default trial p dflt) h,
          match config with
          | None => None
          | Some c => Some (sset (prefix ++ p) (suggestion_or_default trial p dflt) c)
          end).
  Proof.
    intros prefix trial h config p dflt Ha. unfold hyper_step, suggestion_or_default. rewrite Ha. cbn [negb].
    assert (G : forall v, sget p (sset p v h) = Some v) by (intros v; rewrite sget_sset, String.eqb_refl; reflexivity).
    destruct trial as [t|]; [destruct (sget p t) as [v|]|]; destruct config as [c|]; cbn [rbind];
      rewrite ?G; reflexivity.
  Qed.

  Lemma hyper_loop_ok : forall prefix trial defaults h config,
    NoDup (map fst defaults) -> (forall p, In p (map fst defaults) -> is_dict_attribute p = false) ->
    exists h' config', hyper_loop prefix trial defaults (h, config) = Ok (h', config') /\
    (forall p dflt, In (p, dflt) defaults -> sget p h' = Some (suggestion_or_default trial p dflt)) /\
    (forall p, ~ In p (map fst defaults) -> sget p h' = sget p h) /\
    match config, config' with
    | None, None => True
    | Some c, Some c' =>
      (forall p dflt, In (p, dflt) defaults -> sget (prefix ++ p) c' = Some (suggestion_or_default trial p dflt)) /\
      (forall q, (forall p, In p (map fst defaults) -> q <> (prefix ++ p)%string) -> sget q c' = sget q c)
    | _, _ => False
    end.
  Proof.
    intros prefix trial defaults; induction defaults as [|[p dflt] defaults IH]; intros h config HN HA.
    - exists h, config. cbn [hyper_loop]. split; [reflexivity|]. split; [intros ? ? []|]. split; [auto|].
      destruct config as [c|]; [|exact Logic.I]. split; [intros ? ? []|auto].
    - cbn [map fst] in HN, HA. inversion HN; subst.
      cbn [hyper_loop]. rewrite hyper_step_ok by (apply HA; left; reflexivity). cbn [rbind].
      destruct (IH (sset p (suggestion_or_default trial p dflt) h)
        (match config with
         | None => None
         | Some c => Some (sset (prefix ++ p) (suggestion_or_default trial p dflt) c)
         end) ltac:(assumption) ltac:(intros q Hq; apply HA; right; exact Hq))
        as [h' [c' [E [E1 [E2 E3]]]]].
      exists h', c'. split; [exact E|]. split; [|split].
      + intros q dq [X|X]; [|apply E1; exact X]. injection X as <- <-.
        rewrite E2 by assumption. rewrite sget_sset, String.eqb_refl. reflexivity.
      + intros q Hq. rewrite E2 by (intros X; apply Hq; right; exact X). rewrite sget_sset.
        destruct (String.eqb_spec q p) as [->|]; [|reflexivity]. destruct Hq; left; reflexivity.
      + destruct config as [c|]; destruct c' as [c'|]; try assumption. destruct E3 as [E3 E4]. split.
        * intros q dq [X|X]; [|apply E3; exact X]. injection X as <- <-.
          rewrite E4; [rewrite sget_sset, String.eqb_refl; reflexivity|].
          intros p' Hp' X. apply app_prefix_inj in X. subst p'. contradiction.
        * intros q Hq. rewrite E4 by (intros p' Hp'; apply Hq; right; exact Hp'). rewrite sget_sset.
          destruct (String.eqb_spec q (prefix ++ p)) as [->|]; [|reflexivity].
          destruct (Hq p (or_introl eq_refl) eq_refl).
  Qed.

  (** The hyper-parameters used are the trial's suggestions or the built-in
      defaults, whatever the configuration says, and the configuration's
      entries are overwritten with them. *)
  Theorem C97_hyperparameters_exact_partial : forall prefix trial (defaults start : list (string * V)) config,
    NoDup (map fst defaults) -> (forall p, In p (map fst defaults) -> ~ In p dict_attributes) ->
    exists h config', update_hyperparameters prefix trial defaults start config = Ok (h, config') /\
    (forall p dflt, In (p, dflt) defaults -> sget p h = Some (suggestion_or_default trial p dflt)) /\
    (forall p, ~ In p (map fst defaults) -> sget p h = sget p start) /\
    match config, config' with
    | None, None => True
    | Some c, Some c' =>
      (forall p dflt, In (p, dflt) defaults -> sget (prefix ++ p) c' = Some (suggestion_or_default trial p dflt)) /\
      (forall q, (forall p, In p (map fst defaults) -> q <> (prefix ++ p)%string) -> sget q c' = sget q c)
    | _, _ => False
    end.
  Proof.
    intros prefix trial defaults start config HN HA. apply hyper_loop_ok; [exact HN|].
    intros p Hp. specialize (HA p Hp). unfold is_dict_attribute.
    destruct (existsb (String.eqb p) dict_attributes) eqn:E; [|reflexivity].
    apply existsb_exists in E as [x [Hx Ex]]. apply String.eqb_eq in Ex. subst x. contradiction.
  Qed.
End HyperProps.
Print Assumptions C97_hyperparameters_exact_partial.

(** The five models are all covered. *)
Theorem C97_models_covered : forall names, In names hyper_names ->
  NoDup names /\ forall p, In p names -> ~ In p dict_attributes.
Proof.
  intros names H. unfold hyper_names in H. cbn [In] in H.
  assert (forall l : list string, (nodup string_dec l = l) -> NoDup l) as ND
    by (intros l E; rewrite <- E; apply NoDup_nodup).
  assert (forall l, forallb (fun p => negb (is_dict_attribute p)) l = true ->
    forall p, In p l -> ~ In p dict_attributes) as NA.
  { intros l E p Hp X. rewrite forallb_forall in E. specialize (E p Hp).
    assert (is_dict_attribute p = true); [|rewrite H0 in E; discriminate].
    apply existsb_exists. exists p. split; [exact X|apply String.eqb_refl]. }
  repeat match goal with H : _ \/ _ |- _ => destruct H as [H|H] end; try contradiction; subst names;
    (split; [apply ND; vm_compute; reflexivity|apply NA; vm_compute; reflexivity]).
Qed.
Print Assumptions C97_models_covered.

(** A depth of 3 asked for in the configuration: the model gets the built-in 8,
    and the configuration is changed to 8. *)
Theorem C97_configured_value_refuted : exists (defaults config : list (string * Z)) h c',
  sget "xg_max_depth" config = Some 3%Z /\
  update_hyperparameters "xg_" None defaults [] (Some config) = Ok (h, Some c') /\
  sget "max_depth" h = Some 8%Z /\ sget "xg_max_depth" c' = Some 8%Z.
Proof.
  exists [("max_depth", 8%Z)], [("xg_max_depth", 3%Z)]. eexists; eexists.
  split; [reflexivity|]. split; [reflexivity|]. split; reflexivity.
Qed.
Print Assumptions C97_configured_value_refuted.

Example C97_nonvacuous :
  update_hyperparameters "rf_" (Some [("max_depth", 4%Z)]) [("max_depth", 8%Z); ("min_samples_split", 10%Z)]
    [("n_estimators", 100%Z)] (Some [("rf_max_depth", 3%Z)])
  = Ok ([("n_estimators", 100%Z); ("max_depth", 4%Z); ("min_samples_split", 10%Z)],
        Some [("rf_max_depth", 4%Z); ("rf_min_samples_split", 10%Z)]).
Proof. reflexivity. Qed.

(** ---- C98 ---------------------------------------------------------------- *)

(** The setting of layer k: the last entry given for it, or the default. *)
Fixpoint layer_setting {A} (sp : list (Z * A)) (dflt : A) (k : nat) : A :=
  match sp with
  | [] => dflt
  | (z, v) :: rest => layer_setting rest (if (z =? Z.of_nat k)%Z then v else dflt) k
  end.

Lemma list_set_ok : forall A (l : list A) z v, (0 <= z < Z.of_nat (List.length l))%Z ->
  list_set l z v = Ok (upd_nth (Z.to_nat z) (fun _ => v) l).
Proof.
  intros A l z v H. unfold list_set, np_index.
  replace ((0 <=? z)%Z && (z <? Z.of_nat (List.length l))%Z) with true by lia. reflexivity.
Qed.

Lemma set_layers_ok : forall A conv (sp : list (layer_id * A)) (zs : list (Z * A)) l,
  Forall2 (fun a b => conv (fst a) = Ok (fst b) /\ snd a = snd b) sp zs ->
  Forall (fun b => (0 <= fst b < Z.of_nat (List.length l))%Z) zs ->
  exists l', set_layers conv sp l = Ok l' /\ List.length l' = List.length l /\
    forall k d, k < List.length l -> nth k l' d = layer_setting zs (nth k l d) k.
Proof.
  intros A conv sp zs l H; revert l; induction H as [|[k v] [z w] sp zs [Hc Hv] H IH]; intros l HF.
  - exists l. cbn. auto.
  - cbn [fst snd] in Hc, Hv. subst w. inversion HF as [|? ? Hz HF']; subst. cbn [fst] in Hz.
    cbn [set_layers]. rewrite Hc. cbn [rbind]. rewrite list_set_ok by exact Hz. cbn [rbind].
    destruct (IH (upd_nth (Z.to_nat z) (fun _ => v) l)) as [l' [E1 [E2 E3]]].
    { rewrite upd_nth_length. exact HF'. }
    rewrite upd_nth_length in *. exists l'. split; [exact E1|]. split; [exact E2|].
    intros i d Hi. rewrite E3 by exact Hi. cbn [layer_setting]. rewrite upd_nth_nth by lia.
    destruct (Nat.eqb_spec i (Z.to_nat z)) as [->|Ni].
    + replace (z =? Z.of_nat (Z.to_nat z))%Z with true by lia. reflexivity.
    + replace (z =? Z.of_nat i)%Z with false by lia. reflexivity.
Qed.

Lemma as_index_ids : forall A (zs : list (Z * A)),
  Forall2 (fun a b => as_index (fst a) = Ok (fst b) /\ snd a = snd b) (map (fun p => (LId (fst p), snd p)) zs) zs.
Proof. intros A zs; induction zs as [|[z v] zs IH]; constructor; auto. Qed.

Lemma nth_repeat_lt : forall A (x d : A) n k, k < n -> nth k (repeat x n) d = x.
Proof. intros A x d n; induction n as [|n IH]; intros [|k] H; cbn; try lia; auto. apply IH; lia. Qed.

(** With n hidden layers whose settings are given by integer, the network has
    n+1 linear layers that fit together: layer 0 reads the input, the last one
    writes the output, layer i writes as many values as layer i+1 reads, and
    hidden layer k has the width and each layer the bias asked for. *)
Theorem C98_layers_as_configured : forall (B : Type) input output n (dw : nat) (ws : list (Z * nat)) (db : B) bs,
  Forall (fun p => (0 <= fst p < Z.of_nat n)%Z) ws ->
  Forall (fun p => (0 <= fst p < Z.of_nat (S n))%Z) bs ->
  exists arch bias,
    get_architecture input output n dw (map (fun p => (LId (fst p), snd p)) ws) = Ok arch /\
    get_bias n db (map (fun p => (LId (fst p), snd p)) bs) = Ok bias /\
    List.length (layers arch bias) = S n /\
    forall i, i <= n ->
      nth_error (layers arch bias) i
      = Some (match i with O => input | S k => layer_setting ws dw k end,
              if Nat.eqb i n then output else layer_setting ws dw i,
              layer_setting bs db i).
Proof.
  intros B input output n dw ws db bs HW HB.
  destruct (set_layers_ok nat as_index _ ws (repeat dw n) (as_index_ids _ ws)) as [l [E1 [L1 N1]]].
  { rewrite repeat_length. exact HW. }
  destruct (set_layers_ok B as_index _ bs (repeat db (S n)) (as_index_ids _ bs)) as [b [E2 [L2 N2]]].
  { rewrite repeat_length. exact HB. }
  rewrite repeat_length in *.
  exists (input :: l ++ [output]), b.
  split; [unfold get_architecture; rewrite E1; reflexivity|]. split; [exact E2|].
  unfold layers. rewrite app_comm_cons, removelast_last. cbn [tl app].
  change (tl ((input :: l) ++ [output])) with (l ++ [output]).
  assert (EL : List.length (combine (combine (input :: l) (l ++ [output])) b) = S n).
  { rewrite !combine_length, app_length. cbn [List.length]. lia. }
  split; [exact EL|].
  intros i Hi.
  assert (NE : forall X (m : list X) k d, k < List.length m -> nth_error m k = Some (nth k m d)).
  { intros X m k d Hk. apply nth_error_nth'. exact Hk. }
  rewrite (NE _ _ i ((input, input), db)) by lia.
  rewrite combine_nth by (rewrite combine_length, app_length; cbn [List.length]; lia).
  rewrite combine_nth by (rewrite app_length; cbn [List.length]; lia).
  rewrite N2 by lia. rewrite nth_repeat_lt by lia.
  f_equal. f_equal. f_equal.
  - destruct i as [|k]; [reflexivity|]. cbn [nth]. rewrite N1 by lia. rewrite nth_repeat_lt by lia. reflexivity.
  - destruct (Nat.eqb_spec i n) as [->|Ni].
    + rewrite app_nth2 by lia. rewrite L1, Nat.sub_diag. reflexivity.
    + rewrite app_nth1 by lia. rewrite N1 by lia. rewrite nth_repeat_lt by lia. reflexivity.
Qed.
Print Assumptions C98_layers_as_configured.

(** Activation functions: layer number by integer or text, named functions. *)
Lemma act_funcs_ok : forall known sp zs l,
  Forall2 (fun a b => as_int (fst a) = Ok (fst b) /\ single_layer_func known (snd a) = Ok (snd b)) sp zs ->
  Forall (fun b => (0 <= fst b < Z.of_nat (List.length l))%Z) zs ->
  exists l', act_funcs known sp l = Ok l' /\ List.length l' = List.length l /\
    forall k d, k < List.length l -> nth k l' d = layer_setting zs (nth k l d) k.
Proof.
  intros known sp zs l H; revert l; induction H as [|[k c] [z f] sp zs [Hc Hv] H IH]; intros l HF.
  - exists l. cbn. auto.
  - cbn [fst snd] in Hc, Hv. inversion HF as [|? ? Hz HF']; subst. cbn [fst] in Hz.
    cbn [act_funcs]. rewrite Hv. cbn [rbind]. rewrite Hc. cbn [rbind]. rewrite list_set_ok by exact Hz. cbn [rbind].
    destruct (IH (upd_nth (Z.to_nat z) (fun _ => f) l)) as [l' [E1 [E2 E3]]].
    { rewrite upd_nth_length. exact HF'. }
    rewrite upd_nth_length in *. exists l'. split; [exact E1|]. split; [exact E2|].
    intros i d Hi. rewrite E3 by exact Hi. cbn [layer_setting]. rewrite upd_nth_nth by lia.
    destruct (Nat.eqb_spec i (Z.to_nat z)) as [->|Ni].
    + replace (z =? Z.of_nat (Z.to_nat z))%Z with true by lia. reflexivity.
    + replace (z =? Z.of_nat i)%Z with false by lia. reflexivity.
Qed.

Theorem C98_activations_as_configured : forall known n dflt df sp zs,
  single_layer_func known dflt = Ok df ->
  Forall2 (fun a b => as_int (fst a) = Ok (fst b) /\ single_layer_func known (snd a) = Ok (snd b)) sp zs ->
  Forall (fun b => (0 <= fst b < Z.of_nat (S n))%Z) zs ->
  exists fs, get_activation_funcs known n dflt sp = Ok fs /\ List.length fs = S n /\
    forall k, k <= n -> nth_error fs k = Some (layer_setting zs df k).
Proof.
  intros known n dflt df sp zs HD H2 HF. unfold get_activation_funcs. rewrite HD. cbn [rbind].
  destruct (act_funcs_ok known sp zs (repeat df (S n)) H2) as [fs [E1 [E2 E3]]].
  { rewrite repeat_length. exact HF. }
  rewrite repeat_length in *. exists fs. split; [exact E1|]. split; [exact E2|].
  intros k Hk. rewrite (nth_error_nth' fs df) by lia. rewrite E3 by lia. rewrite nth_repeat_lt by lia. reflexivity.
Qed.
Print Assumptions C98_activations_as_configured.

(** Layer numbers of a configuration file are texts: widths and biases given
    for a layer then raise TypeError. *)
Theorem C98_text_layer_raises : forall (A : Type) input output n (dflt v : A) s rest,
  get_architecture input output n dflt ((LText s, v) :: rest) = Raise EType /\
  get_bias n dflt ((LText s, v) :: rest) = Raise EType.
Proof. intros. split; reflexivity. Qed.
Print Assumptions C98_text_layer_raises.

(** The documented dictionary form of an activation function never works. *)
Theorem C98_activation_dictionary_refuted : forall known n k rest dflt df,
  single_layer_func known dflt = Ok df ->
  get_activation_funcs known n dflt ((k, ActDict) :: rest) = Raise EAttr.
Proof. intros known n k rest dflt df H. unfold get_activation_funcs. rewrite H. reflexivity. Qed.
Print Assumptions C98_activation_dictionary_refuted.

Example C98_nonvacuous :
  exists arch bias,
    get_architecture 5 2 2 20 [(LId 1, 30)] = Ok arch /\ get_bias 2 true [(LId 0, false)] = Ok bias /\
    layers arch bias = [(5, 20, false); (20, 30, true); (30, 2, true)] /\
  get_activation_funcs [("linear", None); ("abs", Some "torch.abs")] 1 (ActName "linear") [(LText "1", ActName "abs")]
  = Ok [None; Some "torch.abs"].
Proof. eexists; eexists. split; [reflexivity|]. repeat split. Qed.

(** ---- C100 --------------------------------------------------------------- *)

(** Without negative samples, the mini-batches of one pass hold every training
    sample exactly once, none is empty or too long. *)
Theorem C100_minibatches_partition : forall (A : Type) shuffle batch_size (train : list A),
  (0 < batch_size)%Z -> (forall l : list A, Permutation (shuffle l) l) ->
  exists batches, generate_mini_batches 0 shuffle batch_size train = Ok batches /\
    Permutation (List.concat batches) train /\
    Forall (fun b => 0 < List.length b /\ (Z.of_nat (List.length b) <= batch_size)%Z) batches /\
    (forall i b, nth_error batches i = Some b -> S i < List.length batches -> Z.of_nat (List.length b) = batch_size).
Proof.
  intros A shuffle bs train Hb HS. unfold generate_mini_batches, negative_sampling. cbn [Z.eqb rbind].
  destruct (C48_chunks A (shuffle train) bs Hb) as [ch [E1 [E2 [E3 E4]]]].
  exists ch. split; [exact E1|]. split; [rewrite E2; apply HS|]. split; assumption.
Qed.
Print Assumptions C100_minibatches_partition.

Example C100_nonvacuous :
  generate_mini_batches 0 (@rev nat) 2 [1; 2; 3] = Ok [[3; 2]; [1]] /\
  (forall l : list nat, Permutation (rev l) l).
Proof. split; [reflexivity|]. intros l. symmetry. apply Permutation_rev. Qed.

(** ---- C101 --------------------------------------------------------------- *)

(** Any positive rate of negative samples makes the training pass fail. *)
Theorem C101_negative_samples_refuted : forall (A : Type) rate shuffle batch_size (train : list A),
  rate <> 0%Z -> generate_mini_batches rate shuffle batch_size train = Raise EAttr.
Proof.
  intros A rate shuffle bs train H. unfold generate_mini_batches, negative_sampling.
  destruct (Z.eqb_spec rate 0); [contradiction|reflexivity].
Qed.
Print Assumptions C101_negative_samples_refuted.

(** Rate 0 adds nothing. *)
Theorem C101_rate_zero_partial : forall (A : Type) shuffle batch_size (train : list A) batches,
  (forall l : list A, Permutation (shuffle l) l) ->
  (0 < batch_size)%Z -> generate_mini_batches 0 shuffle batch_size train = Ok batches ->
  forall x, In x (List.concat batches) <-> In x train.
Proof.
  intros A shuffle bs train batches HS Hb E x.
  destruct (C100_minibatches_partition A shuffle bs train Hb HS) as [ch [E1 [E2 _]]].
  rewrite E in E1. injection E1 as <-. split; apply Permutation_in; [exact E2|symmetry; exact E2].
Qed.
Print Assumptions C101_rate_zero_partial.

Example C101_nonvacuous :
  generate_mini_batches 2 (@rev nat) 2 [1; 2; 3] = Raise EAttr /\
  generate_mini_batches 0 (@rev nat) 2 [1; 2; 3] = Ok [[3; 2]; [1]].
Proof. split; reflexivity. Qed.

(** ---- C104 --------------------------------------------------------------- *)

Lemma graph_edges_in : forall n w i j x,
  In (i, j, x) (graph_edges n w) <-> i < n /\ j < n /\ x = w i j /\ w i j <> 0%Z.
Proof.
  intros n w i j x; unfold graph_edges. rewrite in_flat_map. split.
  - intros [a [Ha H]]. apply in_flat_map in H as [b [Hb H]]. apply in_seq in Ha, Hb.
    destruct (Z.eqb_spec (w a b) 0); [destruct H|]. destruct H as [E|[]]. injection E as <- <- <-.
    repeat split; lia.
  - intros [Hi [Hj [-> Hn]]]. exists i. split; [apply in_seq; lia|]. apply in_flat_map. exists j.
    split; [apply in_seq; lia|]. destruct (Z.eqb_spec (w i j) 0); [contradiction|]. left; reflexivity.
Qed.

(** The edges are the adjacent pairs with non-zero cost, weighted by it. *)
Theorem C104_edges_exact_partial : forall n adj cost i j x,
  In (i, j, x) (graph_edges n (weighted_adjacency adj cost)) <->
  i < n /\ j < n /\ adj i j = true /\ x = cost i j /\ cost i j <> 0%Z.
Proof.
  intros n adj cost i j x. rewrite graph_edges_in. unfold weighted_adjacency.
  destruct (adj i j); split; intros H; repeat split; try tauto; try (destruct H as [_ [_ [_ H]]]; congruence);
    destruct H as [_ [_ [H _]]]; discriminate.
Qed.
Print Assumptions C104_edges_exact_partial.

(** An adjacent pair at distance zero gets no edge. *)
Theorem C104_zero_cost_refuted : exists n adj cost i j,
  i < n /\ j < n /\ adj i j = true /\ forall x, ~ In (i, j, x) (graph_edges n (weighted_adjacency adj cost)).
Proof.
  exists 2, (fun _ _ => true), (fun i j => if Nat.eqb i j then 0%Z else 1%Z), 0, 0.
  split; [lia|]. split; [lia|]. split; [reflexivity|].
  intros x H. apply C104_edges_exact_partial in H as [_ [_ [_ [_ H]]]]. apply H. reflexivity.
Qed.
Print Assumptions C104_zero_cost_refuted.

Example C104_nonvacuous :
  graph_edges 2 (weighted_adjacency (fun i j => negb (Nat.eqb i j)) (fun i j => Z.of_nat (i + 2 * j)))
  = [(0, 1, 2%Z); (1, 0, 1%Z)].
Proof. reflexivity. Qed.
