(** C192: an incomplete table is completed.  Theorems about TableData.v. *)
From Coq Require Import List ZArith Bool Arith Lia.
From Verif Require Import Base Tables TablesProps TableData.
Import ListNotations.
Open Scope Z_scope.

(** ---- specification ----------------------------------------------------------- *)

Definition two_way (s : shape) : Prop := (2 <= nI s)%nat /\ (2 <= nJ s)%nat.
(** the number of classes a margin has: columns, rows, one *)
Definition classes (s : shape) (a : ax) : nat := match a with A0 => nJ s | A1 => nI s | A01 => 1%nat end.
Definition some_negative (s : shape) (t : table) : Prop := exists i j, (i < nI s)%nat /\ (j < nJ s)%nat /\ t i j < 0.
(** data without a complete table, of known sizes *)
Definition lacking (d : given) (s : shape) : Prop :=
  match g_table d with
  | Some (s', t) => s' = s /\ some_negative s t
  | None => g_dims d = Some s
  end.
Definition has (l : marginals) (a : ax) (m : tensor) : Prop := find_margin a l = Some m.
Definition lacks (l : marginals) (a : ax) : Prop := forall m, ~ In (a, m) l.
(** the margins of a dictionary: one entry per key, tensors of the stated shape *)
Definition a_dictionary (l : marginals) : Prop :=
  NoDup (map fst l) /\ forall a m, In (a, m) l -> List.length (t_vals m) = fold_left Nat.mul (t_dims m) 1%nat.
(** an array with one dimension, possibly beside empty ones *)
Definition one_dimensional (m : tensor) : Prop := List.length (filter (fun d => Nat.leb 1 d) (t_dims m)) = 1%nat.
(** the grand total is [n] and the margins given agree with it *)
Definition agreeing (s : shape) (l : marginals) (n : Z) : Prop :=
  (exists m, In (A01, m) l /\ t_vals m = [n]) /\
  forall a m, In (a, m) l -> a <> A01 -> one_dimensional m /\ List.length (t_vals m) = classes s a /\ lsum (t_vals m) = n.
(** what the random generators deliver *)
Definition fair (dr : draws) : Prop :=
  1 <= d_total dr < 50000 /\
  forall a n k, 0 <= n -> (0 < k)%nat -> List.length (d_margin dr a n k) = k /\ lsum (d_margin dr a n k) = n /\
    forall v, In v (d_margin dr a n k) -> 0 <= v.

(** ---- lemmas -------------------------------------------------------------------- *)

Lemma incomplete_spec : forall s t, incomplete s t = true <-> some_negative s t.
Proof.
  intros s t. unfold incomplete, table_nonnegative. rewrite negb_involutive, existsb_exists. split.
  - intros ((i, j) & Hin & H). unfold all_cells in Hin. apply in_prod_iff in Hin as [Hi Hj].
    apply in_seq in Hi, Hj. apply Z.ltb_lt in H. cbn [fst snd] in H. exists i, j. repeat split; try lia.
  - intros (i & j & Hi & Hj & H). exists (i, j). split; [|apply Z.ltb_lt; exact H].
    unfold all_cells. apply in_prod_iff. rewrite !in_seq. lia.
Qed.

Lemma ax_eqb_refl : forall a, ax_eqb a a = true.
Proof. intros a. apply ax_eqb_spec. reflexivity. Qed.
Lemma ax_eqb_neq : forall a b, a <> b -> ax_eqb a b = false.
Proof. intros a b H. destruct (ax_eqb a b) eqn:E; [apply ax_eqb_spec in E; contradiction|reflexivity]. Qed.

Lemma find_In : forall l a m, has l a m -> In (a, m) l.
Proof.
  induction l as [|(b, m') l IH]; intros a m H; [discriminate|]. unfold has in H. cbn [find_margin] in H.
  destruct (ax_eqb a b) eqn:E; [apply ax_eqb_spec in E as ->; injection H as ->; left; reflexivity|right; exact (IH a m H)].
Qed.
Lemma In_find : forall l a m, NoDup (map fst l) -> In (a, m) l -> has l a m.
Proof.
  induction l as [|(b, m') l IH]; intros a m N H; [contradiction|]. unfold has. cbn [find_margin]. inversion N as [|x l' Nin N']; subst.
  destruct H as [H|H]; [injection H as -> ->; rewrite ax_eqb_refl; reflexivity|].
  rewrite ax_eqb_neq; [exact (IH a m N' H)|]. intros ->. apply Nin. change b with (fst (b, m)). apply in_map. exact H.
Qed.
Lemma find_none : forall l a, find_margin a l = None <-> lacks l a.
Proof.
  induction l as [|(b, m') l IH]; intros a; [split; [intros _ m []|reflexivity]|]. cbn [find_margin].
  destruct (ax_eqb a b) eqn:E.
  - apply ax_eqb_spec in E as ->. split; [discriminate|]. intros H. destruct (H m' (or_introl eq_refl)).
  - rewrite IH. split.
    + intros H m [Q|Q]; [injection Q as -> ->; rewrite ax_eqb_refl in E; discriminate|exact (H m Q)].
    + intros H m Q. exact (H m (or_intror Q)).
Qed.
Lemma find_set : forall l a b m, find_margin b (set_margin a m l) = if ax_eqb b a then Some m else find_margin b l.
Proof.
  induction l as [|(c, m') l IH]; intros a b m; cbn [set_margin find_margin]; [reflexivity|].
  destruct (ax_eqb a c) eqn:E.
  - apply ax_eqb_spec in E as ->. cbn [find_margin]. destruct (ax_eqb b c); reflexivity.
  - cbn [find_margin]. rewrite IH. destruct (ax_eqb b c) eqn:F; [|reflexivity].
    apply ax_eqb_spec in F as ->. destruct (ax_eqb c a) eqn:G; [apply ax_eqb_spec in G as ->; rewrite ax_eqb_refl in E; discriminate|reflexivity].
Qed.

Lemma classes_len : forall s a, axis_len s a = classes s a.
Proof. intros s []; reflexivity. Qed.

Lemma check_ok : forall s ms a m, check_margin s ms (a, m) = Ok tt <->
  (exists g, has ms A01 g /\ t_vals g = [lsum (t_vals m)]) /\
  (a <> A01 -> one_dimensional m /\ fold_left Nat.mul (t_dims m) 1%nat = classes s a).
Proof.
  intros s ms a m. unfold check_margin. rewrite classes_len. unfold has, one_dimensional.
  assert (TOT : forall P : Prop, (P -> True) ->
    (match find_margin A01 ms with Some g => if zlist_eqb [lsum (t_vals m)] (t_vals g) then Ok tt else Raise EExn | None => Raise EKey end = Ok tt <->
     exists g, find_margin A01 ms = Some g /\ t_vals g = [lsum (t_vals m)])).
  { intros _ _. destruct (find_margin A01 ms) as [g|].
    - destruct (zlist_eqb [lsum (t_vals m)] (t_vals g)) eqn:E.
      + apply zlist_eqb_spec in E. split; [intros _; exists g; split; [reflexivity|symmetry; exact E]|reflexivity].
      + split; [discriminate|]. intros (g' & Q & E'). injection Q as <-. symmetry in E'. apply zlist_eqb_spec in E'. congruence.
    - split; [discriminate|]. intros (g' & Q & _). discriminate. }
  specialize (TOT True (fun _ => Logic.I)).
  destruct (ax_eqb a A01) eqn:EA; cbn [negb andb].
  - apply ax_eqb_spec in EA. rewrite TOT. split; [intros H; split; [exact H|congruence]|tauto].
  - assert (NA : a <> A01) by (intros ->; rewrite ax_eqb_refl in EA; discriminate).
    destruct (Nat.eqb_spec (List.length (filter (fun d => Nat.leb 1 d) (t_dims m))) 1) as [E1|E1]; cbn [negb];
      [|split; [discriminate|intros [_ H]; destruct (H NA); contradiction]].
    destruct (Nat.eqb_spec (fold_left Nat.mul (t_dims m) 1%nat) (classes s a)) as [E2|E2]; cbn [negb];
      [|split; [discriminate|intros [_ H]; destruct (H NA); contradiction]].
    rewrite TOT. split; [intros H; split; [exact H|auto]|tauto].
Qed.

Lemma checks_ok : forall s ms l, check_margins s ms l = Ok tt <-> forall a m, In (a, m) l -> check_margin s ms (a, m) = Ok tt.
Proof.
  intros s ms l. induction l as [|(b, m') l IH]; cbn [check_margins]; [split; [intros _ a m []|reflexivity]|].
  destruct (check_margin s ms (b, m')) as [[]|e] eqn:E; cbn [rbind].
  - rewrite IH. split.
    + intros H a m [Q|Q]; [injection Q as <- <-; exact E|exact (H a m Q)].
    + intros H a m Q. apply H. right. exact Q.
  - split; [discriminate|]. intros H. specialize (H b m' (or_introl eq_refl)). congruence.
Qed.

(** the checks accept exactly the empty dictionary and agreeing margins *)
Lemma checks_agree : forall s l, a_dictionary l ->
  (check_margins s l l = Ok tt <-> l = [] \/ exists n, agreeing s l n).
Proof.
  intros s l [N W]. rewrite checks_ok. split.
  - intros H. destruct l as [|(b, m0) l']; [left; reflexivity|right]. set (l := (b, m0) :: l') in *.
    pose proof (H b m0 (or_introl eq_refl)) as H0. apply check_ok in H0 as [(g & Hg & Eg) _].
    exists (lsum (t_vals m0)). split; [exists g; split; [exact (find_In _ _ _ Hg)|exact Eg]|].
    intros a m Hm Ha. pose proof (H a m Hm) as Hc. apply check_ok in Hc as [(g' & Hg' & Eg') Q]. destruct (Q Ha) as [Q1 Q2].
    unfold has in *. rewrite Hg in Hg'. injection Hg' as <-. rewrite Eg in Eg'. injection Eg' as Eg'.
    split; [exact Q1|]. split; [rewrite (W a m Hm); exact Q2|symmetry; exact Eg'].
  - intros [->|(n & (g & Hg & Eg) & A)]; [intros a m []|]. intros a m Hm. apply check_ok.
    assert (S : lsum (t_vals m) = n).
    { destruct (ax_eqb a A01) eqn:EA.
      - apply ax_eqb_spec in EA as ->. pose proof (In_find l A01 m N Hm) as F1. pose proof (In_find l A01 g N Hg) as F2.
        unfold has in *. rewrite F1 in F2. injection F2 as ->. rewrite Eg. cbn. lia.
      - apply A with a; [exact Hm|]. intros ->. rewrite ax_eqb_refl in EA. discriminate. }
    split.
    + exists g. split; [exact (In_find l A01 g N Hg)|]. rewrite S. exact Eg.
    + intros Ha. destruct (A a m Hm Ha) as (Q1 & Q2 & _). split; [exact Q1|]. rewrite <- (W a m Hm). exact Q2.
Qed.

(** what the three filling steps do *)
Definition filled (dr : draws) (s : shape) (l : marginals) (n : Z) (a : ax) : tensor :=
  match find_margin a l with
  | Some m => m
  | None => match a with A01 => Tensor [1%nat] [n] | _ => Tensor [classes s a] (d_margin dr a n (classes s a)) end
  end.

Lemma fill_all : forall dr s l n, t_vals (filled dr s l n A01) = [n] ->
  (find_margin A01 l = None -> n = d_total dr) ->
  (n < 0 -> find_margin A0 l <> None /\ find_margin A1 l <> None) ->
  exists o, rbind (fill dr s A01 l) (fun m1 => rbind (fill dr s A0 m1) (fun m2 => fill dr s A1 m2)) = Ok o /\
    forall a, find_margin a o = Some (filled dr s l n a).
Proof.
  intros dr s l n E T P.
  assert (F1 : exists m1, fill dr s A01 l = Ok m1 /\ find_margin A01 m1 = Some (filled dr s l n A01) /\
     find_margin A0 m1 = find_margin A0 l /\ find_margin A1 m1 = find_margin A1 l).
  { unfold fill, filled. destruct (find_margin A01 l) as [g|] eqn:G.
    - exists l. auto.
    - rewrite (T eq_refl). eexists. split; [reflexivity|]. rewrite !find_set. cbn [ax_eqb]. auto. }
  destruct F1 as (m1 & R1 & G1 & G10 & G11). rewrite R1. cbn [rbind].
  assert (F2 : exists m2, fill dr s A0 m1 = Ok m2 /\ find_margin A01 m2 = Some (filled dr s l n A01) /\
     find_margin A0 m2 = Some (filled dr s l n A0) /\ find_margin A1 m2 = find_margin A1 l).
  { unfold fill. rewrite G10. unfold filled at 2. destruct (find_margin A0 l) as [g|] eqn:G0.
    - exists m1. auto.
    - rewrite G1, E. destruct (Z.ltb_spec n 0) as [L|L]; [destruct (P L); congruence|].
      eexists. split; [reflexivity|]. rewrite !find_set. cbn [ax_eqb]. auto. }
  destruct F2 as (m2 & R2 & H1 & H10 & H11). rewrite R2. cbn [rbind].
  unfold fill. rewrite H11. destruct (find_margin A1 l) as [g|] eqn:G.
  - exists m2. split; [reflexivity|]. intros []; try assumption. rewrite H11. unfold filled. rewrite G. reflexivity.
  - rewrite H1, E. destruct (Z.ltb_spec n 0) as [L|L]; [destruct (P L); congruence|].
    eexists. split; [reflexivity|]. intros a. rewrite find_set. destruct a; cbn [ax_eqb]; try assumption.
    unfold filled. rewrite G. reflexivity.
Qed.

(** when the filling steps cannot succeed *)
Lemma fill_negative : forall dr s l g n, find_margin A01 l = Some g -> t_vals g = [n] -> n < 0 ->
  find_margin A0 l = None \/ find_margin A1 l = None ->
  is_ok (rbind (fill dr s A01 l) (fun m1 => rbind (fill dr s A0 m1) (fun m2 => fill dr s A1 m2))) = false.
Proof.
  intros dr s l g n G E L M. unfold fill at 1. rewrite G. cbn [rbind].
  unfold fill at 1. destruct (find_margin A0 l) as [g0|] eqn:G0.
  - cbn [rbind]. destruct M as [M|M]; [discriminate|]. unfold fill. rewrite M, G, E. apply Z.ltb_lt in L. rewrite L. reflexivity.
  - rewrite G, E. apply Z.ltb_lt in L. rewrite L. reflexivity.
Qed.

Lemma import_lacking : forall dr d s, lacking d s ->
  import_tabular_data dr d =
  rbind (check_margins s (g_margins d) (g_margins d)) (fun _ =>
  rbind (rbind (fill dr s A01 (g_margins d)) (fun m1 => rbind (fill dr s A0 m1) (fun m2 => fill dr s A1 m2))) (fun o =>
  Ok (Imported s (match g_table d with Some _ => Some (fun _ _ => -1) | None => None end) o))).
Proof.
  intros dr d s L. unfold lacking in L. unfold import_tabular_data. destruct (g_table d) as [(s', t)|].
  - destruct L as [-> L]. apply incomplete_spec in L. rewrite L.
    destruct (check_margins s (g_margins d) (g_margins d)) as [[]|]; cbn [rbind]; [|reflexivity].
    destruct (fill dr s A01 (g_margins d)); cbn [rbind]; [|reflexivity]. destruct (fill dr s A0 a); cbn [rbind]; reflexivity.
  - rewrite L. destruct (check_margins s (g_margins d) (g_margins d)) as [[]|]; cbn [rbind]; [|reflexivity].
    destruct (fill dr s A01 (g_margins d)); cbn [rbind]; [|reflexivity]. destruct (fill dr s A0 a); cbn [rbind]; reflexivity.
Qed.

(** ** C192 *)

(** Without a complete table, the data are accepted exactly when no margin is
    given, or the grand total is given and every margin given is one-dimensional,
    has the length of its dimension and adds up to the total (which must not be
    negative if a margin is to be drawn). *)
Theorem C192_accepted_partial : forall dr d s, two_way s -> fair dr -> a_dictionary (g_margins d) -> lacking d s ->
  (is_ok (import_tabular_data dr d) = true <->
   g_margins d = [] \/
   exists n, agreeing s (g_margins d) n /\ (lacks (g_margins d) A0 \/ lacks (g_margins d) A1 -> 0 <= n)).
Proof.
  intros dr d s S F D L. rewrite (import_lacking dr d s L). pose proof (checks_agree s (g_margins d) D) as CA.
  set (l := g_margins d) in *. split.
  - intros H. destruct (check_margins s l l) as [[]|e] eqn:E; [|discriminate]. cbn [rbind] in H.
    destruct (proj1 CA eq_refl) as [->|(n & A)]; [left; reflexivity|right]. exists n. split; [exact A|]. intros M.
    destruct (Z.lt_ge_cases n 0) as [Ln|Ln]; [|exact Ln]. exfalso. destruct A as [(g & Hg & Eg) _].
    pose proof (fill_negative dr s l g n (In_find l A01 g (proj1 D) Hg) Eg Ln) as NG.
    rewrite !find_none in NG. specialize (NG M).
    destruct (rbind (fill dr s A01 l) _); [discriminate NG|discriminate H].
  - intros H. assert (C : check_margins s l l = Ok tt) by (apply CA; destruct H as [H|(n & A & _)]; [left; exact H|right; exists n; exact A]).
    rewrite C. cbn [rbind].
    assert (X : exists n o, rbind (fill dr s A01 l) (fun m1 => rbind (fill dr s A0 m1) (fun m2 => fill dr s A1 m2)) = Ok o /\
      forall a, find_margin a o = Some (filled dr s l n a)).
    { destruct H as [->|(n & A & P)].
      - exists (d_total dr). apply fill_all; [reflexivity|reflexivity|]. destruct F. lia.
      - exists n. destruct A as [(g & Hg & Eg) A]. pose proof (In_find l A01 g (proj1 D) Hg) as G. unfold has in G.
        apply fill_all; [unfold filled; rewrite G; exact Eg|congruence|]. intros Ln. split; intros Q; apply find_none in Q;
          [specialize (P (or_introl Q))|specialize (P (or_intror Q))]; lia. }
    destruct X as (n & o & -> & _). reflexivity.
Qed.
Print Assumptions C192_accepted_partial.

(** The margins of the completed table: those given are kept as they are; every
    other is drawn, is not negative, and all add up to the same total. *)
Theorem C192_completed : forall dr d s o, two_way s -> fair dr -> a_dictionary (g_margins d) -> lacking d s ->
  import_tabular_data dr d = Ok o ->
  i_shape o = s /\
  (forall a m, In (a, m) (g_margins d) -> has (i_margins o) a m) /\
  (exists n, forall a, exists m, has (i_margins o) a m /\ List.length (t_vals m) = classes s a /\ lsum (t_vals m) = n) /\
  (forall a m, lacks (g_margins d) a -> has (i_margins o) a m -> forall v, In v (t_vals m) -> 0 <= v).
Proof.
  intros dr d s o S F D L H.
  assert (OK : is_ok (import_tabular_data dr d) = true) by (rewrite H; reflexivity).
  pose proof (proj1 (C192_accepted_partial dr d s S F D L) OK) as AC. clear OK.
  rewrite (import_lacking dr d s L) in H. set (l := g_margins d) in *.
  assert (C : check_margins s l l = Ok tt) by (apply (checks_agree s l D); destruct AC as [AC|(n & A & _)]; [left; exact AC|right; exists n; exact A]).
  rewrite C in H. cbn [rbind] in H.
  assert (X : exists n o, rbind (fill dr s A01 l) (fun m1 => rbind (fill dr s A0 m1) (fun m2 => fill dr s A1 m2)) = Ok o /\
    (forall a, find_margin a o = Some (filled dr s l n a)) /\ t_vals (filled dr s l n A01) = [n] /\
    (forall a m, In (a, m) l -> a <> A01 -> List.length (t_vals m) = classes s a /\ lsum (t_vals m) = n) /\
    (lacks l A0 \/ lacks l A1 \/ lacks l A01 -> 0 <= n)).
  { destruct AC as [E|(n & A & P)].
    - destruct (fill_all dr s l (d_total dr)) as (o' & H1 & H2).
      + rewrite E. reflexivity.
      + reflexivity.
      + destruct F. lia.
      + exists (d_total dr), o'. split; [exact H1|]. split; [exact H2|]. split; [rewrite E; reflexivity|].
        split; [rewrite E; intros a m []|]. destruct F. lia.
    - destruct A as [(g & Hg & Eg) A]. pose proof (In_find l A01 g (proj1 D) Hg) as G. unfold has in G.
      assert (E1 : t_vals (filled dr s l n A01) = [n]) by (unfold filled; rewrite G; exact Eg).
      destruct (fill_all dr s l n) as (o' & H1 & H2).
      + exact E1.
      + congruence.
      + intros Ln. split; intros Q; apply find_none in Q; [specialize (P (or_introl Q))|specialize (P (or_intror Q))]; lia.
      + exists n, o'. split; [exact H1|]. split; [exact H2|]. split; [exact E1|]. split.
        * intros a m Hm Ha. destruct (A a m Hm Ha) as (_ & B). exact B.
        * intros [Q|[Q|Q]]; [apply P; left; exact Q|apply P; right; exact Q|destruct (Q g Hg)]. }
  destruct X as (n & o' & R & FO & E1 & A & P). rewrite R in H. cbn [rbind] in H. injection H as <-. cbn [i_shape i_margins].
  destruct S as [S1 S2].
  assert (CL : forall a, (0 < classes s a)%nat) by (intros []; cbn [classes]; lia).
  split; [reflexivity|]. split; [|split].
  - intros a m Hm. unfold has. rewrite FO. unfold filled. rewrite (In_find l a m (proj1 D) Hm). reflexivity.
  - exists n. intros a. exists (filled dr s l n a). split; [apply FO|]. destruct (ax_eqb a A01) eqn:EA.
    + apply ax_eqb_spec in EA as ->. rewrite E1. cbn. split; [reflexivity|lia].
    + assert (NA : a <> A01) by (intros ->; rewrite ax_eqb_refl in EA; discriminate).
      unfold filled. destruct (find_margin a l) as [m|] eqn:G; [exact (A a m (find_In l a m G) NA)|].
      apply find_none in G. assert (Hn : 0 <= n) by (apply P; destruct a; tauto).
      destruct a; [|congruence|]; cbn [t_vals];
        match goal with |- context [d_margin dr ?b n ?k] => destruct (proj2 F b n k Hn) as (Q1 & Q2 & _) end;
        try apply (CL A0); try apply (CL A1); split; assumption.
  - intros a m Lk Hm v Hv. unfold has in Hm. rewrite FO in Hm. injection Hm as <-. pose proof (proj2 (find_none l a) Lk) as G.
    assert (Hn : 0 <= n) by (apply P; destruct a; tauto).
    unfold filled in Hv. rewrite G in Hv. destruct a; cbn [t_vals] in Hv.
    + exact (proj2 (proj2 (proj2 F A0 n (classes s A0) Hn (CL A0))) v Hv).
    + destruct Hv as [<-|[]]. exact Hn.
    + exact (proj2 (proj2 (proj2 F A1 n (classes s A1) Hn (CL A1))) v Hv).
Qed.
Print Assumptions C192_completed.

(** A complete table is kept, and its margins are its sums. *)
Theorem C192_complete_table : forall dr d s t, g_table d = Some (s, t) -> ~ some_negative s t ->
  exists o, import_tabular_data dr d = Ok o /\ i_shape o = s /\ i_table o = Some t /\
    margin_values o A1 = map (fun i => zsum (nJ s) (fun j => t i j)) (seq 0 (nI s)) /\
    margin_values o A0 = map (fun j => zsum (nI s) (fun i => t i j)) (seq 0 (nJ s)) /\
    margin_values o A01 = [zsum (nI s) (fun i => zsum (nJ s) (fun j => t i j))].
Proof.
  intros dr d s t G N. unfold import_tabular_data. rewrite G.
  assert (E : incomplete s t = false) by (destruct (incomplete s t) eqn:E; [apply incomplete_spec in E; contradiction|reflexivity]).
  rewrite E. eexists. split; [reflexivity|]. cbn [i_shape i_table]. unfold margin_values, table_margins. cbn [i_margins fold_left].
  rewrite !find_set. cbn [ax_eqb t_vals]. repeat split.
Qed.
Print Assumptions C192_complete_table.

(** Margins given beside a complete table are replaced without any check. *)
Theorem C192_disagreeing_refuted : forall dr s t l, ~ some_negative s t ->
  exists o, import_tabular_data dr (Given (Some (s, t)) None l) = Ok o /\
    forall a, margin_values o a = axis_margin s t a.
Proof.
  intros dr s t l N. destruct (C192_complete_table dr (Given (Some (s, t)) None l) s t eq_refl N) as (o & H & _ & _ & H1 & H0 & H01).
  exists o. split; [exact H|]. intros []; [exact H0|exact H01|exact H1].
Qed.
Print Assumptions C192_disagreeing_refuted.

(** The margins of rows and columns alone are never accepted, although they
    determine the total. *)
Theorem C192_total_needed_refuted : forall dr d s, lacking d s -> a_dictionary (g_margins d) -> g_margins d <> [] -> lacks (g_margins d) A01 ->
  is_ok (import_tabular_data dr d) = false.
Proof.
  intros dr d s L D NE M. rewrite (import_lacking dr d s L).
  destruct (check_margins s (g_margins d) (g_margins d)) as [[]|e] eqn:E; [|reflexivity]. exfalso.
  apply (checks_agree s (g_margins d) D) in E as [E|(n & (g & Hg & _) & _)]; [contradiction|exact (M g Hg)].
Qed.
Print Assumptions C192_total_needed_refuted.

(** The cells observed in an incomplete table are lost: every cell becomes -1. *)
Theorem C192_observed_cells_refuted : forall dr d s t o, g_table d = Some (s, t) -> some_negative s t ->
  import_tabular_data dr d = Ok o -> exists t', i_table o = Some t' /\ forall i j, t' i j = -1.
Proof.
  intros dr d s t o G N H. assert (L : lacking d s) by (unfold lacking; rewrite G; split; [reflexivity|exact N]).
  rewrite (import_lacking dr d s L) in H. destruct (check_margins s (g_margins d) (g_margins d)); [|discriminate]. cbn [rbind] in H.
  destruct (rbind (fill dr s A01 (g_margins d)) _); [|discriminate]. cbn [rbind] in H. injection H as <-. cbn [i_table]. rewrite G.
  exists (fun _ _ => -1). split; reflexivity.
Qed.
Print Assumptions C192_observed_cells_refuted.

(** So a cell fixed at its observed value is fixed at -1: what is left for the
    free cells of a row is its margin plus the number of its fixed cells. *)
Theorem C192_fixed_cells_refuted : forall dr d s t o axes fixed c, two_way s -> fair dr -> a_dictionary (g_margins d) ->
  g_table d = Some (s, t) -> some_negative s t -> import_tabular_data dr d = Ok o ->
  (forall k, In k fixed -> (fst k < nI s)%nat /\ (snd k < nJ s)%nat) -> NoDup fixed ->
  constrained_table o axes fixed = Ok c ->
  forall i, (i < nI s)%nat -> nth i (ct_resid c A1) 0 =
    nth i (margin_values o A1) 0 + zsum (nJ s) (fun j => if cell_in (i, j) fixed then 1 else 0).
Proof.
  intros dr d s t o axes fixed c S F D G N H In_ Nd B i Hi.
  assert (L : lacking d s) by (unfold lacking; rewrite G; split; [reflexivity|exact N]).
  destruct (C192_completed dr d s o S F D L H) as (SH & _ & (n & M) & _).
  destruct (C192_observed_cells_refuted dr d s t o G N H) as (t' & T & Q).
  unfold constrained_table in B. rewrite T, SH in B.
  assert (W : forall a, List.length (margin_values o a) = axis_len s a).
  { intros a. destruct (M a) as (m & Hm & Hl & _). unfold margin_values. unfold has in Hm. rewrite Hm, Hl. symmetry. apply classes_len. }
  destruct (C04_residual_margins s t' (margin_values o) axes fixed c W In_ Nd B) as [R _].
  rewrite (R i Hi).
  rewrite (zsum_ext (nJ s) (fun j => if cell_in (i, j) fixed then t' i j else 0)
                           (fun j => -1 * (if cell_in (i, j) fixed then 1 else 0))).
  - rewrite zsum_mul. lia.
  - intros j Hj. destruct (cell_in (i, j) fixed); [rewrite Q|]; reflexivity.
Qed.
Print Assumptions C192_fixed_cells_refuted.

(** the cases above occur: margins without a table, a partly observed table with
    a fixed cell, margins that disagree *)
Definition one_class (a : ax) (n : Z) (k : nat) : list Z := match k with O => [] | S k' => n :: repeat 0 k' end.
Lemma fair_one_class : fair (Draws 7 one_class).
Proof.
  split; [cbn; lia|]. intros a n k Hn Hk. destruct k as [|k]; [lia|]. cbn [d_margin one_class].
  assert (Z0 : forall j, lsum (repeat 0 j) = 0) by (induction j; [reflexivity|cbn; exact IHj]).
  split; [cbn [List.length]; rewrite repeat_length; reflexivity|]. split; [cbn; rewrite Z0; lia|].
  intros v [<-|H]; [exact Hn|]. apply repeat_spec in H. lia.
Qed.

Example C192_nonvacuous :
  let s := Shape 2 3 in let dr := Draws 7 one_class in
  let tot := (A01, Tensor [] [9]) in let rows v := (A1, Tensor [2%nat] [4; v]) in
  let t : table := fun i j => if Nat.eqb i 0 && Nat.eqb j 0 then 3 else -1 in
  let seen l := Given (Some (s, t)) None l in
  fair dr /\ two_way s /\ a_dictionary [rows 5; tot] /\
  lacking (Given None (Some s) [rows 5; tot]) s /\ lacking (seen []) s /\
  (exists o, import_tabular_data dr (Given None (Some s) [rows 5; tot]) = Ok o /\ margin_values o A0 = [9; 0; 0] /\ margin_values o A1 = [4; 5]) /\
  is_ok (import_tabular_data dr (Given None (Some s) [rows 6; tot])) = false /\
  is_ok (import_tabular_data dr (Given None (Some s) [rows 5])) = false /\
  (exists o c, import_tabular_data dr (seen [rows 5; tot]) = Ok o /\ constrained_table o [A1] [(0%nat, 0%nat)] = Ok c /\
     ct_resid c A1 = [5; 5]) /\
  ~ some_negative s (fun _ _ => 1).
Proof.
  cbv zeta. split; [exact fair_one_class|]. split; [split; cbn; lia|]. split.
  { split; [cbn; constructor; [intros [H|[]]; discriminate|constructor; [intros []|constructor]]|]. intros a m [H|[H|[]]]; injection H as <- <-; reflexivity. }
  split; [reflexivity|]. split.
  { split; [reflexivity|]. exists 0%nat, 1%nat. cbn. lia. }
  split; [eexists; split; [reflexivity|split; reflexivity]|]. split; [reflexivity|]. split; [reflexivity|]. split.
  { eexists. eexists. split; [reflexivity|]. split; reflexivity. }
  intros (i & j & _ & _ & H). lia.
Qed.
Print Assumptions C192_nonvacuous.
