(** Model of the constraint-axis bookkeeping of
    gensit/contingency_table/__init__.py for a table with any number of
    dimensions: powerset of axes, derivative margins, complement of axes. *)
From Coq Require Import List Lia Bool Arith.
From Verif Require Import Base.
Import ListNotations.

(** An axis set is a Python tuple of dimension numbers. *)
Notation axis := (list nat).

Definition axis_eqb : axis -> axis -> bool := list_eqb Nat.eqb.

Lemma axis_eqb_spec : forall a b, axis_eqb a b = true <-> a = b.
Proof. apply list_eqb_spec; intros; apply Nat.eqb_eq. Qed.

Definition axis_in (a : axis) (l : list axis) : bool := existsb (axis_eqb a) l.

Lemma axis_in_spec : forall a l, axis_in a l = true <-> In a l.
Proof.
  intros a l; unfold axis_in; rewrite existsb_exists; split.
  - intros [x [Hx E]]; apply axis_eqb_spec in E; subst; exact Hx.
  - intros H; exists a; split; [exact H|apply axis_eqb_spec; reflexivity].
Qed.

(** itertools.combinations(s, r): all length-[r] subsequences, used by
    gensit/utils/math_utils.py:28. *)
Fixpoint combinations (l : list nat) (r : nat) : list (list nat) :=
  match r, l with
  | O, _ => [[]]
  | S _, [] => []
  | S r', x :: l' => map (cons x) (combinations l' r') ++ combinations l' r
  end.

(** powerset, gensit/utils/math_utils.py:23-28 (all non-empty subsets of the
    duplicate-free list [seq 0 d]). *)
Definition powerset (d : nat) : list axis :=
  flat_map (fun r => combinations (seq 0 d) r) (seq 1 d).

(** tuple_contained, gensit/utils/misc_utils.py:47-48. *)
Definition tuple_contained (small large : axis) : bool :=
  forallb (fun e => existsb (Nat.eqb e) large) small.

Lemma tuple_contained_spec : forall a b, tuple_contained a b = true <-> incl a b.
Proof.
  intros a b; unfold tuple_contained, incl; rewrite forallb_forall; split; intros H x Hx.
  - specialize (H x Hx); apply existsb_exists in H as [y [Hy E]]; apply Nat.eqb_eq in E; subst; exact Hy.
  - apply existsb_exists; exists x; split; [apply H; exact Hx|apply Nat.eqb_refl].
Qed.

(** Python set.add on a list without duplicates. *)
Definition set_add (a : axis) (s : list axis) : list axis :=
  if axis_in a s then s else s ++ [a].

Lemma set_add_in : forall a x s, In x (set_add a s) <-> x = a \/ In x s.
Proof.
  intros a x s; unfold set_add; destruct (axis_in a s) eqn:E.
  - apply axis_in_spec in E; split; [auto|intros [->|H]; auto].
  - rewrite in_app_iff; cbn; split; [intros [H|[H|[]]]; auto|intros [->|H]; auto].
Qed.

(** One pass of infer_derivative_margin_axes for tuples of length [n],
    gensit/contingency_table/__init__.py:761-775.  The set of axes with
    length [n] is taken before anything is added. *)
Definition infer_pass (all : list axis) (n : nat) (upd : list axis) : list axis :=
  let uniq := filter (fun a => Nat.eqb (length a) n) upd in
  let cand := filter (fun a => Nat.leb n (length a)) all in
  fold_left (fun acc a =>
    fold_left (fun acc2 c => if tuple_contained c a then set_add a acc2 else acc2) uniq acc)
    cand upd.

(** infer_derivative_margin_axes, gensit/contingency_table/__init__.py:758-776;
    the loop runs over n = 1 .. d-1. *)
Definition infer_derivative_margin_axes (d : nat) (axes : list axis) : list axis :=
  fold_left (fun upd n => infer_pass (powerset d) n upd) (seq 1 (d - 1)) axes.

(** axes_complement, gensit/contingency_table/__init__.py:149-166. *)
Definition axes_complement (d : nat) (axes : list axis) (same_length : bool) : list axis :=
  let diff := filter (fun a => negb (axis_in a axes)) (powerset d) in
  if same_length
  then filter (fun a => existsb (fun b => Nat.eqb (length a) (length b)) axes) diff
  else diff.

(** ------------------------------------------------------------------ *)
(** Lemmas. *)

Lemma fold_inner_in : forall a uniq acc x,
  In x (fold_left (fun acc2 c => if tuple_contained c a then set_add a acc2 else acc2) uniq acc)
  <-> In x acc \/ (x = a /\ exists c, In c uniq /\ incl c a).
Proof.
  intros a uniq; induction uniq as [|c uniq IH]; intros acc x; cbn.
  - split; [auto|intros [H|[_ [c [[] _]]]]; exact H].
  - rewrite IH. destruct (tuple_contained c a) eqn:E.
    + apply tuple_contained_spec in E. rewrite set_add_in. split.
      * intros [[->|H]|[-> [c' [H1 H2]]]]; auto.
        -- right; split; [reflexivity|exists c; auto].
        -- right; split; [reflexivity|exists c'; auto].
      * intros [H|[-> _]]; auto.
    + assert (~ incl c a) as Hn by (rewrite <- tuple_contained_spec; congruence).
      split.
      * intros [H|[-> [c' [H1 H2]]]]; auto. right; split; [reflexivity|exists c'; auto].
      * intros [H|[-> [c' [[->|H1] H2]]]]; auto; [contradiction|].
        right; split; [reflexivity|exists c'; auto].
Qed.

Lemma fold_outer_in : forall uniq cand acc x,
  In x (fold_left (fun acc a =>
    fold_left (fun acc2 c => if tuple_contained c a then set_add a acc2 else acc2) uniq acc)
    cand acc)
  <-> In x acc \/ (In x cand /\ exists c, In c uniq /\ incl c x).
Proof.
  intros uniq cand; induction cand as [|a cand IH]; intros acc x; cbn.
  - split; [auto|intros [H|[[] _]]; exact H].
  - rewrite IH, fold_inner_in. split.
    + intros [[H|[-> H]]|[H1 H2]]; auto.
    + intros [H|[[->|H1] H2]]; auto.
Qed.

Lemma infer_pass_in : forall all n upd x,
  In x (infer_pass all n upd) <->
  In x upd \/ (In x all /\ n <= length x /\ exists c, In c upd /\ length c = n /\ incl c x).
Proof.
  intros all n upd x; unfold infer_pass; rewrite fold_outer_in, filter_In, Nat.leb_le.
  split.
  - intros [H|[[H1 H1'] [c [H2 H3]]]]; [left; exact H|].
    right. split; [exact H1|split; [exact H1'|]].
    apply filter_In in H2 as [H2 H2']; apply Nat.eqb_eq in H2'. exists c; auto.
  - intros [H|[H1 [H2 [c [H3 [H4 H5]]]]]]; [left; exact H|].
    right; split; [auto|]. exists c; split; [apply filter_In; split; [auto|apply Nat.eqb_eq; auto]|auto].
Qed.

(** NoDup sub-lists: an included NoDup list is not longer. *)
Lemma combinations_spec : forall l r a, In a (combinations l r) ->
  length a = r /\ incl a l /\ (NoDup l -> NoDup a).
Proof.
  intros l; induction l as [|x l IH]; intros r a H.
  - destruct r as [|r]; cbn in H; [|contradiction].
    destruct H as [<-|[]]; repeat split; [intros ? []|constructor].
  - destruct r as [|r]; cbn in H.
    + destruct H as [<-|[]]; repeat split; [intros ? []|constructor].
    + apply in_app_iff in H as [H|H].
      * apply in_map_iff in H as [b [<- Hb]]. destruct (IH _ _ Hb) as [L [I N]].
        repeat split; cbn; [lia| |].
        -- intros y [->|Hy]; [left; reflexivity|right; apply I; exact Hy].
        -- intros ND; inversion ND; subst. constructor; [|apply N; assumption].
           intros Hx; apply I in Hx; contradiction.
      * destruct (IH _ _ H) as [L [I N]]. repeat split; [exact L|intros y Hy; right; apply I; exact Hy|].
        intros ND; inversion ND; subst; auto.
Qed.

Lemma powerset_spec : forall d a, In a (powerset d) ->
  1 <= length a <= d /\ NoDup a /\ (forall x, In x a -> x < d).
Proof.
  intros d a H; unfold powerset in H; apply in_flat_map in H as [r [Hr Ha]].
  apply in_seq in Hr. destruct (combinations_spec _ _ _ Ha) as [L [I N]].
  repeat split; try lia; [apply N, seq_NoDup|].
  intros x Hx; apply I in Hx; apply in_seq in Hx; lia.
Qed.

Fixpoint sorted_lt (l : list nat) : bool :=
  match l with
  | x :: ((y :: _) as l') => Nat.ltb x y && sorted_lt l'
  | _ => true
  end.

Lemma sorted_lt_cons : forall x l, sorted_lt (x :: l) = true ->
  sorted_lt l = true /\ forall y, In y l -> x < y.
Proof.
  intros x l; revert x; induction l as [|y l IH]; intros x H.
  - split; [reflexivity|intros ? []].
  - cbn [sorted_lt] in H. apply andb_true_iff in H as [H1 H2]. apply Nat.ltb_lt in H1.
    split; [exact H2|]. intros z [->|Hz]; [exact H1|].
    destruct (IH _ H2) as [_ H3]. specialize (H3 z Hz); lia.
Qed.

Lemma sorted_lt_intro : forall x l, sorted_lt l = true -> (forall y, In y l -> x < y) ->
  sorted_lt (x :: l) = true.
Proof.
  intros x [|y l] H1 H2; [reflexivity|].
  cbn [sorted_lt]. apply andb_true_iff; split; [|exact H1].
  apply Nat.ltb_lt, H2; left; reflexivity.
Qed.

Lemma combinations_complete : forall n s a,
  sorted_lt a = true -> (forall x, In x a -> s <= x < s + n) ->
  In a (combinations (seq s n) (length a)).
Proof.
  intros n; induction n as [|n IH]; intros s a Hs Hb.
  - destruct a as [|x a]; [left; reflexivity|]. specialize (Hb x (or_introl eq_refl)); lia.
  - destruct a as [|x a]; [left; reflexivity|].
    destruct (sorted_lt_cons _ _ Hs) as [Hs' Hlt].
    cbn [seq length combinations]. apply in_app_iff.
    destruct (Nat.eq_dec x s) as [->|Hne].
    + left; apply in_map_iff; exists a; split; [reflexivity|].
      apply IH; [exact Hs'|]. intros y Hy; specialize (Hlt y Hy).
      specialize (Hb y (or_intror Hy)); lia.
    + right. change (S (length a)) with (length (x :: a)). apply IH; [exact Hs|].
      assert (s <= x < s + S n) by (apply Hb; left; reflexivity).
      intros y [<-|Hy]; [lia|]. specialize (Hlt y Hy). specialize (Hb y (or_intror Hy)); lia.
Qed.

Lemma combinations_sorted : forall n s r a, In a (combinations (seq s n) r) -> sorted_lt a = true.
Proof.
  intros n; induction n as [|n IH]; intros s r a H.
  - destruct r; cbn in H; [destruct H as [<-|[]]; reflexivity|contradiction].
  - destruct r as [|r]; cbn [seq combinations] in H.
    + destruct H as [<-|[]]; reflexivity.
    + apply in_app_iff in H as [H|H]; [|eapply IH; exact H].
      apply in_map_iff in H as [b [<- Hb]]. apply sorted_lt_intro; [eapply IH; exact Hb|].
      intros y Hy. apply combinations_spec in Hb as [_ [Hi _]]. apply Hi, in_seq in Hy; lia.
Qed.

(** The powerset is exactly the set of strictly increasing non-empty tuples
    of dimension numbers. *)
Lemma powerset_iff : forall d a,
  In a (powerset d) <-> (a <> [] /\ sorted_lt a = true /\ forall x, In x a -> x < d).
Proof.
  intros d a; split.
  - intros H. destruct (powerset_spec _ _ H) as [L [_ B]]. repeat split; auto.
    + intros ->; cbn in L; lia.
    + apply in_flat_map in H as [r [_ H]]; eapply combinations_sorted; exact H.
  - intros [Hne [Hs Hb]]. unfold powerset; apply in_flat_map; exists (length a).
    assert (Hc : In a (combinations (seq 0 d) (length a))).
    { apply combinations_complete; [exact Hs|]. intros x Hx; specialize (Hb x Hx); lia. }
    split; [|exact Hc].
    apply in_seq. assert (length a <= d).
    { rewrite <- (seq_length d 0). apply NoDup_incl_length.
      - apply combinations_spec in Hc as [_ [_ N]]; apply N, seq_NoDup.
      - apply combinations_spec in Hc as [_ [I _]]; exact I. }
    assert (length a <> 0) by (destruct a; [congruence|discriminate]). lia.
Qed.

Lemma infer_pass_powerset : forall d n axes,
  (forall c, In c axes -> In c (powerset d)) ->
  forall c, In c (infer_pass (powerset d) n axes) -> In c (powerset d).
Proof.
  intros d n axes H c Hc; apply infer_pass_in in Hc as [Hc|[Hc _]]; auto.
Qed.

Lemma infer_fold_in : forall d k n axes x,
  (forall c, In c axes -> In c (powerset d)) ->
  In x (fold_left (fun upd m => infer_pass (powerset d) m upd) (seq n k) axes) <->
  In x axes \/ (In x (powerset d) /\ exists c, In c axes /\ n <= length c < n + k /\ incl c x).
Proof.
  intros d k; induction k as [|k IH]; intros n axes x HP; cbn [seq fold_left].
  - split; [auto|]. intros [H|[_ [c [_ [H _]]]]]; [exact H|lia].
  - rewrite IH by (apply infer_pass_powerset; exact HP).
    setoid_rewrite infer_pass_in. split.
    + intros [[H|[H1 [H2 [c [H3 [H4 H5]]]]]]|[H1 [c [[H2|[H2 [H3 [c' [H4 [H5 H6]]]]]] [H7 H8]]]]].
      * auto.
      * right; split; [exact H1|]. exists c; repeat split; auto; lia.
      * right; split; [exact H1|]. exists c; repeat split; auto; lia.
      * right; split; [exact H1|]. exists c'; repeat split; auto; try lia.
        intros y Hy; auto.
    + intros [H|[H1 [c [H2 [H3 H4]]]]]; [auto|].
      destruct (Nat.eq_dec (length c) n) as [E|E].
      * left; right. split; [exact H1|]. split; [|exists c; auto].
        rewrite <- E. apply NoDup_incl_length; [|exact H4].
        apply (powerset_spec d), HP, H2.
      * right; split; [exact H1|]. exists c; repeat split; auto; lia.
Qed.

(** A strictly increasing tuple over all [d] dimensions included in another
    one is that tuple. *)
Lemma sorted_lt_incl_eq : forall a b, sorted_lt a = true -> sorted_lt b = true ->
  incl a b -> incl b a -> a = b.
Proof.
  intros a; induction a as [|x a IH]; intros [|y b] Ha Hb H1 H2.
  - reflexivity.
  - destruct (H2 y (or_introl eq_refl)).
  - destruct (H1 x (or_introl eq_refl)).
  - destruct (sorted_lt_cons _ _ Ha) as [Ha' La]; destruct (sorted_lt_cons _ _ Hb) as [Hb' Lb].
    assert (x = y).
    { destruct (H1 x (or_introl eq_refl)) as [E|Hx]; [auto|].
      destruct (H2 y (or_introl eq_refl)) as [E|Hy]; [auto|].
      specialize (La y Hy); specialize (Lb x Hx); lia. }
    subst y. f_equal. apply IH; auto.
    + intros z Hz. destruct (H1 z (or_intror Hz)) as [<-|Hz']; [|exact Hz'].
      specialize (La _ Hz); lia.
    + intros z Hz. destruct (H2 z (or_intror Hz)) as [<-|Hz']; [|exact Hz'].
      specialize (Lb _ Hz); lia.
Qed.

Lemma infer_closure : forall d axes x,
  (forall c, In c axes -> In c (powerset d)) ->
  In x (infer_derivative_margin_axes d axes) <->
  In x (powerset d) /\ exists c, In c axes /\ incl c x.
Proof.
  intros d axes x HP; unfold infer_derivative_margin_axes.
  rewrite infer_fold_in by exact HP. split.
  - intros [H|[H1 [c [H2 [_ H3]]]]].
    + split; [auto|exists x; split; [exact H|apply incl_refl]].
    + split; [exact H1|exists c; auto].
  - intros [H1 [c [H2 H3]]].
    destruct (powerset_spec _ _ (HP _ H2)) as [L [ND B]].
    destruct (Nat.eq_dec (length c) d) as [E|E].
    + left. assert (c = x); [|subst; exact H2].
      apply HP, powerset_iff in H2. destruct H2 as [_ [Sc _]].
      pose proof H1 as H1'. apply powerset_iff in H1' as [_ [Sx Bx]].
      apply sorted_lt_incl_eq; auto.
      apply NoDup_length_incl; [exact ND| |exact H3].
      apply powerset_spec in H1; lia.
    + right; split; [exact H1|]. exists c; repeat split; auto; lia.
Qed.
