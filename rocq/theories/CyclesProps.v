(** Properties of the cycle basis: every short cycle of the graph of free cells is
    found once (C105), its move keeps the margins and the fixed cells (C106) and
    the moves connect all tables when cycles cannot be longer than the limit
    (C107). *)
From Coq Require Import List ZArith Lia Bool Arith String Ascii NArith Permutation.
From Verif Require Import Base PyMonad Schema SchemaProps TextCodec TextCodecProps Axes Tables TablesProps InitTablesProps
  MarkovBasis MarkovBasisProps MarkovWalks Cycles.
Import ListNotations.
Local Open Scope string_scope.
Local Open Scope nat_scope.
Local Open Scope list_scope.

(** ---- Specification ------------------------------------------------------ *)

(** An origin and a destination are adjacent when their cell is free. *)
Definition adjacent (free : list cell) (a b : node) : Prop :=
  match a, b with
  | Orig i, Dest j => In (i, j) free
  | Dest j, Orig i => In (i, j) free
  | _, _ => False
  end.

(** Consecutive elements of a list, and of a list closed by its first element. *)
Fixpoint pairs {A} (l : list A) : list (A * A) :=
  match l with
  | x :: ((y :: _) as r) => (x, y) :: pairs r
  | _ => []
  end.
Definition steps {A} (c : list A) : list (A * A) :=
  match c with [] => [] | x :: _ => pairs (c ++ [x]) end.

(** A simple cycle: no node twice, at least three nodes, consecutive ones
    adjacent, the last one with the first. *)
Definition simple_cycle (free : list cell) (c : list node) : Prop :=
  NoDup c /\ 3 <= List.length c /\ forall a b, In (a, b) (steps c) -> adjacent free a b.

(** The same cycle started elsewhere or run backwards. *)
Definition same_cycle (c c' : list node) : Prop :=
  exists k, c' = rotate k c \/ c' = rotate k (rev c).

(** ---- Lists ---------------------------------------------------------------- *)

Definition swap {A} (p : A * A) : A * A := (snd p, fst p).

Lemma pairs_app : forall A (p : list A) x q, pairs (p ++ x :: q) = pairs (p ++ [x]) ++ pairs (x :: q).
Proof.
  intros A p x q; induction p as [|a p IH]; [reflexivity|].
  destruct p as [|b p]; [reflexivity|]. cbn [app] in *.
  change (pairs (a :: b :: p ++ x :: q)) with ((a, b) :: pairs (b :: p ++ x :: q)).
  change (pairs (a :: b :: p ++ [x])) with ((a, b) :: pairs (b :: p ++ [x])). rewrite IH. reflexivity.
Qed.

Lemma pairs_fst : forall A (l : list A) z, map fst (pairs (l ++ [z])) = l.
Proof.
  intros A l z; induction l as [|a l IH]; [reflexivity|].
  destruct l as [|b l]; [reflexivity|]. cbn [app] in *.
  change (pairs (a :: b :: l ++ [z])) with ((a, b) :: pairs (b :: l ++ [z])). cbn [map fst]. rewrite IH. reflexivity.
Qed.

Lemma pairs_snd : forall A (x : A) l, map snd (pairs (x :: l)) = l.
Proof.
  intros A x l; revert x; induction l as [|b l IH]; intros x; [reflexivity|].
  change (pairs (x :: b :: l)) with ((x, b) :: pairs (b :: l)). cbn [map snd]. rewrite IH. reflexivity.
Qed.

Lemma pairs_rev : forall A (l : list A), pairs (rev l) = rev (map swap (pairs l)).
Proof.
  intros A l; induction l as [|a l IH]; [reflexivity|].
  destruct l as [|b l]; [reflexivity|].
  change (pairs (a :: b :: l)) with ((a, b) :: pairs (b :: l)). cbn [map rev].
  change (rev (a :: b :: l)) with ((rev l ++ [b]) ++ [a]). rewrite <- app_assoc. cbn [app].
  rewrite pairs_app. change (rev l ++ [b]) with (rev (b :: l)). rewrite IH. reflexivity.
Qed.

Definition rot {A} (l l' : list A) : Prop := exists a b, l = a ++ b /\ l' = b ++ a.

Lemma rot_rotate : forall A k (l : list A), rot l (rotate k l).
Proof. intros A k l. exists (firstn k l), (skipn k l). split; [symmetry; apply firstn_skipn|reflexivity]. Qed.

Lemma rotate_rot : forall A (l l' : list A), rot l l' -> exists k, l' = rotate k l.
Proof.
  intros A l l' [a [b [-> ->]]]. exists (List.length a). unfold rotate.
  rewrite skipn_app, skipn_all, Nat.sub_diag. cbn [skipn app].
  rewrite firstn_app, firstn_all, Nat.sub_diag. cbn [firstn]. rewrite app_nil_r. reflexivity.
Qed.

Lemma rot_sym : forall A (l l' : list A), rot l l' -> rot l' l.
Proof. intros A l l' [a [b [-> ->]]]. exists b, a. auto. Qed.

Lemma rot_perm : forall A (l l' : list A), rot l l' -> Permutation l l'.
Proof. intros A l l' [a [b [-> ->]]]. apply Permutation_app_comm. Qed.

Lemma rot_rev : forall A (l l' : list A), rot l l' -> rot (rev l) (rev l').
Proof. intros A l l' [a [b [-> ->]]]. exists (rev b), (rev a). rewrite !rev_app_distr. auto. Qed.

Lemma steps_rot : forall A (c c' : list A), rot c c' -> Permutation (steps c) (steps c').
Proof.
  intros A c c' [a [b [-> ->]]]. destruct a as [|x a]; [rewrite app_nil_r; reflexivity|].
  destruct b as [|y b]; [rewrite app_nil_r; reflexivity|]. unfold steps. cbn [app].
  change (x :: (a ++ y :: b) ++ [x]) with ((x :: a ++ y :: b) ++ [x]).
  replace ((x :: a ++ y :: b) ++ [x]) with ((x :: a) ++ y :: (b ++ [x])) by (cbn; rewrite <- app_assoc; reflexivity).
  change (y :: (b ++ x :: a) ++ [y]) with ((y :: b ++ x :: a) ++ [y]).
  replace ((y :: b ++ x :: a) ++ [y]) with ((y :: b) ++ x :: (a ++ [y])) by (cbn; rewrite <- app_assoc; reflexivity).
  rewrite (pairs_app _ (x :: a)), (pairs_app _ (y :: b)). apply Permutation_app_comm.
Qed.

Lemma steps_rev : forall A (c : list A), Permutation (steps (rev c)) (map swap (steps c)).
Proof.
  intros A [|x w]; [reflexivity|].
  transitivity (steps (x :: rev w)).
  - apply steps_rot. exists (rev w), [x]. split; reflexivity.
  - unfold steps. cbn [app].
    replace (x :: rev w ++ [x]) with (rev (x :: w ++ [x])) by (cbn; rewrite rev_app_distr; reflexivity).
    rewrite pairs_rev. symmetry. apply Permutation_rev.
Qed.

Lemma steps_length : forall A (c : list A), List.length (steps c) = List.length c.
Proof.
  intros A [|x w]; [reflexivity|]. unfold steps.
  rewrite <- (pairs_fst _ (x :: w) x) at 2. rewrite map_length. reflexivity.
Qed.

Lemma split_unique : forall A (m : A) a b a' b', NoDup (a ++ m :: b) -> a ++ m :: b = a' ++ m :: b' -> a = a' /\ b = b'.
Proof.
  intros A m a; induction a as [|x a IH]; intros b a' b' HN E.
  - destruct a' as [|y a']; [cbn in E; injection E as ->; auto|].
    cbn in E. injection E as -> E. cbn in HN. inversion HN as [|? ? H1 _]; subst.
    destruct H1. apply in_or_app. right; left; reflexivity.
  - destruct a' as [|y a']; cbn in E; injection E as -> E.
    + cbn in HN. inversion HN as [|? ? H1 _]; subst. destruct H1. apply in_or_app. right; left; reflexivity.
    + cbn in HN. inversion HN as [|? ? _ H2]; subst. destruct (IH b a' b' H2 E) as [-> ->]. auto.
Qed.

Lemma rot_unique : forall A (m : A) c c' a b a' b', NoDup c -> rot c c' -> c = a ++ m :: b -> c' = a' ++ m :: b' ->
  b' ++ a' = b ++ a.
Proof.
  intros A m c c' a b a' b' HN [p [q [Hc Hc']]] Ea Ea'.
  assert (HN' : NoDup c') by (apply (Permutation_NoDup (l := c)); [apply rot_perm; exists p, q; auto|exact HN]).
  assert (Hin : In m (p ++ q)) by (rewrite <- Hc, Ea; apply in_or_app; right; left; reflexivity).
  assert (E1 : a ++ m :: b = p ++ q) by congruence. assert (E2 : a' ++ m :: b' = q ++ p) by congruence.
  rewrite Ea in HN. rewrite Ea' in HN'. clear Hc Hc' Ea Ea' c c'.
  apply in_app_or in Hin as [Hin|Hin]; apply in_split in Hin as [u [v Hs]]; subst.
  - rewrite <- app_assoc in E1. cbn [app] in E1. destruct (split_unique _ m a b u (v ++ q) HN E1) as [-> ->].
    rewrite app_assoc in E2. destruct (split_unique _ m a' b' (q ++ u) v HN' E2) as [-> ->].
    rewrite <- app_assoc. reflexivity.
  - rewrite app_assoc in E1. destruct (split_unique _ m a b (p ++ u) v HN E1) as [-> ->].
    rewrite <- app_assoc in E2. cbn [app] in E2. destruct (split_unique _ m a' b' u (v ++ p) HN' E2) as [-> ->].
    rewrite <- app_assoc. reflexivity.
Qed.

(** ---- Orders ---------------------------------------------------------------- *)

Definition cmp_ok {A} (cmp : A -> A -> comparison) : Prop :=
  (forall x y, cmp x y = Eq <-> x = y) /\ (forall x y, cmp y x = CompOpp (cmp x y)) /\
  (forall x y z, cmp x y = Lt -> cmp y z = Lt -> cmp x z = Lt).

Lemma lex_ok : forall A (cmp : A -> A -> comparison), cmp_ok cmp -> cmp_ok (lex cmp).
Proof.
  intros A cmp [E [S T]]. split; [|split].
  - induction x as [|x l IH]; intros [|y l']; cbn; try (split; [discriminate|discriminate]); [tauto|].
    destruct (cmp x y) eqn:C; [apply E in C; subst; rewrite IH; split; congruence| |];
      (split; [discriminate|]; intros X; injection X as <- <-; rewrite (proj2 (E x x) eq_refl) in C; discriminate).
  - induction x as [|x l IH]; intros [|y l']; cbn; try reflexivity. rewrite S. destruct (cmp x y); cbn; auto.
  - induction x as [|x l IH]; intros [|y l'] [|z l'']; cbn; try discriminate; auto.
    intros H1 H2. destruct (cmp x y) eqn:C1; [| |discriminate].
    + apply E in C1; subst. destruct (cmp y z); auto. eapply IH; eassumption.
    + destruct (cmp y z) eqn:C2; [| |discriminate].
      * apply E in C2; subst. rewrite C1. reflexivity.
      * rewrite (T x y z C1 C2). reflexivity.
Qed.

Lemma pull_ok : forall A B (f : A -> B) cmp, (forall x y, f x = f y -> x = y) -> cmp_ok cmp ->
  cmp_ok (fun x y => cmp (f x) (f y)).
Proof.
  intros A B f cmp Hf [E [S T]]. split; [|split].
  - intros x y. rewrite E. split; [apply Hf|congruence].
  - intros x y. apply S.
  - intros x y z. apply T.
Qed.

Lemma label_inj : forall a b, label a = label b -> a = b.
Proof.
  assert (D : forall x y, decimal_text x = decimal_text y -> x = y).
  { intros x y H. pose proof (py_int_text x) as P. rewrite H, py_int_text in P. congruence. }
  intros [i|j] [i'|j'] H; cbn in H; injection H as H; try discriminate; apply D in H; f_equal; lia.
Qed.

Lemma codes_inj : forall a b, codes a = codes b -> a = b.
Proof.
  intros a b H. apply label_inj. unfold codes in H.
  assert (E : list_ascii_of_string (label a) = list_ascii_of_string (label b)).
  { revert H. generalize (list_ascii_of_string (label a)) (list_ascii_of_string (label b)).
    induction l as [|x l IH]; intros [|y l'] H; cbn in H; try discriminate; [reflexivity|].
    injection H as H1 H2. f_equal; [|apply IH; exact H2].
    rewrite <- (ascii_N_embedding x), <- (ascii_N_embedding y), H1. reflexivity. }
  rewrite <- (string_of_list_ascii_of_string (label a)), <- (string_of_list_ascii_of_string (label b)), E. reflexivity.
Qed.

Lemma ncmp_ok : cmp_ok node_cmp.
Proof.
  apply (pull_ok _ _ codes (lex N.compare) codes_inj). apply lex_ok. split; [|split].
  - intros x y. apply N.compare_eq_iff.
  - intros x y. apply N.compare_antisym.
  - intros x y z H1 H2. rewrite N.compare_lt_iff in *. eapply N.lt_trans; eassumption.
Qed.

Lemma pcmp_ok : cmp_ok path_cmp.
Proof. apply lex_ok, ncmp_ok. Qed.

Lemma node_eqb_spec : forall a b, node_eqb a b = true <-> a = b.
Proof.
  intros [i|j] [i'|j']; cbn; rewrite ?Nat.eqb_eq; split; intros H; try discriminate; try congruence.
Qed.

Lemma node_in_spec : forall n l, node_in n l = true <-> In n l.
Proof.
  intros n l. unfold node_in. rewrite existsb_exists. split.
  - intros [x [Hx E]]. apply node_eqb_spec in E. subst; exact Hx.
  - intros H. exists n. split; [exact H|apply node_eqb_spec; reflexivity].
Qed.

Lemma node_in_false : forall n l, node_in n l = false <-> ~ In n l.
Proof. intros n l. rewrite <- node_in_spec. destruct (node_in n l); split; congruence. Qed.

Definition least (m : node) (l : list node) : Prop := In m l /\ forall y, In y l -> node_cmp y m <> Lt.

Lemma min_node_least : forall l x, least (min_node x l) (x :: l).
Proof.
  destruct ncmp_ok as [E [S T]].
  induction l as [|y l IH]; intros x; unfold min_node; cbn [fold_left].
  - split; [left; reflexivity|]. intros y [<-|[]] H. rewrite (proj2 (E x x) eq_refl) in H. discriminate.
  - fold (min_node (if is_lt (node_cmp y x) then y else x) l).
    destruct (node_cmp y x) eqn:C; cbn [is_lt];
      match goal with |- least (min_node ?z l) _ => destruct (IH z) as [I1 I2] end;
      (split; [destruct I1 as [<-|I1]; [first [left; reflexivity|right; left; reflexivity]|right; right; exact I1]|]);
      intros z [<-|[<-|Hz]]; try (apply I2; right; exact Hz); try (apply I2; left; reflexivity).
    + apply E in C. subst. apply I2; left; reflexivity.
    + intros H. apply (I2 y (or_introl eq_refl)). eapply T; eassumption.
    + intros H. apply (I2 x (or_introl eq_refl)).
      assert (node_cmp x y = Lt) by (rewrite S, C; reflexivity). eapply T; eassumption.
Qed.

Lemma least_unique : forall m m' l l', least m l -> least m' l' -> (forall x, In x l <-> In x l') -> m = m'.
Proof.
  intros m m' l l' [A1 A2] [B1 B2] H. destruct ncmp_ok as [E [S _]].
  apply H in A1 as A1'. apply H in B1 as B1'. specialize (A2 m' B1'). specialize (B2 m A1').
  apply E. rewrite (S m m') in A2. destruct (node_cmp m m'); [reflexivity|contradiction|cbn in A2; contradiction].
Qed.

(** ---- Canonical forms --------------------------------------------------------- *)

Definition pick (u v : list node) : list node := match path_cmp u v with Gt => v | _ => u end.

Lemma pick_comm : forall u v, pick u v = pick v u.
Proof.
  intros u v. unfold pick. destruct pcmp_ok as [E [S _]]. rewrite (S u v).
  destruct (path_cmp u v) eqn:C; cbn; auto. apply E in C; auto.
Qed.

Lemma filter_unique : forall A (f : A -> bool) l p, NoDup l -> In p l -> f p = true ->
  (forall q, In q l -> f q = true -> q = p) -> filter f l = [p].
Proof.
  intros A f l p HN; induction HN as [|x l Hx HN IH]; intros Hin Hp Hu; [destruct Hin|]. cbn [filter].
  destruct (f x) eqn:Fx.
  - assert (x = p) by (apply Hu; [left; reflexivity|exact Fx]). subst x. f_equal.
    assert (G : forall q, In q l -> f q = false).
    { intros q Hq. destruct (f q) eqn:Fq; [|reflexivity]. destruct Hx.
      rewrite <- (Hu q (or_intror Hq) Fq). exact Hq. }
    clear -G. induction l as [|y l IH]; [reflexivity|]. cbn. rewrite (G y) by (left; reflexivity).
    apply IH. intros q Hq; apply G; right; exact Hq.
  - destruct Hin as [->|Hin]; [congruence|]. apply IH; auto. intros q Hq; apply Hu; right; exact Hq.
Qed.

Lemma indices_of_unique : forall m a b, NoDup (a ++ m :: b) -> indices_of m (a ++ m :: b) = [List.length a].
Proof.
  intros m a b HN. unfold indices_of. apply filter_unique.
  - apply seq_NoDup.
  - apply in_seq. rewrite app_length. cbn. lia.
  - rewrite nth_error_app2, Nat.sub_diag by lia. cbn. apply node_eqb_spec. reflexivity.
  - intros q Hq H. destruct (nth_error (a ++ m :: b) q) eqn:E; [|discriminate].
    apply node_eqb_spec in H. subst n.
    apply (proj1 (NoDup_nth_error (a ++ m :: b)) HN); [apply in_seq in Hq; lia|].
    rewrite E, nth_error_app2, Nat.sub_diag by lia. reflexivity.
Qed.

Lemma index_of_split : forall m a b, ~ In m a -> index_of m (a ++ m :: b) = List.length a.
Proof.
  intros m a b; induction a as [|x a IH]; intros H; cbn.
  - rewrite (proj2 (node_eqb_spec m m) eq_refl). reflexivity.
  - destruct (node_eqb m x) eqn:E; [apply node_eqb_spec in E; subst; destruct H; left; reflexivity|].
    rewrite IH; [reflexivity|]. intros X; apply H; right; exact X.
Qed.

Lemma rotate_split : forall A (a : list A) b, rotate (List.length a) (a ++ b) = b ++ a.
Proof.
  intros A a b. unfold rotate. rewrite skipn_app, skipn_all, Nat.sub_diag. cbn [skipn app].
  rewrite firstn_app, firstn_all, Nat.sub_diag. cbn [firstn]. rewrite app_nil_r. reflexivity.
Qed.

Lemma canonical_split : forall c a m b, NoDup c -> c = a ++ m :: b -> least m c ->
  canonical c = Some (pick (m :: b ++ a) (m :: rev (b ++ a))).
Proof.
  intros c a m b HN Ec Hm. destruct c as [|x l]; [destruct a; discriminate|]. unfold canonical.
  assert (min_node x l = m) as ->.
  { apply (least_unique _ _ (x :: l) (x :: l)); [apply min_node_least|exact Hm|tauto]. }
  rewrite Ec in *. rewrite indices_of_unique by exact HN. cbn [fold_left].
  rewrite (rotate_split _ a (m :: b)). rewrite rev_app_distr. cbn [rev]. rewrite <- app_assoc. cbn [app].
  rewrite index_of_split.
  - rewrite (rotate_split _ (rev b) (m :: rev a)). cbn [app]. rewrite <- rev_app_distr. unfold pick.
    destruct (path_cmp (m :: b ++ a) (m :: rev (b ++ a))); reflexivity.
  - rewrite <- in_rev. apply NoDup_remove_2 in HN. intros X. apply HN. apply in_or_app. right; exact X.
Qed.

Lemma has_least : forall c, c <> [] -> exists m a b, c = a ++ m :: b /\ least m c.
Proof.
  intros [|x l] H; [contradiction|]. pose proof (min_node_least l x) as L. set (m := min_node x l) in *.
  destruct (in_split m (x :: l)) as [a [b E]]; [apply L|]. exists m, a, b. split; [exact E|exact L].
Qed.

Lemma least_perm : forall m c c', Permutation c c' -> least m c -> least m c'.
Proof.
  intros m c c' P [A B]. split; [eapply Permutation_in; eassumption|].
  intros y Hy. apply B. eapply Permutation_in; [symmetry; exact P|exact Hy].
Qed.

Lemma canonical_rot : forall c c', NoDup c -> rot c c' -> canonical c' = canonical c.
Proof.
  intros c c' HN HR. destruct c as [|x l].
  { destruct HR as [a [b [E ->]]]. symmetry in E. apply app_eq_nil in E as [-> ->]. reflexivity. }
  destruct (has_least (x :: l)) as [m [a [b [Ec Hm]]]]; [discriminate|]. set (c := x :: l) in *.
  assert (Hm' : least m c') by (eapply least_perm; [apply rot_perm; exact HR|exact Hm]).
  destruct (in_split m c') as [a' [b' Ec']]; [apply Hm'|].
  rewrite (canonical_split c a m b HN Ec Hm).
  assert (HN' : NoDup c') by (eapply Permutation_NoDup; [apply rot_perm; exact HR|exact HN]).
  rewrite (canonical_split c' a' m b' HN' Ec' Hm').
  rewrite (rot_unique _ m c c' a b a' b' HN HR Ec Ec'). reflexivity.
Qed.

Lemma canonical_rev : forall c, NoDup c -> canonical (rev c) = canonical c.
Proof.
  intros c HN. destruct c as [|x l]; [reflexivity|].
  destruct (has_least (x :: l)) as [m [a [b [Ec Hm]]]]; [discriminate|]. set (c := x :: l) in *.
  rewrite (canonical_split c a m b HN Ec Hm).
  assert (E : rev c = rev b ++ m :: rev a) by (rewrite Ec, rev_app_distr; cbn; rewrite <- app_assoc; reflexivity).
  rewrite (canonical_split (rev c) (rev b) m (rev a)).
  - rewrite pick_comm. rewrite <- rev_app_distr, rev_involutive. reflexivity.
  - apply NoDup_rev. exact HN.
  - exact E.
  - apply (least_perm m c); [apply Permutation_rev|exact Hm].
Qed.

Lemma canonical_same : forall c c', NoDup c -> same_cycle c c' -> canonical c' = canonical c.
Proof.
  intros c c' HN [k [->| ->]].
  - apply canonical_rot; [exact HN|apply rot_rotate].
  - rewrite canonical_rot with (c := rev c); [apply canonical_rev; exact HN|apply NoDup_rev; exact HN|apply rot_rotate].
Qed.

Lemma canonical_is_same : forall c, NoDup c -> c <> [] -> exists k, canonical c = Some k /\ k <> [] /\ same_cycle c k.
Proof.
  intros c HN Hne. destruct (has_least c Hne) as [m [a [b [Ec Hm]]]].
  rewrite (canonical_split c a m b HN Ec Hm). eexists. split; [reflexivity|]. unfold pick.
  assert (F : same_cycle c (m :: b ++ a)).
  { destruct (rotate_rot _ c (m :: b ++ a)) as [k E]; [exists a, (m :: b); auto|]. exists k. left; exact E. }
  assert (B : same_cycle c (m :: rev (b ++ a))).
  { destruct (rotate_rot _ (rev c) (m :: rev (b ++ a))) as [k E]; [|exists k; right; exact E].
    exists (rev b), (m :: rev a). rewrite Ec, !rev_app_distr. cbn. rewrite <- app_assoc. split; reflexivity. }
  destruct (path_cmp (m :: b ++ a) (m :: rev (b ++ a))); (split; [discriminate|assumption]).
Qed.

(** ---- The graph ----------------------------------------------------------------- *)

Lemma nset_add_in : forall n x l, In x (nset_add n l) <-> x = n \/ In x l.
Proof.
  intros n x l. unfold nset_add. destruct (node_in n l) eqn:E.
  - apply node_in_spec in E. split; [auto|]. intros [->|H]; assumption.
  - rewrite in_app_iff. cbn. intuition.
Qed.

Lemma neighbours_spec : forall free a b, In b (neighbours free a) <-> adjacent free a b.
Proof.
  intros free a b. unfold neighbours.
  assert (G : forall acc, In b (fold_left (fun acc k =>
      match a with
      | Orig i => if Nat.eqb i (fst k) then nset_add (Dest (snd k)) acc else acc
      | Dest j => if Nat.eqb j (snd k) then nset_add (Orig (fst k)) acc else acc
      end) free acc) <-> In b acc \/ adjacent free a b).
  { induction free as [|[p q] free IH]; intros acc; cbn [fold_left].
    - split; [auto|]. intros [H|H]; [exact H|]. destruct a, b; destruct H.
    - rewrite IH. destruct a as [i|j]; cbn [fst snd].
      + destruct (Nat.eqb_spec i p) as [->|Hn]; [rewrite nset_add_in|]; destruct b as [i'|j']; cbn [adjacent In];
          intuition (try congruence); subst; auto.
      + destruct (Nat.eqb_spec j q) as [->|Hn]; [rewrite nset_add_in|]; destruct b as [i'|j']; cbn [adjacent In];
          intuition (try congruence); subst; auto. }
  rewrite G. cbn. tauto.
Qed.

Lemma origins_spec : forall free n, In n (origins free) <-> exists i j, n = Orig i /\ In (i, j) free.
Proof.
  intros free n. unfold origins.
  assert (G : forall acc, In n (fold_left (fun acc k => nset_add (Orig (fst k)) acc) free acc)
    <-> In n acc \/ exists i j, n = Orig i /\ In (i, j) free).
  { induction free as [|[p q] free IH]; intros acc; cbn [fold_left].
    - split; [auto|]. intros [H|[i [j [_ []]]]]; exact H.
    - rewrite IH, nset_add_in. cbn [fst]. split.
      + intros [[->|H]|[i [j [-> H]]]]; [right; exists p, q; cbn; auto|auto|right; exists i, j; cbn; auto].
      + intros [H|[i [j [-> [E|H]]]]]; [auto|injection E as -> ->; auto|right; exists i, j; auto]. }
  rewrite G. cbn. tauto.
Qed.

(** ---- Depth-first search --------------------------------------------------------- *)

Lemma pairs_snoc : forall A (p : list A) d n, p <> [] -> pairs (p ++ [n]) = pairs p ++ [(last p d, n)].
Proof.
  intros A p d n H. destruct (exists_last H) as [q [z ->]]. rewrite <- app_assoc. cbn [app].
  rewrite pairs_app, last_last. reflexivity.
Qed.

Section Search.
  Context (iter : list node -> list node) (Hiter : forall l, Permutation (iter l) l) (free : list cell) (maxlen : nat).

  Definition extends (start : node) (path c : list node) : Prop :=
    exists ext, c = path ++ ext /\ NoDup c /\ 3 <= List.length c <= maxlen /\
      (forall a b, In (a, b) (pairs c) -> adjacent free a b) /\ adjacent free (last c start) start.

  Lemma dfs_spec : forall fuel start path c,
    hd_error path = Some start -> maxlen < List.length path + fuel -> NoDup path ->
    (forall a b, In (a, b) (pairs path) -> adjacent free a b) ->
    In c (dfs iter (neighbours free) maxlen start fuel path) <-> extends start path c.
  Proof.
    induction fuel as [|fuel IH]; intros start path c Hd Hf HN HP.
    - cbn [dfs]. split; [intros []|]. intros [ext [-> [_ [HL _]]]]. rewrite app_length in HL. lia.
    - assert (Hne : path <> []) by (intros ->; discriminate).
      assert (Hst : In start path) by (destruct path as [|x p]; [discriminate|]; injection Hd as ->; left; reflexivity).
      cbn [dfs]. rewrite in_flat_map. split.
      + intros [n [Hn H]]. apply (Permutation_in n (Hiter _)) in Hn. apply neighbours_spec in Hn.
        destruct (node_eqb n start && (3 <=? List.length path)) eqn:E1.
        * apply andb_true_iff in E1 as [E1 E2]. apply node_eqb_spec in E1. apply Nat.leb_le in E2. subst n.
          destruct (Nat.leb_spec (List.length path) maxlen); [|destruct H]. destruct H as [<-|[]].
          exists []. rewrite app_nil_r. repeat (split; [first [reflexivity|assumption|lia]|]). exact Hn.
        * destruct (node_in n path) eqn:E2; [destruct H|]. apply node_in_false in E2.
          destruct (Nat.ltb_spec maxlen (List.length path + 1)); [destruct H|].
          apply IH in H.
          -- destruct H as [ext [-> R]]. exists (n :: ext). rewrite <- app_assoc in *. cbn [app] in *. split; [reflexivity|exact R].
          -- destruct path; [discriminate|exact Hd].
          -- rewrite app_length; cbn; lia.
          -- apply (Permutation_NoDup (l := n :: path)); [apply Permutation_cons_append|constructor; assumption].
          -- intros a b Hab. rewrite (pairs_snoc _ path start n Hne) in Hab. apply in_app_or in Hab as [Hab|[E|[]]]; [auto|].
             injection E as <- <-. exact Hn.
      + intros [[|n ext] [-> [HN' [HL [HA HC]]]]].
        * rewrite app_nil_r in *. exists start. split.
          -- apply (Permutation_in _ (Permutation_sym (Hiter _))). apply neighbours_spec. exact HC.
          -- rewrite (proj2 (node_eqb_spec start start) eq_refl). cbn [andb].
             replace (3 <=? List.length path) with true by (symmetry; apply Nat.leb_le; lia).
             replace (List.length path <=? maxlen) with true by (symmetry; apply Nat.leb_le; lia). left; reflexivity.
        * exists n. split.
          -- apply (Permutation_in _ (Permutation_sym (Hiter _))). apply neighbours_spec. apply HA.
             rewrite pairs_app. apply in_or_app. left. rewrite (pairs_snoc _ path start n Hne). apply in_or_app. right; left; reflexivity.
          -- assert (Hni : ~ In n path).
             { apply NoDup_remove_2 in HN'. intros X; apply HN'. apply in_or_app; left; exact X. }
             assert (node_eqb n start = false) as ->.
             { destruct (node_eqb n start) eqn:E; [|reflexivity]. apply node_eqb_spec in E. subst; contradiction. }
             cbn [andb]. rewrite (proj2 (node_in_false n path) Hni).
             rewrite app_length in HL. cbn [List.length] in HL.
             destruct (Nat.ltb_spec maxlen (List.length path + 1)); [lia|].
             apply IH.
             ++ destruct path; [discriminate|exact Hd].
             ++ rewrite app_length; cbn; lia.
             ++ apply (Permutation_NoDup (l := n :: path)); [apply Permutation_cons_append|constructor; assumption].
             ++ intros a b Hab. apply HA. rewrite pairs_app. apply in_or_app. left. exact Hab.
             ++ exists ext. rewrite <- app_assoc. cbn [app]. split; [reflexivity|]. split; [exact HN'|].
                split; [rewrite app_length; cbn [List.length]; lia|]. split; assumption.
  Qed.

  Definition found : list (list node) :=
    flat_map (fun o => dfs iter (neighbours free) maxlen o (S maxlen) [o]) (iter (origins free)).

  Lemma last_step : forall A (x : A) w, In (last (x :: w) x, x) (pairs (x :: w ++ [x])).
  Proof.
    intros A x w. change (x :: w ++ [x]) with ((x :: w) ++ [x]). rewrite (pairs_snoc _ (x :: w) x x) by discriminate.
    apply in_or_app. right; left; reflexivity.
  Qed.

  Lemma found_spec : forall c, In c found <->
    (exists i, hd_error c = Some (Orig i)) /\ simple_cycle free c /\ List.length c <= maxlen.
  Proof.
    intros c. unfold found. rewrite in_flat_map. split.
    - intros [o [Ho H]]. apply (Permutation_in o (Hiter _)) in Ho. apply origins_spec in Ho as [i [j [-> Hij]]].
      apply dfs_spec in H; [|reflexivity|cbn; lia|constructor; [intros []|constructor]|intros a b []].
      destruct H as [ext [-> [HN [HL [HA HC]]]]]. cbn [app] in *. split; [exists i; reflexivity|].
      split; [|lia]. split; [exact HN|]. split; [lia|]. intros a b Hab. unfold steps in Hab.
      rewrite (pairs_snoc _ (Orig i :: ext) (Orig i) (Orig i)) in Hab by discriminate.
      apply in_app_or in Hab as [Hab|[E|[]]]; [auto|]. injection E as <- <-. exact HC.
    - intros [[i Hi] [[HN [HL HA]] HM]]. destruct c as [|x w]; [discriminate|]. cbn in Hi. injection Hi as ->.
      assert (HC : adjacent free (last (Orig i :: w) (Orig i)) (Orig i)) by (apply HA, last_step).
      exists (Orig i). split.
      + apply (Permutation_in _ (Permutation_sym (Hiter _))). apply origins_spec.
        destruct (last (Orig i :: w) (Orig i)) as [i'|j]; [destruct HC|]. exists i, j. split; [reflexivity|exact HC].
      + apply dfs_spec; [reflexivity|cbn; lia|constructor; [intros []|constructor]|intros a b []|].
        exists w. split; [reflexivity|]. split; [exact HN|]. split; [lia|]. split; [|exact HC].
        intros a b Hab. apply HA. unfold steps. change ((Orig i :: w) ++ [Orig i]) with ((Orig i :: w) ++ [Orig i]).
        rewrite (pairs_snoc _ (Orig i :: w) (Orig i) (Orig i)) by discriminate. apply in_or_app; left; exact Hab.
  Qed.
End Search.

Lemma path_eqb_spec : forall a b, path_eqb a b = true <-> a = b.
Proof.
  intros a b. unfold path_eqb. destruct pcmp_ok as [E _]. rewrite <- E. destruct (path_cmp a b); split; congruence.
Qed.

Lemma add_cycles_spec : forall l acc, NoDup acc -> (forall c, In c l -> NoDup c /\ c <> []) ->
  NoDup (fold_left add_cycle l acc) /\
  forall k, In k (fold_left add_cycle l acc) <-> In k acc \/ exists c, In c l /\ canonical c = Some k.
Proof.
  induction l as [|c l IH]; intros acc HA HL; cbn [fold_left].
  - split; [exact HA|]. intros k. split; [auto|]. intros [H|[c [[] _]]]; exact H.
  - destruct (HL c (or_introl eq_refl)) as [HN Hne].
    destruct (canonical_is_same c HN Hne) as [k0 [E0 [Hk0 _]]].
    assert (A : NoDup (add_cycle acc c) /\ forall k, In k (add_cycle acc c) <-> In k acc \/ k = k0).
    { unfold add_cycle. rewrite E0. destruct k0 as [|x w]; [contradiction|].
      destruct (existsb (path_eqb (x :: w)) acc) eqn:E.
      - apply existsb_exists in E as [z [Hz Ez]]. apply path_eqb_spec in Ez. subst z.
        split; [exact HA|]. intros k; split; [auto|]. intros [H| ->]; assumption.
      - split.
        + apply (Permutation_NoDup (l := (x :: w) :: acc)); [apply Permutation_cons_append|].
          constructor; [|exact HA]. intros X. rewrite (proj2 (existsb_exists _ _)) in E; [discriminate|].
          exists (x :: w). split; [exact X|apply path_eqb_spec; reflexivity].
        + intros k. rewrite in_app_iff. cbn. intuition. }
    destruct A as [A1 A2]. destruct (IH (add_cycle acc c) A1) as [B1 B2]; [intros z Hz; apply HL; right; exact Hz|].
    split; [exact B1|]. intros k. rewrite B2, A2. split.
    + intros [[H|H]|[z [Hz Ez]]]; [auto|right; exists c; split; [left; reflexivity|congruence]|right; exists z; split; [right; exact Hz|exact Ez]].
    + intros [H|[z [[<-|Hz] Ez]]]; [auto|left; right; congruence|right; exists z; auto].
Qed.

(** Simple cycles are closed under [same_cycle]. *)
Lemma adjacent_sym : forall free a b, adjacent free a b -> adjacent free b a.
Proof. intros free [i|j] [i'|j'] H; exact H. Qed.

Lemma same_cycle_steps : forall c c', same_cycle c c' ->
  (forall a b, In (a, b) (steps c') <-> In (a, b) (steps c)) \/ (forall a b, In (a, b) (steps c') <-> In (b, a) (steps c)).
Proof.
  intros c c' [k [->| ->]].
  - left. intros a b. pose proof (steps_rot _ _ _ (rot_rotate _ k c)) as P.
    split; apply Permutation_in; [symmetry; exact P|exact P].
  - right. intros a b. pose proof (steps_rot _ _ _ (rot_rotate _ k (rev c))) as P.
    assert (Q : Permutation (steps (rotate k (rev c))) (map swap (steps c))) by (etransitivity; [symmetry; exact P|apply steps_rev]).
    split; intros H.
    + apply (Permutation_in _ Q) in H. apply in_map_iff in H as [[x y] [E H]]. injection E as <- <-. exact H.
    + apply (Permutation_in _ (Permutation_sym Q)). apply in_map_iff. exists (b, a). auto.
Qed.

Lemma same_cycle_perm : forall c c', same_cycle c c' -> Permutation c c'.
Proof.
  intros c c' [k [->| ->]]; [apply rot_perm, rot_rotate|].
  etransitivity; [apply Permutation_rev|apply rot_perm, rot_rotate].
Qed.

Lemma same_cycle_simple : forall free c c', same_cycle c c' -> simple_cycle free c -> simple_cycle free c'.
Proof.
  intros free c c' H [HN [HL HA]]. pose proof (same_cycle_perm _ _ H) as P. split; [|split].
  - eapply Permutation_NoDup; eassumption.
  - rewrite <- (Permutation_length P). exact HL.
  - intros a b Hab. destruct (same_cycle_steps _ _ H) as [S|S]; apply S in Hab; [apply HA; exact Hab|].
    apply adjacent_sym, HA, Hab.
Qed.

Lemma rot_starts_at : forall (c : list node) x, In x c -> exists w, rot c (x :: w).
Proof. intros c x H. apply in_split in H as [a [b ->]]. exists (b ++ a). exists a, (x :: b). auto. Qed.

(** Every simple cycle of at most [maxlen] nodes is found, exactly once up to
    where it starts and in which direction it runs; whatever the order in which
    Python lists its sets. *)
Theorem C105_cycles_exact : forall iter free maxlen, (forall l, Permutation (iter l) l) ->
  let cycles := find_all_cycles iter free maxlen in
  (forall c, In c cycles -> simple_cycle free c /\ List.length c <= maxlen) /\
  (forall c, simple_cycle free c -> List.length c <= maxlen -> exists c', In c' cycles /\ same_cycle c c') /\
  (forall i j c c', nth_error cycles i = Some c -> nth_error cycles j = Some c' -> same_cycle c c' -> i = j).
Proof.
  intros iter free maxlen Hiter cycles.
  assert (HF : forall c, In c (found iter free maxlen) -> NoDup c /\ c <> []).
  { intros c Hc. apply (found_spec iter Hiter) in Hc as [_ [[HN [HL _]] _]]. split; [exact HN|]. intros ->; cbn in HL; lia. }
  destruct (add_cycles_spec (found iter free maxlen) [] (NoDup_nil _) HF) as [ND IN].
  change (fold_left add_cycle (found iter free maxlen) []) with cycles in *.
  split; [|split].
  - intros k Hk. apply IN in Hk as [[]|[c [Hc Ec]]]. destruct (HF c Hc) as [HN Hne].
    destruct (canonical_is_same c HN Hne) as [k' [Ek [_ Hs]]]. assert (k' = k) by congruence. subst k'.
    apply (found_spec iter Hiter) in Hc as [_ [HS HM]]. split; [eapply same_cycle_simple; eassumption|].
    rewrite <- (Permutation_length (same_cycle_perm _ _ Hs)). exact HM.
  - intros c HS HM.
    assert (HO : exists i, In (Orig i) c).
    { destruct HS as [_ [HL HA]]. destruct c as [|x w]; [cbn in HL; lia|].
      pose proof (HA _ _ (last_step _ x w)) as A0. destruct x as [i|j]; [exists i; left; reflexivity|].
      destruct (last (Dest j :: w) (Dest j)) as [i|j'] eqn:EL; [|destruct A0]. exists i. rewrite <- EL.
      assert (G : forall (y : node) l, In (last (y :: l) y) (y :: l)).
      { intros y l. destruct (exists_last (l := y :: l)) as [q [z E]]; [discriminate|]. rewrite E, last_last.
        apply in_or_app; right; left; reflexivity. }
      apply G. }
    destruct HO as [i Hi]. destruct (rot_starts_at c (Orig i) Hi) as [w HR].
    assert (SC : same_cycle c (Orig i :: w)) by (destruct (rotate_rot _ _ _ HR) as [k E]; exists k; left; exact E).
    assert (Hin : In (Orig i :: w) (found iter free maxlen)).
    { apply (found_spec iter Hiter). split; [exists i; reflexivity|]. split; [eapply same_cycle_simple; eassumption|].
      rewrite <- (Permutation_length (same_cycle_perm _ _ SC)). exact HM. }
    destruct HS as [HN [HL HA]].
    assert (Hne : c <> []) by (intros ->; cbn in HL; lia).
    destruct (canonical_is_same c HN Hne) as [k [Ek [_ Hs]]]. exists k. split; [|exact Hs].
    apply IN. right. exists (Orig i :: w). split; [exact Hin|]. rewrite (canonical_same c _ HN SC). exact Ek.
  - intros i j c c' Hi Hj Hs.
    assert (FX : forall k, In k cycles -> NoDup k /\ canonical k = Some k).
    { intros k Hk. apply IN in Hk as [[]|[z [Hz Ez]]]. destruct (HF z Hz) as [HN Hne].
      destruct (canonical_is_same z HN Hne) as [k' [Ek [_ Hs']]]. assert (k' = k) by congruence. subst k'.
      split; [eapply Permutation_NoDup; [apply same_cycle_perm; exact Hs'|exact HN]|].
      rewrite (canonical_same z k HN Hs'). exact Ek. }
    destruct (FX c (nth_error_In _ _ Hi)) as [HN1 E1]. destruct (FX c' (nth_error_In _ _ Hj)) as [HN2 E2].
    assert (c = c').
    { pose proof (canonical_same c c' HN1 Hs) as E. rewrite E1, E2 in E. congruence. }
    subst c'. apply (proj1 (NoDup_nth_error cycles) ND); [apply nth_error_Some; congruence|congruence].
Qed.
Print Assumptions C105_cycles_exact.

(** On a three by three table with one fixed cell: the cycles of four or six nodes. *)
Example C105_nonvacuous :
  let free := [(0, 0); (0, 1); (1, 0); (1, 1); (1, 2); (2, 1); (2, 2)] in
  (forall l : list node, Permutation (rev l) l) /\
  find_all_cycles (fun l => rev l) free 10 =
    [[Dest 1; Orig 1; Dest 2; Orig 2]; [Dest 0; Orig 0; Dest 1; Orig 2; Dest 2; Orig 1]; [Dest 0; Orig 0; Dest 1; Orig 1]].
Proof. cbn zeta. split; [intros l; symmetry; apply Permutation_rev|vm_compute; reflexivity]. Qed.

(** ---- The move of a cycle --------------------------------------------------- *)

(** The cell two adjacent nodes stand for. *)
Definition edge_cell (p : node * node) : cell :=
  match p with
  | (Orig i, Dest j) | (Dest j, Orig i) => (i, j)
  | _ => (0, 0)
  end.

Definition weight (n : node) : Z := match n with Orig _ => 1%Z | Dest _ => (-1)%Z end.

Definition zcell (k : cell) : Z * Z := (Z.of_nat (fst k), Z.of_nat (snd k)).

Lemma remove_char_absent : forall c s, count_char c s = 0 -> remove_char c s = s.
Proof.
  induction s as [|a s IH]; intros H; [reflexivity|]. cbn [count_char remove_char] in *.
  destruct (Ascii.eqb a c); [lia|]. rewrite IH by lia. reflexivity.
Qed.

Lemma has_char_absent : forall c s, count_char c s = 0 -> has_char c s = false.
Proof.
  unfold has_char. induction s as [|a s IH]; intros H; [reflexivity|]. cbn [count_char list_ascii_of_string existsb] in *.
  rewrite Ascii.eqb_sym. destruct (Ascii.eqb a c); [lia|]. apply IH; lia.
Qed.

Lemma adjacent_cell : forall free a b, adjacent free a b -> In (edge_cell (a, b)) free.
Proof. intros free [i|j] [i'|j'] H; cbn in *; tauto. Qed.

Lemma cell_of_labels_adjacent : forall free a b, adjacent free a b ->
  cell_of_labels (label a) (label b) = Ok (zcell (edge_cell (a, b))).
Proof.
  intros free a b H.
  assert (NO : forall z, count_char "o" (decimal_text z) = 0) by (intros; apply text_char; reflexivity).
  assert (ND : forall z, count_char "d" (decimal_text z) = 0) by (intros; apply text_char; reflexivity).
  assert (H1 : forall z, has_char "o" (String "o" (decimal_text z)) = true) by reflexivity.
  assert (H2 : forall z, has_char "d" (String "d" (decimal_text z)) = true) by reflexivity.
  assert (H3 : forall z, has_char "o" (String "d" (decimal_text z)) = false) by (intros; apply has_char_absent; cbn [count_char]; cbn; apply NO).
  assert (H4 : forall z, has_char "d" (String "o" (decimal_text z)) = false) by (intros; apply has_char_absent; cbn [count_char]; cbn; apply ND).
  assert (R1 : forall z, remove_char "o" (String "o" (decimal_text z)) = decimal_text z) by (intros; cbn; apply remove_char_absent, NO).
  assert (R2 : forall z, remove_char "d" (String "d" (decimal_text z)) = decimal_text z) by (intros; cbn; apply remove_char_absent, ND).
  unfold cell_of_labels. destruct a as [i|j], b as [i'|j']; cbn in H; try tauto; cbn [label].
  - rewrite H1, H2, R1, R2, !py_int_text. cbn [rbind]. unfold zcell, edge_cell; cbn [fst snd].
    repeat f_equal; lia.
  - rewrite H3, H4, R1, R2, !py_int_text. cbn [rbind]. unfold zcell, edge_cell; cbn [fst snd].
    repeat f_equal; lia.
Qed.

Lemma move_set_fresh : forall k v f, ~ In k (map fst f) -> move_set k v f = f ++ [(k, v)].
Proof.
  induction f as [|[k' v'] f IH]; intros H; [reflexivity|]. cbn [map fst move_set app] in *.
  destruct ((fst k =? fst k')%Z && (snd k =? snd k')%Z) eqn:E.
  - apply andb_true_iff in E as [E1 E2]. apply Z.eqb_eq in E1, E2. exfalso. apply H. left.
    destruct k, k'; cbn in *; congruence.
  - rewrite IH; [reflexivity|]. intros Hin; apply H; right; exact Hin.
Qed.

Lemma zcell_inj : forall a b, zcell a = zcell b -> a = b.
Proof. intros [a b] [c d] H. unfold zcell in H; cbn in H. injection H as H1 H2. f_equal; lia. Qed.

Lemma move_loop_eq : forall free g l counter f,
  (forall a b, In (a, b) (pairs l) -> adjacent free a b) ->
  NoDup (map fst f ++ map (fun p => zcell (edge_cell p)) (pairs l)) ->
  match l with [] => True | x :: _ => (g * weight x)%Z = (if Nat.even counter then 1 else -1)%Z end ->
  move_loop counter l f = Ok (f ++ map (fun p => (zcell (edge_cell p), (g * weight (fst p))%Z)) (pairs l)).
Proof.
  intros free g. induction l as [|x l IH]; intros counter f HA HN Hg; [cbn; rewrite app_nil_r; reflexivity|].
  destruct l as [|y r]; [cbn; rewrite app_nil_r; reflexivity|].
  cbn [pairs] in *. pose proof (HA x y (or_introl eq_refl)) as A0.
  change (move_loop counter (x :: y :: r) f) with
    (do k <- cell_of_labels (label x) (label y) ; move_loop (S counter) (y :: r) (move_set k (if Nat.even counter then 1 else -1)%Z f)).
  rewrite (cell_of_labels_adjacent _ _ _ A0). cbn [rbind].
  cbn [map] in HN. rewrite move_set_fresh.
  2:{ intros Hin. apply NoDup_remove_2 in HN. apply HN, in_or_app. left; exact Hin. }
  rewrite IH.
  - rewrite <- app_assoc. cbn [map app fst]. rewrite Hg. reflexivity.
  - intros a b Hab. apply HA. right; exact Hab.
  - rewrite map_app. cbn [map fst]. rewrite <- app_assoc. exact HN.
  - rewrite Nat.even_succ, <- Nat.negb_even. destruct x, y; cbn in A0; try tauto; cbn [weight] in *; destruct (Nat.even counter); cbn [negb]; lia.
Qed.

Lemma steps_fst : forall A (c : list A), map fst (steps c) = c.
Proof. intros A [|x c]; [reflexivity|]. unfold steps. apply pairs_fst. Qed.

Lemma steps_snd : forall A (c : list A), Permutation (map snd (steps c)) c.
Proof.
  intros A [|x c]; [reflexivity|]. unfold steps. rewrite <- app_comm_cons, pairs_snd.
  etransitivity; [apply Permutation_app_comm|reflexivity].
Qed.

Lemma NoDup_fst_fun : forall A B (l : list (A * B)) a b b', NoDup (map fst l) -> In (a, b) l -> In (a, b') l -> b = b'.
Proof.
  induction l as [|[x y] l IH]; intros a b b' HN H1 H2; [destruct H1|]. inversion HN as [|? ? Hx HN']; subst.
  destruct H1 as [E1|H1], H2 as [E2|H2].
  - congruence.
  - injection E1 as -> ->. exfalso. apply Hx. apply in_map_iff. exists (a, b'); auto.
  - injection E2 as -> ->. exfalso. apply Hx. apply in_map_iff. exists (a, b); auto.
  - eapply IH; eassumption.
Qed.

Lemma no_back_step : forall (c : list node) a b, NoDup c -> 3 <= List.length c ->
  In (a, b) (steps c) -> In (b, a) (steps c) -> False.
Proof.
  intros c a b HN HL H1 H2.
  assert (Ha : In a c) by (rewrite <- (steps_fst _ c); apply in_map_iff; exists (a, b); auto).
  destruct (rot_starts_at c a Ha) as [w HR].
  pose proof (steps_rot _ _ _ HR) as P. pose proof (rot_perm _ _ _ HR) as Q.
  apply (Permutation_in _ P) in H1, H2. apply (Permutation_NoDup Q) in HN.
  rewrite (Permutation_length Q) in HL.
  destruct w as [|b' [|z w]]; [cbn in HL; lia|cbn in HL; lia|].
  assert (HF : NoDup (map fst (steps (a :: b' :: z :: w)))) by (rewrite steps_fst; exact HN).
  assert (b' = b) by (eapply NoDup_fst_fun; [exact HF| |exact H1]; left; reflexivity). subst b'.
  assert (z = a) by (eapply NoDup_fst_fun; [exact HF| |exact H2]; right; left; reflexivity). subst z.
  inversion HN as [|? ? Hx _]; subst. apply Hx. right; left; reflexivity.
Qed.

Lemma edge_cell_inj : forall free p q, adjacent free (fst p) (snd p) -> adjacent free (fst q) (snd q) ->
  edge_cell p = edge_cell q -> q = p \/ q = swap p.
Proof.
  intros free [[i|j] [i'|j']] [[k|l] [k'|l']] H1 H2 E; cbn in *; try tauto; injection E as -> ->; auto.
Qed.

Lemma NoDup_map_on : forall A B (f : A -> B) l, NoDup l -> (forall x y, In x l -> In y l -> f x = f y -> x = y) -> NoDup (map f l).
Proof.
  induction l as [|x l IH]; intros HN Hf; [constructor|]. inversion HN as [|? ? Hx HN']; subst. cbn. constructor.
  - intros Hin. apply in_map_iff in Hin as [y [E Hy]]. assert (y = x) by (apply Hf; [right; exact Hy|left; reflexivity|exact E]).
    subst. contradiction.
  - apply IH; [exact HN'|]. intros; apply Hf; [right|right|]; assumption.
Qed.

Lemma NoDup_of_map : forall A B (f : A -> B) l, NoDup (map f l) -> NoDup l.
Proof.
  induction l as [|x l IH]; intros H; [constructor|]. inversion H as [|? ? Hx H']; subst. constructor; [|apply IH; exact H'].
  intros Hin. apply Hx, in_map, Hin.
Qed.

Lemma cycle_keys : forall free c, simple_cycle free c -> NoDup (map edge_cell (steps c)).
Proof.
  intros free c [HN [HL HA]]. apply NoDup_map_on.
  - apply (NoDup_of_map _ _ fst). rewrite steps_fst. exact HN.
  - intros [a b] [a' b'] H1 H2 E.
    destruct (edge_cell_inj free (a, b) (a', b') (HA _ _ H1) (HA _ _ H2) E) as [E'|E']; [congruence|].
    exfalso. cbn in E'. injection E' as -> ->. eapply no_back_step; eassumption.
Qed.

Definition move_of (c : list node) : basis_fn :=
  match c with
  | [] => []
  | x :: _ => map (fun p => (edge_cell p, (weight x * weight (fst p))%Z)) (steps c)
  end.

Lemma cycle_move_eq : forall free c, simple_cycle free c ->
  exists f, cycle_move c = Ok f /\ as_basis_fn f = move_of c.
Proof.
  intros free c HS. pose proof (cycle_keys free c HS) as HK. destruct HS as [HN [HL HA]].
  destruct c as [|x w]; [cbn in HL; lia|].
  unfold cycle_move. rewrite (move_loop_eq free (weight x)).
  - cbn [app]. eexists; split; [reflexivity|]. unfold move_of, as_basis_fn. rewrite map_map. apply map_ext_in.
    intros [a b] Hab. cbn [fst snd]. f_equal. unfold zcell; cbn [fst snd]. rewrite !Nat2Z.id. destruct (edge_cell (a, b)); reflexivity.
  - intros a b Hab. apply HA. exact Hab.
  - cbn [map app]. change (pairs ((x :: w) ++ [x])) with (steps (x :: w)).
    rewrite <- map_map. apply FinFun.Injective_map_NoDup; [|exact HK]. intros p q; apply zcell_inj.
  - rewrite <- app_comm_cons. cbn [Nat.even]. destruct x; reflexivity.
Qed.

Lemma all_moves_eq : forall free cs, (forall c, In c cs -> simple_cycle free c) -> all_moves cs = Ok (map move_of cs).
Proof.
  induction cs as [|c cs IH]; intros H; [reflexivity|]. cbn [all_moves map].
  destruct (cycle_move_eq free c (H c (or_introl eq_refl))) as [f [-> E]]. cbn [rbind].
  rewrite IH by (intros; apply H; right; assumption). cbn [rbind]. congruence.
Qed.

(** ---- C106 -------------------------------------------------------------------- *)

Local Open Scope Z_scope.

Lemma bf_value_nodup : forall f, NoDup (map fst f) -> forall x, bf_value f x = lsum (map (fun e => snd e * dl (fst e) x) f).
Proof.
  induction f as [|[k v] f IH]; intros HN x; [reflexivity|]. inversion HN as [|? ? Hk HN']; subst.
  cbn [bf_value map fst snd]. rewrite lsum_cons. destruct (cell_eqb x k) eqn:E.
  - apply cell_eqb_spec in E. subst x. rewrite dl_refl.
    assert (Z0 : lsum (map (fun e => snd e * dl (fst e) k) f) = 0).
    { clear IH HN HN'. induction f as [|[k' v'] f IH]; [reflexivity|]. cbn [map fst snd] in *. rewrite lsum_cons.
      rewrite (dl_neq k' k) by (intros ->; apply Hk; left; reflexivity). rewrite IH; [lia|]. intros H; apply Hk; right; exact H. }
    lia.
  - assert (x <> k) by (intros ->; rewrite cell_eqb_refl in E; discriminate). rewrite (dl_neq k x) by assumption.
    rewrite IH by assumption. lia.
Qed.

Lemma zsum_lsum_swap : forall A n (g : A -> nat -> Z) l, zsum n (fun j => lsum (map (fun e => g e j) l)) = lsum (map (fun e => zsum n (g e)) l).
Proof.
  induction l as [|e l IH]; [cbn; apply zsum_const0|]. cbn [map]. rewrite lsum_cons, <- IH.
  rewrite <- (zsum_add n (g e) (fun j => lsum (map (fun e => g e j) l))). apply zsum_ext; intros; apply lsum_cons.
Qed.

Lemma lsum_ext_in : forall A (g h : A -> Z) l, (forall x, In x l -> g x = h x) -> lsum (map g l) = lsum (map h l).
Proof.
  induction l as [|x l IH]; intros H; [reflexivity|]. cbn [map]. rewrite !lsum_cons, H by (left; reflexivity).
  rewrite IH; [reflexivity|]. intros; apply H; right; assumption.
Qed.

Definition ind (n x : node) : Z := if node_eqb n x then 1 else 0.

(** Each node of a cycle is left as often as it is entered. *)
Lemma cycle_balance : forall free c n, simple_cycle free c ->
  lsum (map (fun p => weight (fst p) * (ind n (fst p) + ind n (snd p))) (steps c)) = 0.
Proof.
  intros free c n [_ [_ HA]].
  rewrite (lsum_ext_in _ _ (fun p => weight n * ind n (fst p) + -1 * (weight n * ind n (snd p)))).
  - assert (E : forall l : list (node * node), lsum (map (fun p => weight n * ind n (fst p) + -1 * (weight n * ind n (snd p))) l)
        = weight n * lsum (map (ind n) (map fst l)) - weight n * lsum (map (ind n) (map snd l))).
    { induction l as [|p l IH]; [cbn; lia|]. cbn [map]. rewrite !lsum_cons, IH. lia. }
    rewrite E, steps_fst. rewrite (lsum_perm _ _ (Permutation_map (ind n) (steps_snd _ c))). lia.
  - intros [a b] Hab. apply HA in Hab. cbn [fst snd]. unfold ind.
    destruct (node_eqb n a) eqn:E1; destruct (node_eqb n b) eqn:E2; try (apply node_eqb_spec in E1; subst n); try (apply node_eqb_spec in E2; subst b || subst n);
      destruct a; try destruct b; try destruct n; cbn in *; try tauto; lia.
Qed.

Lemma row_of_edge : forall free a b s i, adjacent free a b -> in_shape s (edge_cell (a, b)) ->
  row_sum s (dlt (edge_cell (a, b))) i = ind (Orig i) a + ind (Orig i) b.
Proof.
  intros free a b s i H HS. rewrite row_sum_dlt by exact HS. unfold ind.
  destruct a as [x|x], b as [y|y]; cbn in H; try tauto; cbn [edge_cell fst node_eqb]; destruct (Nat.eqb i _); reflexivity.
Qed.

Lemma col_of_edge : forall free a b s j, adjacent free a b -> in_shape s (edge_cell (a, b)) ->
  col_sum s (dlt (edge_cell (a, b))) j = ind (Dest j) a + ind (Dest j) b.
Proof.
  intros free a b s j H HS. rewrite col_sum_dlt by exact HS. unfold ind.
  destruct a as [x|x], b as [y|y]; cbn in H; try tauto; cbn [edge_cell snd node_eqb]; destruct (Nat.eqb j _); reflexivity.
Qed.

Lemma move_of_keys : forall c, map fst (move_of c) = map edge_cell (steps c).
Proof. intros [|x w]; [reflexivity|]. unfold move_of. rewrite map_map. reflexivity. Qed.

Lemma move_of_value : forall c x k, In (k, x) (move_of c) -> exists p g, In p (steps c) /\ k = edge_cell p /\ x = g * weight (fst p) /\
   (g = 1 \/ g = -1) /\ forall q, In q (steps c) -> In (edge_cell q, g * weight (fst q)) (move_of c).
Proof.
  intros [|y w] x k H; [destruct H|]. unfold move_of in *. apply in_map_iff in H as [p [E Hp]]. injection E as <- <-.
  exists p, (weight y). split; [exact Hp|]. split; [reflexivity|]. split; [reflexivity|]. split; [destruct y; cbn; auto|].
  intros q Hq. apply in_map_iff. exists q; auto.
Qed.

Lemma move_of_sums : forall s free c, (forall k, In k free -> in_shape s k) -> simple_cycle free c ->
  (forall i, row_sum s (fun i j => bf_value (move_of c) (i, j)) i = 0) /\
  (forall j, col_sum s (fun i j => bf_value (move_of c) (i, j)) j = 0).
Proof.
  intros s free c HF HS. pose proof (cycle_keys free c HS) as HK.
  assert (HN : NoDup (map fst (move_of c))) by (rewrite move_of_keys; exact HK).
  pose proof (bf_value_nodup _ HN) as HV.
  assert (HA : forall a b, In (a, b) (steps c) -> adjacent free a b) by (destruct HS as [_ [_ H]]; exact H).
  destruct c as [|x w]; [split; intros; [unfold row_sum|unfold col_sum]; cbn [move_of bf_value]; apply zsum_const0|].
  split; intros n.
  - unfold row_sum. rewrite (zsum_ext _ _ (fun j => lsum (map (fun e => snd e * dl (fst e) (n, j)) (move_of (x :: w))))) by (intros; apply HV).
    rewrite (zsum_lsum_swap _ _ (fun e j => snd e * dl (fst e) (n, j))). unfold move_of. rewrite map_map. cbn [fst snd].
    rewrite (lsum_ext_in _ _ (fun p => weight x * (weight (fst p) * (ind (Orig n) (fst p) + ind (Orig n) (snd p))))).
    + assert (E : forall l : list (node * node), lsum (map (fun p => weight x * (weight (fst p) * (ind (Orig n) (fst p) + ind (Orig n) (snd p)))) l)
          = weight x * lsum (map (fun p => weight (fst p) * (ind (Orig n) (fst p) + ind (Orig n) (snd p))) l)).
      { induction l as [|p l IH]; [cbn; lia|]. cbn [map]. rewrite !lsum_cons, IH. lia. }
      rewrite E, (cycle_balance free) by exact HS. lia.
    + intros [a b] Hab. cbn [fst snd]. pose proof (HA _ _ Hab) as Hadj.
      rewrite (zsum_mul (nJ s) (weight x * weight a) (fun j => dl (edge_cell (a, b)) (n, j))).
      change (zsum (nJ s) (fun j => dl (edge_cell (a, b)) (n, j))) with (row_sum s (dlt (edge_cell (a, b))) n).
      rewrite (row_of_edge free) by (auto; apply HF, adjacent_cell; exact Hadj). ring.
  - unfold col_sum. rewrite (zsum_ext _ _ (fun j => lsum (map (fun e => snd e * dl (fst e) (j, n)) (move_of (x :: w))))) by (intros; apply HV).
    rewrite (zsum_lsum_swap _ _ (fun e j => snd e * dl (fst e) (j, n))). unfold move_of. rewrite map_map. cbn [fst snd].
    rewrite (lsum_ext_in _ _ (fun p => weight x * (weight (fst p) * (ind (Dest n) (fst p) + ind (Dest n) (snd p))))).
    + assert (E : forall l : list (node * node), lsum (map (fun p => weight x * (weight (fst p) * (ind (Dest n) (fst p) + ind (Dest n) (snd p)))) l)
          = weight x * lsum (map (fun p => weight (fst p) * (ind (Dest n) (fst p) + ind (Dest n) (snd p))) l)).
      { induction l as [|p l IH]; [cbn; lia|]. cbn [map]. rewrite !lsum_cons, IH. lia. }
      rewrite E, (cycle_balance free) by exact HS. lia.
    + intros [a b] Hab. cbn [fst snd]. pose proof (HA _ _ Hab) as Hadj.
      rewrite (zsum_mul (nI s) (weight x * weight a) (fun j => dl (edge_cell (a, b)) (j, n))).
      change (zsum (nI s) (fun j => dl (edge_cell (a, b)) (j, n))) with (col_sum s (dlt (edge_cell (a, b))) n).
      rewrite (col_of_edge free) by (auto; apply HF, adjacent_cell; exact Hadj). ring.
Qed.

Lemma bf_value_in : forall f k v, NoDup (map fst f) -> In (k, v) f -> bf_value f k = v.
Proof.
  induction f as [|[k' v'] f IH]; intros k v HN H; [destruct H|]. inversion HN as [|? ? Hk HN']; subst. cbn [bf_value].
  destruct H as [E|H]; [injection E as -> ->; rewrite cell_eqb_refl; reflexivity|].
  rewrite cell_eqb_neq; [apply IH; assumption|]. intros ->. apply Hk. apply in_map_iff. exists (k', v); auto.
Qed.

(** Building the cycle basis never raises, and each of its moves leaves every
    row and column total unchanged, changes no fixed cell, and changes some cells,
    each by one. *)
Theorem C106_cycle_moves_preserve_constraints : forall iter iterc s truth m axes fixed c maxlen,
  (forall l, Permutation (iter l) l) -> (forall l, Permutation (iterc l) l) ->
  build_ct s truth m axes fixed = Ok c ->
  exists fs, grobner_basis iter iterc c maxlen = Ok fs /\
  forall f, In f fs ->
  (forall i, zsum (nJ s) (fun j => bf_value f (i, j)) = 0) /\
  (forall j, zsum (nI s) (fun i => bf_value f (i, j)) = 0) /\
  NoDup (map fst f) /\
  (forall k v, In (k, v) f ->
     (fst k < nI s)%nat /\ (snd k < nJ s)%nat /\ ~ In k fixed /\ bf_value f k = v /\ (v = 1 \/ v = -1)) /\
  (3 <= List.length f <= maxlen)%nat.
Proof.
  intros iter iterc s truth m axes fixed c maxlen Hi Hc Hok.
  destruct (C105_cycles_exact iter (ct_free c) maxlen Hi) as [HS _].
  assert (HFR : forall k, In k (ct_free c) -> in_shape s k).
  { intros k Hk. apply (free_iff s truth m axes fixed c Hok) in Hk. apply Hk. }
  assert (HC : forall z, In z (iterc (find_all_cycles iter (ct_free c) maxlen)) -> simple_cycle (ct_free c) z /\ (List.length z <= maxlen)%nat).
  { intros z Hz. apply HS. eapply Permutation_in; [apply Hc|exact Hz]. }
  exists (map move_of (iterc (find_all_cycles iter (ct_free c) maxlen))). split.
  { unfold grobner_basis. apply (all_moves_eq (ct_free c)). intros z Hz; apply HC; exact Hz. }
  intros f Hf. apply in_map_iff in Hf as [z [<- Hz]]. destruct (HC z Hz) as [HZ HL].
  destruct (move_of_sums s _ z HFR HZ) as [HR HCo].
  assert (HN : NoDup (map fst (move_of z))) by (rewrite move_of_keys; eapply cycle_keys; exact HZ).
  split; [exact HR|]. split; [exact HCo|]. split; [exact HN|]. split.
  - intros k v Hkv. pose proof (bf_value_in _ _ _ HN Hkv) as EV.
    destruct (move_of_value _ _ _ Hkv) as [[a b] [g [Hp [Ek [Ev [Hg _]]]]]].
    destruct HZ as [_ [_ HA]]. apply HA in Hp. apply adjacent_cell in Hp. rewrite <- Ek in Hp.
    apply (free_iff s truth m axes fixed c Hok) in Hp as [[H1 H2] H3].
    split; [exact H1|]. split; [exact H2|]. split; [exact H3|]. split; [exact EV|].
    cbn [fst] in Ev. destruct a; cbn [weight] in Ev; lia.
  - destruct HZ as [_ [H3 _]].
    assert (E : List.length (move_of z) = List.length z).
    { rewrite <- (map_length fst), move_of_keys, map_length, steps_length. reflexivity. }
    lia.
Qed.
Print Assumptions C106_cycle_moves_preserve_constraints.

Example C106_nonvacuous : exists c fs,
  build_ct (Shape 3 3) (fun _ _ => 5) (axis_margin (Shape 3 3) (fun _ _ => 5)) [A0; A1] [(2, 2)%nat] = Ok c /\
  grobner_basis (fun l => rev l) (fun l => l) c 4 = Ok fs /\ List.length fs = 5%nat /\
  nth_error fs 0 = Some [(((1, 0)%nat, 1)); ((1, 1)%nat, -1); ((2, 1)%nat, 1); ((2, 0)%nat, -1)].
Proof. eexists; eexists. split; [reflexivity|]. split; [vm_compute; reflexivity|]. split; [reflexivity|]. vm_compute. reflexivity. Qed.

(** ---- C107 -------------------------------------------------------------------- *)

(** An arc: a cell to increase (from its origin to its destination) or to
    decrease (the other way) on the way from [t] to [u]. *)
Definition arc (s : shape) (t u : table) (a b : node) : Prop :=
  match a, b with
  | Orig i, Dest j => in_shape s (i, j) /\ t i j < u i j
  | Dest j, Orig i => in_shape s (i, j) /\ u i j < t i j
  | _, _ => False
  end.

Definition node_ok (s : shape) (n : node) : Prop :=
  match n with Orig i => (i < nI s)%nat | Dest j => (j < nJ s)%nat end.

Lemma arc_ok : forall s t u a b, arc s t u a b -> node_ok s a /\ node_ok s b.
Proof. intros s t u [i|i] [j|j] H; cbn in *; try tauto; destruct H as [[H1 H2] _]; cbn in *; auto. Qed.

Lemma arc_next : forall s t u a b, same_margins s [A0; A1] t u -> arc s t u a b -> exists n, arc s t u b n.
Proof.
  intros s t u a b [HR [HC _]] H. destruct a as [i|j], b as [i'|j']; cbn in H; try tauto.
  - destruct H as [[Hi Hj] Hlt]; cbn in Hi, Hj.
    destruct (line_cells (fun k => Nat.eqb (snd k) j') s t u (i, j')) as [[x y] [_ [Hx [_ [Px [_ [L _]]]]]]].
    + split; assumption.
    + apply Nat.eqb_refl.
    + unfold tv; cbn; lia.
    + rewrite <- !col_sum_csum by exact Hj. apply HC; [left; reflexivity|exact Hj].
    + apply Nat.eqb_eq in Px. cbn in Px. subst y. exists (Orig x). cbn. split; [exact Hx|exact L].
  - destruct H as [[Hi Hj] Hlt]; cbn in Hi, Hj.
    destruct (line_cells (fun k => Nat.eqb (fst k) i') s t u (i', j)) as [_ [[x y] [_ [Hy [_ [Py [_ L]]]]]]].
    + split; assumption.
    + apply Nat.eqb_refl.
    + unfold tv; cbn; lia.
    + rewrite <- !row_sum_csum by exact Hi. apply HR; [right; left; reflexivity|exact Hi].
    + apply Nat.eqb_eq in Py. cbn in Py. subst x. exists (Dest y). cbn. split; [exact Hy|exact L].
Qed.

Definition all_nodes (s : shape) : list node := (map Orig (seq 0 (nI s)) ++ map Dest (seq 0 (nJ s)))%list.

Lemma node_ok_in : forall s n, node_ok s n -> In n (all_nodes s).
Proof.
  intros s [i|j] H; cbn in H; apply in_or_app; [left|right]; apply in_map, in_seq; lia.
Qed.

(** Following arcs from a path ends in a cycle of arcs. *)
Lemma arcs_cycle : forall s t u, same_margins s [A0; A1] t u ->
  forall n p x y, (List.length (all_nodes s) + 1 <= List.length (p ++ [x; y]) + n)%nat ->
  NoDup (p ++ [x; y]) -> (forall a b, In (a, b) (pairs (p ++ [x; y])) -> arc s t u a b) ->
  exists c, NoDup c /\ c <> [] /\ forall a b, In (a, b) (steps c) -> arc s t u a b.
Proof.
  intros s t u HM. induction n as [|n IH]; intros p x y HL HN HA.
  - exfalso. assert (HI : incl (p ++ [x; y])%list (all_nodes s)).
    { intros z Hz. apply node_ok_in.
      assert (HE : forall (l : list node), (2 <= List.length l)%nat -> In z l -> exists a b, In (a, b) (pairs l) /\ (z = a \/ z = b)).
      { clear. induction l as [|a l IH]; intros H Hz; [destruct Hz|]. destruct l as [|b r]; [cbn in H; lia|].
        destruct Hz as [<-|Hz]; [exists a, b; split; [left; reflexivity|auto]|].
        destruct r as [|d r]; [destruct Hz as [<-|[]]; exists a, b; split; [left; reflexivity|auto]|].
        destruct IH as [a' [b' [H' E']]]; [cbn; lia|exact Hz|]. exists a', b'. split; [right; exact H'|exact E']. }
      destruct (HE (p ++ [x; y])%list) as [a [b [Hab E]]]; [rewrite app_length; cbn; lia|exact Hz|].
      apply HA, arc_ok in Hab. destruct Hab, E; subst; assumption. }
    pose proof (NoDup_incl_length HN HI). lia.
  - assert (Hxy : arc s t u x y).
    { apply HA. change [x; y] with ([x] ++ [y])%list. rewrite app_assoc, (pairs_snoc _ (p ++ [x])%list x) by (destruct p; discriminate).
      rewrite last_last. apply in_or_app; right; left; reflexivity. }
    destruct (arc_next _ _ _ _ _ HM Hxy) as [z Hz].
    assert (HP : forall a b, In (a, b) (pairs ((p ++ [x; y]) ++ [z])) -> arc s t u a b).
    { intros a b Hab. rewrite (pairs_snoc _ (p ++ [x; y])%list x) in Hab by (destruct p; discriminate).
      apply in_app_or in Hab as [Hab|[E|[]]]; [apply HA; exact Hab|].
      replace (last (p ++ [x; y]) x) with y in E. 2:{ change [x; y] with ([x] ++ [y])%list. rewrite app_assoc, last_last. reflexivity. }
      injection E as <- <-. exact Hz. }
    destruct (in_dec (fun a b : node => ltac:(decide equality; apply Nat.eq_dec) : {a = b} + {a <> b}) z (p ++ [x; y])%list) as [Hin|Hout].
    + apply in_split in Hin as [q [r E]]. exists (z :: r). rewrite E in HN, HP. split; [|split; [discriminate|]].
      * clear -HN. induction q as [|h q IH]; [exact HN|]. inversion HN; subst. apply IH; assumption.
      * intros a b Hab. apply HP. unfold steps in Hab. rewrite <- app_assoc. cbn [app] in *. rewrite pairs_app.
        apply in_or_app; right; exact Hab.
    + replace (p ++ [x; y])%list with ((p ++ [x]) ++ [y])%list in * by (rewrite <- app_assoc; reflexivity).
      apply (IH (p ++ [x])%list y z).
      * rewrite !app_length in *. cbn [List.length] in *. lia.
      * replace ((p ++ [x]) ++ [y; z])%list with (((p ++ [x]) ++ [y]) ++ [z])%list by (rewrite <- !app_assoc; reflexivity).
        eapply Permutation_NoDup; [apply Permutation_cons_append|]. constructor; [exact Hout|exact HN].
      * replace ((p ++ [x]) ++ [y; z])%list with (((p ++ [x]) ++ [y]) ++ [z])%list by (rewrite <- !app_assoc; reflexivity). exact HP.
Qed.

Lemma arc_start : forall s t u x, in_shape s x -> tv t x <> tv u x -> exists a b, arc s t u a b /\ a <> b.
Proof.
  intros s t u [i j] H Hd. unfold tv in Hd; cbn in Hd.
  destruct (Z.lt_total (t i j) (u i j)) as [L|[L|L]]; [|lia|].
  - exists (Orig i), (Dest j). split; [split; assumption|discriminate].
  - exists (Dest j), (Orig i). split; [split; assumption|discriminate].
Qed.

Lemma arcs_long : forall s t u c, NoDup c -> c <> [] -> (forall a b, In (a, b) (steps c) -> arc s t u a b) -> (3 <= List.length c)%nat.
Proof.
  intros s t u c HN Hne HA. destruct c as [|x [|y [|z r]]]; [congruence| | |cbn; lia].
  - pose proof (HA x x (or_introl eq_refl)) as H. destruct x; destruct H.
  - pose proof (HA x y (or_introl eq_refl)) as H1. pose proof (HA y x (or_intror (or_introl eq_refl))) as H2.
    destruct x, y; cbn in *; try tauto; lia.
Qed.

(** A cycle visits as many origins as destinations. *)
Definition is_orig (n : node) : bool := match n with Orig _ => true | _ => false end.

Lemma cycle_length : forall s t u c, NoDup c -> (forall a b, In (a, b) (steps c) -> arc s t u a b) ->
  (List.length c <= 2 * Nat.min (nI s) (nJ s))%nat.
Proof.
  intros s t u c HN HA.
  assert (E : forall l, (forall a b, In (a, b) l -> arc s t u a b) ->
    List.length (filter is_orig (map fst l)) = List.length (filter (fun n => negb (is_orig n)) (map snd l))).
  { induction l as [|[a b] l IH]; intros H; [reflexivity|]. cbn [map fst snd filter].
    pose proof (H a b (or_introl eq_refl)) as H0.
    rewrite <- IH || (destruct a, b; cbn in H0; try tauto; cbn [is_orig negb List.length]; rewrite IH; auto; intros; apply H; right; assumption). }
  specialize (E (steps c) HA). rewrite steps_fst in E.
  assert (E2 : List.length (filter (fun n => negb (is_orig n)) (map snd (steps c))) = List.length (filter (fun n => negb (is_orig n)) c)).
  { assert (G : forall (l l' : list node) f, Permutation l l' -> List.length (filter f l) = List.length (filter f l')).
    { clear. intros l l' f P. induction P; cbn; repeat match goal with |- context [if ?b then _ else _] => destruct b end; cbn; lia. }
    apply G, steps_snd. }
  rewrite E2 in E.
  assert (E3 : List.length c = (List.length (filter is_orig c) + List.length (filter (fun n => negb (is_orig n)) c))%nat).
  { clear. induction c as [|x c IH]; [reflexivity|]. cbn [filter]. destruct (is_orig x); cbn [negb List.length]; lia. }
  assert (OK : forall n, In n c -> node_ok s n).
  { intros n Hn. rewrite <- (steps_fst _ c) in Hn. apply in_map_iff in Hn as [[a b] [<- Hab]]. apply HA, arc_ok in Hab. tauto. }
  assert (B1 : (List.length (filter is_orig c) <= nI s)%nat).
  { rewrite <- (seq_length (nI s) 0), <- (map_length Orig). apply NoDup_incl_length; [apply NoDup_filter; exact HN|].
    intros n Hn. apply filter_In in Hn as [Hn Ho]. apply OK in Hn. destruct n as [i|j]; [|discriminate]. apply in_map, in_seq. cbn in Hn; lia. }
  assert (B2 : (List.length (filter (fun n => negb (is_orig n)) c) <= nJ s)%nat).
  { rewrite <- (seq_length (nJ s) 0), <- (map_length Dest). apply NoDup_incl_length; [apply NoDup_filter; exact HN|].
    intros n Hn. apply filter_In in Hn as [Hn Ho]. apply OK in Hn. destruct n as [i|j]; [discriminate|]. apply in_map, in_seq. cbn in Hn; lia. }
  lia.
Qed.

(** A move that goes from [t] towards [u] in each cell it changes. *)
Lemma towards_dist : forall s t u f eps, f <> [] -> NoDup (map fst f) ->
  (forall k v, In (k, v) f -> in_shape s k /\ (eps * v = 1 /\ tv t k < tv u k \/ eps * v = -1 /\ tv u k < tv t k)) ->
  dist s (moved t f eps) u < dist s t u.
Proof.
  intros s t u f eps Hne HN HK. destruct f as [|[k0 v0] f0] eqn:Ef; [congruence|]. rewrite <- Ef in *.
  assert (H0 : In (k0, v0) f) by (rewrite Ef; left; reflexivity).
  assert (HV : forall x, bf_value f x = 0 /\ (forall v, ~ In (x, v) f) \/ In (x, bf_value f x) f).
  { clear. induction f as [|[k v] f IH]; intros x; [left; split; [reflexivity|intros v []]|]. cbn [bf_value].
    destruct (cell_eqb x k) eqn:E.
    - apply cell_eqb_spec in E. subst. right; left; reflexivity.
    - destruct (IH x) as [[H1 H2]|H]; [left; split; [exact H1|]|right; right; exact H].
      intros v' [E'|H']; [injection E' as -> ->; rewrite cell_eqb_refl in E; discriminate|eapply H2; exact H']. }
  assert (HL : dist s (moved t f eps) u <= csum (fun x => Z.abs (tv t x - tv u x) + -1 * dl k0 x) (all_cells s)).
  { apply csum_le. intros x Hx. unfold moved. change (tv (fun i j => t i j + eps * bf_value f (i, j)) x) with (t (fst x) (snd x) + eps * bf_value f (fst x, snd x)).
    rewrite <- surjective_pairing. fold (tv t x).
    destruct (HV x) as [[E N]|Hin].
    - rewrite E. rewrite (dl_neq k0 x) by (intros ->; eapply N; exact H0). lia.
    - destruct (HK _ _ Hin) as [_ D]. destruct (dl_01 k0 x); lia. }
  rewrite csum_add in HL.
  assert (E1 : csum (fun x => -1 * dl k0 x) (all_cells s) = - csum (dl k0) (all_cells s)).
  { generalize (all_cells s) as l; induction l as [|y l IH]; [reflexivity|]. rewrite !csum_cons, IH; lia. }
  rewrite E1, csum_dl in HL by apply all_cells_NoDup.
  assert (cell_in k0 (all_cells s) = true) as Hk by (apply cell_in_spec, all_cells_in; apply (HK _ _ H0)).
  rewrite Hk in HL. unfold dist in *. lia.
Qed.

(** When no cycle can be longer than [maxlen] (at most five rows or five columns
    for the code's ten), the cycle moves join any two non-negative tables with
    the same margins and the same fixed cells, through such tables only,
    whichever cells are fixed. *)
Theorem C107_cycle_basis_connects_partial : forall iter iterc s truth m axes fixed c maxlen fs t u,
  (forall l, Permutation (iter l) l) -> (forall l, Permutation (iterc l) l) ->
  build_ct s truth m axes fixed = Ok c ->
  (2 * Nat.min (nI s) (nJ s) <= maxlen)%nat ->
  grobner_basis iter iterc c maxlen = Ok fs ->
  nonneg_on s t -> nonneg_on s u -> same_margins s [A0; A1] t u ->
  (forall i j, In (i, j) fixed -> t i j = u i j) ->
  walk s (fun v => nonneg_on s v /\ same_margins s [A0; A1] v u /\
                   forall i j, In (i, j) fixed -> v i j = u i j) fs t u.
Proof.
  intros iter iterc s truth m axes fixed c maxlen fs t u Hi Hc Hok HL Hfs Ht Hu HM HX.
  destruct (C105_cycles_exact iter (ct_free c) maxlen Hi) as [HS [HCo _]].
  assert (HFR : forall k, In k (ct_free c) -> in_shape s k).
  { intros k Hk. apply (free_iff s truth m axes fixed c Hok) in Hk. apply Hk. }
  assert (HC : forall z, In z (iterc (find_all_cycles iter (ct_free c) maxlen)) -> simple_cycle (ct_free c) z).
  { intros z Hz. apply HS. eapply Permutation_in; [apply Hc|exact Hz]. }
  unfold grobner_basis in Hfs. rewrite (all_moves_eq (ct_free c) _ HC) in Hfs. injection Hfs as <-.
  apply walk_by_distance; [|tauto].
  clear t Ht HM HX. intros t [Ht [HM HX]] Hns.
  destruct (same_or_differ s t u) as [Hs|[x [Hx Hd]]]; [contradiction|].
  destruct (arc_start s t u x Hx Hd) as [a [b [Hab Hne]]].
  destruct (arcs_cycle s t u HM (List.length (all_nodes s)) [] a b) as [cyc [CN [Cne CA]]].
  { cbn. lia. }
  { repeat constructor; cbn; intuition. }
  { intros a' b' [E|[]]. injection E as <- <-. exact Hab. }
  assert (CS : simple_cycle (ct_free c) cyc).
  { split; [exact CN|]. split; [eapply arcs_long; eassumption|]. intros p q Hpq. apply CA in Hpq.
    destruct p as [i|j], q as [i'|j']; cbn in Hpq; try tauto; destruct Hpq as [Hin Hlt]; cbn;
      apply (free_iff s truth m axes fixed c Hok); (split; [exact Hin|]); intros Hf; apply HX in Hf; lia. }
  destruct (HCo cyc CS) as [z [Hz Hsame]]; [etransitivity; [eapply cycle_length; eassumption|exact HL]|].
  assert (ZS : simple_cycle (ct_free c) z) by (eapply same_cycle_simple; eassumption).
  assert (HN : NoDup (map fst (move_of z))) by (rewrite move_of_keys; eapply cycle_keys; exact ZS).
  assert (Zne : move_of z <> []).
  { intros E. assert (E' : List.length (move_of z) = List.length z) by (rewrite <- (map_length fst), move_of_keys, map_length, steps_length; reflexivity).
    rewrite E in E'. destruct ZS as [_ [Z3 _]]. cbn in E'. lia. }
  assert (HE : exists eps, (eps = 1 \/ eps = -1) /\ forall k v, In (k, v) (move_of z) ->
     in_shape s k /\ (eps * v = 1 /\ tv t k < tv u k \/ eps * v = -1 /\ tv u k < tv t k)).
  { destruct z as [|z0 zr]; [destruct ZS as [_ [Z3 _]]; cbn in Z3; lia|].
    assert (W : weight z0 = 1 \/ weight z0 = -1) by (destruct z0; cbn; auto).
    destruct (same_cycle_steps _ _ Hsame) as [SS|SS].
    - exists (weight z0). split; [exact W|]. intros k v Hkv. unfold move_of in Hkv.
      apply in_map_iff in Hkv as [[p q] [E Hpq]]. injection E as <- <-. apply SS, CA in Hpq.
      destruct p as [i|j], q as [i'|j']; cbn in Hpq; try tauto; destruct Hpq as [Hin Hlt];
        (split; [exact Hin|]); unfold tv; cbn [edge_cell fst snd weight]; destruct W as [-> | ->]; lia.
    - exists (- weight z0). split; [destruct W; lia|]. intros k v Hkv. unfold move_of in Hkv.
      apply in_map_iff in Hkv as [[p q] [E Hpq]]. injection E as <- <-. apply SS, CA in Hpq.
      destruct p as [i|j], q as [i'|j']; cbn in Hpq; try tauto; destruct Hpq as [Hin Hlt];
        (split; [exact Hin|]); unfold tv; cbn [edge_cell fst snd weight]; destruct W as [-> | ->]; lia. }
  destruct HE as [eps [Heps HE]]. exists (move_of z), eps. split.
  { apply in_map. eapply Permutation_in; [symmetry; apply Hc|exact Hz]. }
  split; [exact Heps|].
  assert (HV : forall y, bf_value (move_of z) y = 0 \/ In (y, bf_value (move_of z) y) (move_of z)).
  { clear. generalize (move_of z) as f. induction f as [|[k v] f IH]; intros y; [left; reflexivity|]. cbn [bf_value].
    destruct (cell_eqb y k) eqn:E; [apply cell_eqb_spec in E; subst; right; left; reflexivity|].
    destruct (IH y); [left; assumption|right; right; assumption]. }
  split; [|apply towards_dist; auto].
  destruct (move_of_sums s _ z HFR ZS) as [HR HCol].
  split; [|split].
  - intros i j Hi' Hj'. unfold moved. destruct (HV (i, j)) as [E|Hin]; [rewrite E; specialize (Ht i j Hi' Hj'); lia|].
    destruct (HE _ _ Hin) as [_ D]. unfold tv in D; cbn [fst snd] in D. specialize (Ht i j Hi' Hj'). specialize (Hu i j Hi' Hj'). lia.
  - apply moved_same_margins; assumption.
  - intros i j Hf. unfold moved. destruct (HV (i, j)) as [E|Hin]; [rewrite E, (HX i j Hf); lia|].
    destruct (HE _ _ Hin) as [_ D]. unfold tv in D; cbn [fst snd] in D. specialize (HX i j Hf). lia.
Qed.
Print Assumptions C107_cycle_basis_connects_partial.

Definition six_fixed : list cell :=
  filter (fun k => negb (Nat.eqb (fst k) (snd k) || Nat.eqb (Nat.modulo (S (fst k)) 6) (snd k))) (all_cells (Shape 6 6)).
Definition six_a : table := fun i j => if Nat.eqb i j then 1 else 0.
Definition six_b : table := fun i j => if Nat.eqb (Nat.modulo (S i) 6) j then 1 else 0.

(** With the limit of ten nodes in the code, six rows and columns whose free cells
    form a single cycle of twelve: two tables with the same margins and fixed
    cells are not connected; the basis is empty, for every order of the sets. *)
Theorem C107_cycle_basis_connects_refuted : exists c,
  build_ct (Shape 6 6) six_a (axis_margin (Shape 6 6) six_a) [A0; A1] six_fixed = Ok c /\
  nonneg_on (Shape 6 6) six_a /\ nonneg_on (Shape 6 6) six_b /\ same_margins (Shape 6 6) [A0; A1] six_a six_b /\
  (forall i j, In (i, j) six_fixed -> six_a i j = six_b i j) /\
  forall iter iterc, (forall l, Permutation (iter l) l) -> (forall l, Permutation (iterc l) l) ->
    grobner_basis iter iterc c 10 = Ok [] /\
    ~ walk (Shape 6 6) (fun _ => True) [] six_a six_b.
Proof.
  eexists. split; [reflexivity|].
  split; [intros i j _ _; unfold six_a; destruct (Nat.eqb i j); lia|].
  split; [intros i j _ _; unfold six_b; destruct (Nat.eqb _ j); lia|].
  split.
  { split; [|split].
    - intros _ i Hi. cbn in Hi. do 6 (destruct i as [|i]; [vm_compute; reflexivity|]). lia.
    - intros _ j Hj. cbn in Hj. do 6 (destruct j as [|j]; [vm_compute; reflexivity|]). lia.
    - vm_compute; reflexivity. }
  split.
  { intros i j H. unfold six_fixed in H. apply filter_In in H as [_ H]. cbn [fst snd] in H. unfold six_a, six_b.
    apply negb_true_iff, orb_false_iff in H as [-> ->]. reflexivity. }
  intros iter iterc Hi Hc. split.
  - unfold grobner_basis.
    match goal with |- context [find_all_cycles iter ?c 10] => set (free := c) end.
    assert (E : find_all_cycles iter free 10 = []).
    { destruct (find_all_cycles iter free 10) as [|z zs] eqn:EZ; [reflexivity|]. exfalso.
      destruct (C105_cycles_exact iter free 10 Hi) as [HS _]. rewrite EZ in HS. destruct (HS z (or_introl eq_refl)) as [ZS ZL].
      destruct (C105_cycles_exact (fun l => l) free 10 (fun l => Permutation_refl l)) as [_ [HCo _]].
      destruct (HCo z ZS ZL) as [z' [Hz' _]].
      assert (E0 : find_all_cycles (fun l => l) free 10 = []) by (vm_compute; reflexivity).
      rewrite E0 in Hz'. exact Hz'. }
    rewrite E. assert (E' : iterc [] = []) by (apply Permutation_nil; symmetry; apply Hc). rewrite E'. reflexivity.
  - intros W. inversion W as [t0 u0 _ HS|? ? f ? ? Hf]; subst; [|destruct Hf].
    specialize (HS 0%nat 0%nat ltac:(cbn; lia) ltac:(cbn; lia)). vm_compute in HS. discriminate.
Qed.
Print Assumptions C107_cycle_basis_connects_refuted.

(** Three by three with a fixed diagonal: only a cycle of six nodes joins two such tables. *)
Example C107_nonvacuous : exists c fs,
  let d := [(0, 0); (1, 1); (2, 2)]%nat in
  let t := fun i j => if Nat.eqb j (Nat.modulo (S i) 3) then 2 else 1 in
  let u := fun i j => if Nat.eqb i (Nat.modulo (S j) 3) then 2 else 1 in
  build_ct (Shape 3 3) t (axis_margin (Shape 3 3) t) [A0; A1] d = Ok c /\
  grobner_basis (fun l => l) (fun l => l) c 10 = Ok fs /\ List.length fs = 1%nat /\
  (2 * Nat.min 3 3 <= 10)%nat /\ same_margins (Shape 3 3) [A0; A1] t u /\ t 0%nat 1%nat <> u 0%nat 1%nat /\
  (forall i j, In (i, j) d -> t i j = u i j).
Proof.
  eexists; eexists. cbn zeta. split; [reflexivity|]. split; [reflexivity|]. split; [reflexivity|].
  split; [cbn; lia|]. split; [|split; [vm_compute; discriminate|]].
  - split; [|split].
    + intros _ i Hi. cbn in Hi. do 3 (destruct i as [|i]; [vm_compute; reflexivity|]). lia.
    + intros _ j Hj. cbn in Hj. do 3 (destruct j as [|j]; [vm_compute; reflexivity|]). lia.
    + vm_compute; reflexivity.
  - intros i j [E|[E|[E|[]]]]; injection E as <- <-; reflexivity.
Qed.
