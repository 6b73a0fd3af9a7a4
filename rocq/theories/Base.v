(** Base: generic finite sums, list helpers and Python-exception results
    shared by every model file.  Nothing in here models code of /repo. *)
From Coq Require Import List ZArith Lia Bool Arith Permutation.
From Coq Require Import ZifyBool.
Import ListNotations.
Open Scope Z_scope.

(** Python exceptions as values. *)
Inductive err :=
| EKey | EIndex | EType | EValue | EAssert | EAttr | EExn | EUnbound | EZeroDiv.

Inductive res (A : Type) :=
| Ok (a : A)
| Raise (e : err).
Arguments Ok {A} a.
Arguments Raise {A} e.

Definition rbind {A B} (r : res A) (f : A -> res B) : res B :=
  match r with Ok a => f a | Raise e => Raise e end.

Definition is_ok {A} (r : res A) : bool :=
  match r with Ok _ => true | Raise _ => false end.

(** Sum of [f 0 .. f (n-1)]. *)
Definition zsum (n : nat) (f : nat -> Z) : Z :=
  fold_right Z.add 0 (map f (seq 0 n)).

(** Sum of a list of integers. *)
Definition lsum (l : list Z) : Z := fold_right Z.add 0 l.

Lemma lsum_app : forall a b, lsum (a ++ b) = lsum a + lsum b.
Proof.
  intros a b; induction a as [|x a IH]; cbn; [reflexivity|].
  unfold lsum in *; rewrite IH; ring.
Qed.

Lemma lsum_cons : forall x l, lsum (x :: l) = x + lsum l.
Proof. reflexivity. Qed.

Lemma lsum_nil : lsum [] = 0.
Proof. reflexivity. Qed.

Lemma lsum_perm : forall a b, Permutation a b -> lsum a = lsum b.
Proof.
  intros a b H; induction H; cbn; unfold lsum in *; cbn in *; lia.
Qed.

Lemma zsum_0 : forall f, zsum 0 f = 0.
Proof. reflexivity. Qed.

Lemma zsum_S : forall n f, zsum (S n) f = zsum n f + f n.
Proof.
  intros n f; unfold zsum.
  rewrite seq_S, map_app; fold (lsum (map f (seq 0 n) ++ map f [(0 + n)%nat])).
  rewrite lsum_app; cbn; unfold lsum; lia.
Qed.

Lemma zsum_ext : forall n f g, (forall k, (k < n)%nat -> f k = g k) -> zsum n f = zsum n g.
Proof.
  induction n as [|n IH]; intros f g H; [reflexivity|].
  rewrite !zsum_S, (IH f g), (H n); auto.
Qed.

Lemma zsum_add : forall n f g, zsum n (fun k => f k + g k) = zsum n f + zsum n g.
Proof.
  induction n as [|n IH]; intros f g; [reflexivity|].
  rewrite !zsum_S, IH; ring.
Qed.

Lemma zsum_sub : forall n f g, zsum n (fun k => f k - g k) = zsum n f - zsum n g.
Proof.
  induction n as [|n IH]; intros f g; [reflexivity|].
  rewrite !zsum_S, IH; ring.
Qed.

Lemma zsum_mul : forall n c f, zsum n (fun k => c * f k) = c * zsum n f.
Proof.
  induction n as [|n IH]; intros c f; [cbn; ring|].
  rewrite !zsum_S, IH; ring.
Qed.

Lemma zsum_const0 : forall n, zsum n (fun _ => 0) = 0.
Proof. induction n as [|n IH]; [reflexivity|]. rewrite zsum_S, IH; ring. Qed.

Lemma zsum_const : forall n c, zsum n (fun _ => c) = Z.of_nat n * c.
Proof. induction n as [|n IH]; intros c; [cbn; ring|]. rewrite zsum_S, IH; lia. Qed.

Lemma zsum_zero : forall n f, (forall k, (k < n)%nat -> f k = 0) -> zsum n f = 0.
Proof.
  intros n f H; rewrite (zsum_ext n f (fun _ => 0)) by exact H; apply zsum_const0.
Qed.

Lemma zsum_nonneg : forall n f, (forall k, (k < n)%nat -> 0 <= f k) -> 0 <= zsum n f.
Proof.
  induction n as [|n IH]; intros f H; [cbn; lia|].
  rewrite zsum_S. assert (0 <= f n) by (apply H; lia).
  assert (0 <= zsum n f) by (apply IH; intros; apply H; lia). lia.
Qed.

Lemma zsum_le : forall n f g, (forall k, (k < n)%nat -> f k <= g k) -> zsum n f <= zsum n g.
Proof.
  induction n as [|n IH]; intros f g H; [cbn; lia|].
  rewrite !zsum_S. assert (f n <= g n) by (apply H; lia).
  assert (zsum n f <= zsum n g) by (apply IH; intros; apply H; lia). lia.
Qed.

(** A summand is bounded by a sum of non-negative terms. *)
Lemma zsum_term_le : forall n f k,
  (forall i, (i < n)%nat -> 0 <= f i) -> (k < n)%nat -> f k <= zsum n f.
Proof.
  induction n as [|n IH]; intros f k H Hk; [lia|].
  rewrite zsum_S.
  assert (0 <= zsum n f) by (apply zsum_nonneg; intros; apply H; lia).
  assert (0 <= f n) by (apply H; lia).
  destruct (Nat.eq_dec k n) as [->|Hne]; [lia|].
  assert (f k <= zsum n f) by (apply IH; [intros; apply H; lia | lia]). lia.
Qed.

(** Kronecker delta sums. *)
Lemma zsum_delta : forall n k v,
  zsum n (fun i => if Nat.eqb i k then v else 0) = if (k <? n)%nat then v else 0.
Proof.
  induction n as [|n IH]; intros k v.
  - cbn. destruct (k <? 0)%nat eqn:E; [apply Nat.ltb_lt in E; lia|reflexivity].
  - rewrite zsum_S, IH.
    destruct (Nat.eqb_spec n k) as [->|Hne].
    + assert ((k <? k)%nat = false) as -> by (apply Nat.ltb_ge; lia).
      assert ((k <? S k)%nat = true) as -> by (apply Nat.ltb_lt; lia). lia.
    + destruct (k <? n)%nat eqn:E.
      * apply Nat.ltb_lt in E. assert ((k <? S n)%nat = true) as -> by (apply Nat.ltb_lt; lia). lia.
      * apply Nat.ltb_ge in E. assert ((k <? S n)%nat = false) as -> by (apply Nat.ltb_ge; lia). lia.
Qed.

Lemma zsum_swap : forall n m f,
  zsum n (fun i => zsum m (fun j => f i j)) = zsum m (fun j => zsum n (fun i => f i j)).
Proof.
  induction n as [|n IH]; intros m f.
  - cbn. symmetry. apply zsum_zero; intros; reflexivity.
  - rewrite zsum_S, IH.
    rewrite (zsum_ext m (fun j => zsum (S n) (fun i => f i j))
               (fun j => zsum n (fun i => f i j) + f n j)).
    + rewrite zsum_add; reflexivity.
    + intros k _; rewrite zsum_S; reflexivity.
Qed.

(** Point update of a summand. *)
Lemma zsum_upd : forall n f k v, (k < n)%nat ->
  zsum n (fun i => if Nat.eqb i k then v else f i) = zsum n f - f k + v.
Proof.
  intros n f k v Hk.
  rewrite (zsum_ext n _ (fun i => f i + (if Nat.eqb i k then v - f k else 0))).
  - rewrite zsum_add, zsum_delta.
    assert ((k <? n)%nat = true) as -> by (apply Nat.ltb_lt; lia). lia.
  - intros i _; destruct (Nat.eqb_spec i k) as [->|]; lia.
Qed.

Lemma lsum_map_seq : forall n f, lsum (map f (seq 0 n)) = zsum n f.
Proof. reflexivity. Qed.

Lemma zsum_nth : forall l, zsum (length l) (fun k => nth k l 0) = lsum l.
Proof.
  intros l; induction l as [|x l IH] using rev_ind; [reflexivity|].
  rewrite app_length; cbn [length]. rewrite Nat.add_1_r, zsum_S, lsum_app.
  rewrite app_nth2, Nat.sub_diag by lia. cbn [nth].
  rewrite (zsum_ext (length l) _ (fun k => nth k l 0)).
  - rewrite IH; cbn; lia.
  - intros k Hk; rewrite app_nth1; auto.
Qed.

Lemma lsum_flat_map : forall (A : Type) (f : A -> list Z) l,
  lsum (flat_map f l) = lsum (map (fun x => lsum (f x)) l).
Proof.
  intros A f l; induction l as [|x l IH]; [reflexivity|].
  cbn [flat_map map]; rewrite lsum_app, lsum_cons, IH; reflexivity.
Qed.

(** Split a sum at one index. *)
Lemma zsum_split : forall n m f, (m <= n)%nat ->
  zsum n f = zsum m f + zsum (n - m) (fun k => f (m + k)%nat).
Proof.
  intros n m f H. replace n with (m + (n - m))%nat at 1 by lia.
  generalize (n - m)%nat as d; clear H.
  induction d as [|d IH].
  - rewrite Nat.add_0_r, zsum_0; ring.
  - rewrite Nat.add_succ_r, !zsum_S, IH; ring.
Qed.

(** List helpers. *)
Fixpoint list_eqb {A} (eqb : A -> A -> bool) (a b : list A) : bool :=
  match a, b with
  | [], [] => true
  | x :: a', y :: b' => eqb x y && list_eqb eqb a' b'
  | _, _ => false
  end.

Lemma list_eqb_spec : forall A (eqb : A -> A -> bool),
  (forall x y, eqb x y = true <-> x = y) ->
  forall a b, list_eqb eqb a b = true <-> a = b.
Proof.
  intros A eqb H a; induction a as [|x a IH]; intros [|y b]; cbn; split; intro E;
    try reflexivity; try discriminate.
  - apply andb_true_iff in E as [E1 E2]. apply H in E1; apply IH in E2; congruence.
  - inversion E; subst. apply andb_true_iff; split; [apply H|apply IH]; reflexivity.
Qed.

Definition zlist_eqb := list_eqb Z.eqb.

Lemma zlist_eqb_spec : forall a b, zlist_eqb a b = true <-> a = b.
Proof. apply list_eqb_spec; intros; apply Z.eqb_eq. Qed.

Fixpoint upd_nth {A} (k : nat) (f : A -> A) (l : list A) : list A :=
  match l with
  | [] => []
  | x :: l' => match k with O => f x :: l' | S k' => x :: upd_nth k' f l' end
  end.

Lemma upd_nth_length : forall A k (f : A -> A) l, length (upd_nth k f l) = length l.
Proof. intros A k f l; revert k; induction l as [|x l IH]; intros [|k]; cbn; auto. Qed.

Lemma upd_nth_nth : forall A k (f : A -> A) l i d, (k < length l)%nat ->
  nth i (upd_nth k f l) d = if Nat.eqb i k then f (nth k l d) else nth i l d.
Proof.
  intros A k f l; revert k; induction l as [|x l IH]; intros k i d H; cbn in H; [lia|].
  destruct k as [|k]; destruct i as [|i]; cbn; try reflexivity.
  rewrite IH by lia. reflexivity.
Qed.

Lemma app_inj_length : forall A (a b c d : list A),
  length a = length c -> a ++ b = c ++ d -> a = c /\ b = d.
Proof.
  intros A a; induction a as [|x a IH]; intros b [|y c] d L E; cbn in *; try lia.
  - auto.
  - inversion E; subst. destruct (IH b c d) as [-> ->]; auto.
Qed.

Lemma existsb_false_iff : forall A (f : A -> bool) l,
  existsb f l = false <-> forall x, In x l -> f x = false.
Proof.
  intros A f l; induction l as [|y l IH]; cbn; split; intro H.
  - intros x [].
  - reflexivity.
  - apply orb_false_iff in H as [H1 H2]; intros x [->|Hx]; [exact H1|apply IH; assumption].
  - apply orb_false_iff; split; [apply H; auto|apply IH; intros; apply H; auto].
Qed.

Lemma nth_ext_Z : forall (l l' : list Z), length l = length l' ->
  (forall n, (n < length l)%nat -> nth n l 0 = nth n l' 0) -> l = l'.
Proof. intros l l' H H'; apply (nth_ext l l' 0 0); auto. Qed.

Lemma nth_map_seq : forall A (f : nat -> A) n k d, (k < n)%nat ->
  nth k (map f (seq 0 n)) d = f k.
Proof.
  intros A f n k d H.
  rewrite (nth_indep _ d (f 0%nat)) by (rewrite map_length, seq_length; lia).
  rewrite map_nth, seq_nth by lia. reflexivity.
Qed.
