(** Theorems about the text codecs: C52, C84. *)
From Coq Require Import List ZArith Lia Bool Arith String Ascii Decimal DecimalString.
From Verif Require Import Base PyMonad Schema SchemaProps TextCodec.
Import ListNotations.
Local Open Scope string_scope.
Local Open Scope Z_scope.

(** An m by n table. *)
Definition rectangle (m n : nat) (t : list (list Z)) : Prop :=
  List.length t = m /\ forall r, In r t -> List.length r = n.

Lemma to_int_nonnil : forall z, Z.to_int z <> Pos Nil /\ Z.to_int z <> Neg Nil.
Proof.
  intro z; split; intro H; destruct z; cbn in H; try discriminate; injection H as H;
    exact (DecimalPos.Unsigned.to_uint_nonnil p H).
Qed.

Lemma py_int_text : forall z, py_int (decimal_text z) = Ok z.
Proof.
  intro z. unfold py_int, decimal_text. destruct (to_int_nonnil z).
  rewrite NilZero.isi by auto. rewrite DecimalZ.of_to. reflexivity.
Qed.

Lemma text_char : forall z c, number_char c = false -> count_char c (decimal_text z) = 0%nat.
Proof. intros z c H. eapply read_decimal_chars; [apply decimal_text_read|auto]. Qed.

(** C52, cells: for every pair of integers, reading back the text of the pair
    gives the pair. *)
Theorem C52_cell_roundtrip : forall i j, str_to_tuple (tuple_to_str [i; j]) = Ok (i, j).
Proof.
  intros i j. unfold str_to_tuple, tuple_to_str. cbn [map join].
  assert (E : "(" ++ (decimal_text i ++ "," ++ decimal_text j) ++ ")"
            = String "(" (decimal_text i ++ String "," (decimal_text j ++ ")"))).
  { cbn [append]. f_equal. induction (decimal_text i) as [|c s IH]; cbn [append]; [reflexivity|]. congruence. }
  rewrite E. clear E.
  assert (P : forall c, Ascii.eqb "(" c = false -> number_char c = false -> count_char c (String "(" (decimal_text i)) = 0%nat).
  { intros c H1 H2. cbn [count_char]. rewrite H1, text_char by auto. reflexivity. }
  assert (C0 : count_char "(" (decimal_text i ++ String "," (decimal_text j ++ ")")) = 0%nat).
  { rewrite count_char_app. cbn [count_char]. rewrite count_char_app. rewrite !text_char by reflexivity. reflexivity. }
  assert (S1 : split_on "(" (String "(" (decimal_text i ++ String "," (decimal_text j ++ ")")))
     = [""; decimal_text i ++ String "," (decimal_text j ++ ")")]).
  { change (String "(" (decimal_text i ++ String "," (decimal_text j ++ ")"))) with
      ("" ++ String "(" (decimal_text i ++ String "," (decimal_text j ++ ")"))).
    rewrite split_on_app by reflexivity. rewrite (split_on_none "(") by auto. reflexivity. }
  rewrite S1. unfold piece. cbn [nth_error rbind].
  rewrite split_on_app by (apply text_char; reflexivity). cbn [nth_error rbind].
  rewrite py_int_text. cbn [rbind].
  change (String "(" (decimal_text i ++ String "," (decimal_text j ++ ")"))) with
    (String "(" (decimal_text i) ++ String "," (decimal_text j ++ ")")).
  rewrite split_on_app by (apply P; reflexivity).
  assert (C1 : count_char "," (decimal_text j ++ ")") = 0%nat)
    by (rewrite count_char_app, text_char by reflexivity; reflexivity).
  rewrite (split_on_none ",") by exact C1. cbn [nth_error rbind].
  change (decimal_text j ++ ")") with (decimal_text j ++ String ")" "").
  rewrite split_on_app by (apply text_char; reflexivity). cbn [nth_error rbind].
  rewrite py_int_text. reflexivity.
Qed.
Print Assumptions C52_cell_roundtrip.

Lemma split_join : forall l, l <> [] -> (forall s, In s l -> count_char "," s = 0%nat) ->
  split_on "," (join "," l) = l.
Proof.
  induction l as [|x l IH]; intros Hne Hc; [congruence|].
  destruct l as [|y l].
  - cbn [join]. apply split_on_none, Hc. cbn; auto.
  - change (join "," (x :: y :: l)) with (x ++ String "," (join "," (y :: l))).
    rewrite split_on_app by (apply Hc; cbn; auto). f_equal. apply IH; [congruence|].
    intros s Hs. apply Hc. cbn; auto.
Qed.

Lemma all_ints_texts : forall l, all_ints (map decimal_text l) = Ok l.
Proof. induction l as [|z l IH]; cbn [map all_ints]; auto. rewrite py_int_text. cbn [rbind]. rewrite IH. reflexivity. Qed.

Lemma chunks_concat : forall n t fuel, (0 < n)%nat -> (forall r, In r t -> List.length r = n) ->
  (List.length t <= fuel)%nat -> chunks fuel n (List.concat t) = t.
Proof.
  intros n t. induction t as [|r t IH]; intros fuel Hn Hr Hf; cbn [List.concat].
  - destruct fuel; reflexivity.
  - cbn in Hf. destruct fuel as [|fuel]; [lia|]. cbn [chunks].
    assert (Hl : List.length r = n) by (apply Hr; cbn; auto).
    destruct (r ++ List.concat t)%list as [|z q] eqn:E.
    { destruct r; cbn in *; [lia|discriminate]. }
    rewrite <- E. rewrite firstn_app, skipn_app, Hl, Nat.sub_diag. cbn [firstn skipn].
    rewrite firstn_all2, skipn_all2, app_nil_r by lia. cbn [app]. f_equal. apply IH; auto; [|lia].
    intros; apply Hr; cbn; auto.
Qed.

Lemma concat_length : forall n (t : list (list Z)), (forall r, In r t -> List.length r = n) ->
  List.length (List.concat t) = (List.length t * n)%nat.
Proof.
  intros n t. induction t as [|r t IH]; intro H; cbn; auto. rewrite app_length, IH, H; cbn; auto.
  intros; apply H; cbn; auto.
Qed.

(** C52, tables: for every table with at least one row and one column, of any
    size and with any integers, reading back its text gives the table. *)
Theorem C52_table_roundtrip : forall m n t, (0 < m)%nat -> (0 < n)%nat -> rectangle m n t ->
  str_to_table (table_to_str t) m n = Ok t.
Proof.
  intros m n t Hm Hn [Hl Hr]. unfold str_to_table, table_to_str.
  pose proof (concat_length n t Hr) as Hlen. rewrite Hl in Hlen.
  rewrite split_join.
  - rewrite all_ints_texts. cbn [rbind]. rewrite Hlen, Nat.eqb_refl.
    destruct (n =? 0)%nat eqn:E; [apply Nat.eqb_eq in E; lia|].
    rewrite chunks_concat; auto. nia.
  - intro H. apply map_eq_nil in H. rewrite H in Hlen. cbn in Hlen. nia.
  - intros s Hs. apply in_map_iff in Hs as (z & <- & _). apply text_char. reflexivity.
Qed.
Print Assumptions C52_table_roundtrip.

(** Hence two different tables of one shape never share a text. *)
Theorem C52_table_text_injective : forall m n t1 t2, (0 < m)%nat -> (0 < n)%nat ->
  rectangle m n t1 -> rectangle m n t2 -> table_to_str t1 = table_to_str t2 -> t1 = t2.
Proof.
  intros m n t1 t2 Hm Hn H1 H2 E.
  pose proof (C52_table_roundtrip m n t1 Hm Hn H1) as E1.
  pose proof (C52_table_roundtrip m n t2 Hm Hn H2) as E2. rewrite E in E1. congruence.
Qed.
Print Assumptions C52_table_text_injective.

(** A text with the wrong number of entries is refused, never reshaped. *)
Theorem C52_wrong_shape_refused : forall m n m' n' t, (0 < m')%nat -> (0 < n')%nat ->
  rectangle m' n' t -> (m * n <> m' * n')%nat -> str_to_table (table_to_str t) m n = Raise EAssert.
Proof.
  intros m n m' n' t Hm Hn [Hl Hr] Hne. unfold str_to_table, table_to_str.
  pose proof (concat_length n' t Hr) as Hlen. rewrite Hl in Hlen.
  rewrite split_join.
  - rewrite all_ints_texts. cbn [rbind]. rewrite Hlen.
    destruct (m' * n' =? m * n)%nat eqn:E; [apply Nat.eqb_eq in E; lia|]. reflexivity.
  - intro H. apply map_eq_nil in H. rewrite H in Hlen. cbn in Hlen. nia.
  - intros s Hs. apply in_map_iff in Hs as (z & <- & _). apply text_char. reflexivity.
Qed.
Print Assumptions C52_wrong_shape_refused.

Example C52_nonvacuous :
  tuple_to_str [12; -3] = "(12,-3)" /\
  rectangle 2 3 [[1; 20; 3]; [-4; 5; 600]] /\
  table_to_str [[1; 20; 3]; [-4; 5; 600]] = "1,20,3,-4,5,600" /\
  str_to_table "1,20,3,-4,5,600" 2 3 = Ok [[1; 20; 3]; [-4; 5; 600]] /\
  (* a cell of a three-way table loses its last coordinate *)
  str_to_tuple (tuple_to_str [1; 2; 3]) = Ok (1, 2).
Proof.
  split; [reflexivity|]. split; [|split; [reflexivity|split; reflexivity]].
  split; [reflexivity|]. intros r [<-|[<-|[]]]; reflexivity.
Qed.

(** * Functions on cells *)

Definition cell (a : list (list Z)) (i j : nat) : Z := nth j (nth i a []) 0.

Lemma upd_nth_nth : forall {A} (f : A -> A) l k i d, (k < List.length l)%nat ->
  nth i (upd_nth k f l) d = if (i =? k)%nat then f (nth i l d) else nth i l d.
Proof.
  intros A f. induction l as [|x l IH]; intros k i d H; cbn in H; [lia|].
  destruct k; destruct i; cbn [upd_nth nth Nat.eqb]; auto. apply IH. lia.
Qed.
Lemma upd_nth_len : forall {A} (f : A -> A) l k, List.length (upd_nth k f l) = List.length l.
Proof. intros A f. induction l; intros [|k]; cbn; auto. Qed.
Lemma upd_nth_in : forall {A} (f : A -> A) l k x, In x (upd_nth k f l) -> In x l \/ exists y, In y l /\ x = f y.
Proof.
  intros A f. induction l as [|y l IH]; intros [|k] x H; cbn in H; auto.
  - destruct H as [<-|H]; [right; exists y; cbn; auto|left; cbn; auto].
  - destruct H as [<-|H]; [left; cbn; auto|]. destruct (IH _ _ H) as [?|(z & ? & ?)]; [left; cbn; auto|right; exists z; cbn; auto].
Qed.

Lemma set_cell_rect : forall m n i j v a, rectangle m n a -> rectangle m n (set_cell i j v a).
Proof.
  intros m n i j v a [H1 H2]. split; [unfold set_cell; rewrite upd_nth_len; auto|].
  intros r Hr. apply upd_nth_in in Hr as [Hr|(y & Hy & ->)]; auto. rewrite upd_nth_len. auto.
Qed.

Lemma set_cell_cell : forall m n i j v a i' j', rectangle m n a -> (i < m)%nat -> (j < n)%nat ->
  cell (set_cell i j v a) i' j' = if ((i' =? i) && (j' =? j))%nat then v else cell a i' j'.
Proof.
  intros m n i j v a i' j' [H1 H2] Hi Hj. unfold cell, set_cell.
  rewrite upd_nth_nth by lia. destruct (Nat.eqb_spec i' i) as [->|Hne]; cbn [andb]; auto.
  rewrite upd_nth_nth; auto. rewrite H2; auto. apply nth_In. lia.
Qed.

Lemma zeros_rect : forall m n, rectangle m n (zeros m n).
Proof.
  intros. split; [apply repeat_length|]. intros r Hr. apply repeat_spec in Hr. subst. apply repeat_length.
Qed.
Lemma zeros_cell : forall m n i j, cell (zeros m n) i j = 0.
Proof.
  intros. unfold cell, zeros. revert i. induction m; intros [|i]; cbn [repeat nth]; auto; try (destruct j; reflexivity).
  clear. revert j. induction n; intros [|j]; cbn; auto.
Qed.

Lemma in_shape_spec : forall m n c, in_shape m n c = true <-> (fst c < m /\ snd c < n)%nat.
Proof. intros. unfold in_shape. rewrite andb_true_iff, !Nat.ltb_lt. tauto. Qed.

(** Value of the last entry of [f] for the cell, or [d]. *)
Fixpoint last_value (f : list ((nat * nat) * Z)) (i j : nat) (d : Z) : Z :=
  match f with
  | [] => d
  | ((i', j'), v) :: f' => last_value f' i j (if ((i =? i') && (j =? j'))%nat then v else d)
  end.

Lemma fold_cells : forall m n f a, rectangle m n a -> (forall p, In p f -> in_shape m n (fst p) = true) ->
  let b := fold_left (fun a p => set_cell (fst (fst p)) (snd (fst p)) (snd p) a) f a in
  rectangle m n b /\ forall i j, cell b i j = last_value f i j (cell a i j).
Proof.
  intros m n f. induction f as [|[[i0 j0] v] f IH]; intros a Ha Hf; cbn zeta.
  - split; auto.
  - cbn [fold_left fst snd].
    assert (H0 : in_shape m n (i0, j0) = true) by (apply (Hf ((i0, j0), v)); cbn; auto).
    apply in_shape_spec in H0. cbn [fst snd] in H0.
    destruct (IH (set_cell i0 j0 v a)) as [R C].
    + apply set_cell_rect; auto.
    + intros; apply Hf; cbn; auto.
    + split; auto. intros i j. rewrite C. cbn [last_value]. f_equal.
      eapply set_cell_cell; eauto; tauto.
Qed.

Lemma scatter_spec : forall m n f, (forall p, In p f -> in_shape m n (fst p) = true) ->
  exists a, scatter m n f = Ok a /\ rectangle m n a /\ forall i j, cell a i j = last_value f i j 0.
Proof.
  intros m n f Hf. unfold scatter.
  rewrite (proj2 (forallb_forall _ _)) by auto.
  eexists. split; [reflexivity|].
  destruct (fold_cells m n f (zeros m n) (zeros_rect m n) Hf) as [R C]. split; auto.
  intros i j. rewrite C, zeros_cell. reflexivity.
Qed.

Lemma last_value_in : forall f i j v d, NoDup (map fst f) -> In ((i, j), v) f -> last_value f i j d = v.
Proof.
  assert (Hn : forall f i j d, ~ In (i, j) (map fst f) -> last_value f i j d = d).
  { induction f as [|[[a b] w] f IH]; intros i j d H; cbn [last_value]; auto.
    cbn in H. destruct (Nat.eqb_spec i a); destruct (Nat.eqb_spec j b); subst; cbn [andb]; try (apply IH; tauto).
    exfalso; tauto. }
  induction f as [|[[a b] w] f IH]; intros i j v d Hnd Hin; [destruct Hin|].
  inversion Hnd; subst. cbn [last_value]. destruct Hin as [E|Hin].
  - injection E as -> -> ->. rewrite !Nat.eqb_refl. cbn [andb]. apply Hn. auto.
  - apply IH; auto.
Qed.
Lemma last_value_notin : forall f i j d, ~ In (i, j) (map fst f) -> last_value f i j d = d.
Proof.
  induction f as [|[[a b] w] f IH]; intros i j d H; cbn [last_value]; auto.
  cbn in H. destruct (Nat.eqb_spec i a); destruct (Nat.eqb_spec j b); subst; cbn [andb]; try (apply IH; tauto).
  exfalso; tauto.
Qed.

Lemma maxl_ge : forall l x, In x l -> (x <= maxl l)%nat.
Proof. induction l; intros x H; [destruct H|]. cbn. destruct H as [->|H]; [lia|]. specialize (IHl _ H). unfold maxl in IHl. lia. Qed.
Lemma maxl_zero : forall l x, maxl l = 0%nat -> In x l -> x = 0%nat.
Proof. intros l x H Hx. apply maxl_ge in Hx. lia. Qed.

Lemma f_to_array_scatter : forall f shape, f <> [] ->
  f_to_array f shape =
    let '(m, n) := match shape with
                   | None => (S (maxl (map (fun p => fst (fst p)) f)), S (maxl (map (fun p => snd (fst p)) f)))
                   | Some s => s end in
    scatter m n f.
Proof.
  intros f shape Hf. unfold f_to_array. destruct f as [|p0 f0] eqn:Ef; [congruence|]. rewrite <- Ef in *. clear Ef p0 f0.
  destruct (Nat.eqb_spec (maxl (map (fun p => fst (fst p)) f)) 0) as [E|E].
  - rewrite E.
    assert (Hm : map (fun p => ((0%nat, snd (fst p)), snd p)) f = f).
    { transitivity (map (fun p : (nat * nat) * Z => p) f); [|apply map_id]. apply map_ext_in.
      intros [[i j] v] Hp. cbn. assert (i = 0)%nat as ->; auto.
      eapply maxl_zero; eauto. apply in_map_iff. exists ((i, j), v); auto. }
    rewrite Hm. destruct shape; auto.
  - destruct (Nat.eqb_spec (maxl (map (fun p => snd (fst p)) f)) 0) as [E'|E']; auto.
    rewrite E'.
    assert (Hm : map (fun p => ((fst (fst p), 0%nat), snd p)) f = f).
    { transitivity (map (fun p : (nat * nat) * Z => p) f); [|apply map_id]. apply map_ext_in.
      intros [[i j] v] Hp. cbn. assert (j = 0)%nat as ->; auto.
      eapply maxl_zero; eauto. apply in_map_iff. exists ((i, j), v); auto. }
    rewrite Hm. destruct shape; auto.
Qed.

(** C84, from a function to an array: for every non-empty function on cells inside
    the given shape the array has that shape, the given values, and zero in every
    other cell. *)
Theorem C84_function_to_table : forall m n f, f <> [] -> NoDup (map fst f) ->
  (forall i j v, In ((i, j), v) f -> (i < m)%nat /\ (j < n)%nat) ->
  exists a, f_to_array f (Some (m, n)) = Ok a /\ rectangle m n a /\
    (forall i j v, In ((i, j), v) f -> cell a i j = v) /\
    (forall i j, ~ In (i, j) (map fst f) -> cell a i j = 0).
Proof.
  intros m n f Hne Hnd Hin. rewrite f_to_array_scatter by auto.
  destruct (scatter_spec m n f) as (a & E & R & C).
  { intros [[i j] v] Hp. apply in_shape_spec. cbn. eapply Hin; eauto. }
  exists a. split; auto. split; auto. split.
  - intros. rewrite C. apply last_value_in; auto.
  - intros. rewrite C. apply last_value_notin; auto.
Qed.
Print Assumptions C84_function_to_table.

(** Without a shape: the smallest array that holds the cells. *)
Theorem C84_function_to_smallest_table : forall f, f <> [] -> NoDup (map fst f) ->
  exists a m n, f_to_array f None = Ok a /\ rectangle m n a /\
    (forall i j v, In ((i, j), v) f -> (i < m)%nat /\ (j < n)%nat /\ cell a i j = v) /\
    (forall i j, ~ In (i, j) (map fst f) -> cell a i j = 0) /\
    (exists j, In (pred m, j) (map fst f)) /\ (exists i, In (i, pred n) (map fst f)).
Proof.
  intros f Hne Hnd. rewrite f_to_array_scatter by auto.
  set (rows := map (fun p : (nat * nat) * Z => fst (fst p)) f).
  set (cols := map (fun p : (nat * nat) * Z => snd (fst p)) f).
  assert (Hsh : forall i j v, In ((i, j), v) f -> (i < S (maxl rows))%nat /\ (j < S (maxl cols))%nat).
  { intros i j v H. split; apply le_n_S, maxl_ge; apply in_map_iff; exists ((i, j), v); auto. }
  destruct (scatter_spec (S (maxl rows)) (S (maxl cols)) f) as (a & E & R & C).
  { intros [[i j] v] Hp. apply in_shape_spec. cbn [fst snd]. eapply Hsh; eauto. }
  assert (Hmax : forall l, l <> [] -> In (maxl l) l).
  { clear. induction l as [|x l IH]; intro H; [congruence|]. cbn. destruct l as [|y l].
    - left. cbn. lia.
    - destruct (Nat.max_dec x (fold_right Nat.max 0%nat (y :: l))) as [->| ->]; auto.
      right. apply IH. congruence. }
  exists a, (S (maxl rows)), (S (maxl cols)). split; auto. split; auto. split; [|split; [|split]].
  - intros i j v H. destruct (Hsh i j v H). split; [auto|]. split; [auto|]. rewrite C. apply last_value_in; auto.
  - intros. rewrite C. apply last_value_notin; auto.
  - assert (H : In (maxl rows) rows) by (apply Hmax; unfold rows; destruct f; cbn; congruence).
    apply in_map_iff in H as ([[i j] v] & Ei & H). cbn in Ei. exists j. apply in_map_iff. exists ((i, j), v).
    split; auto. cbn. congruence.
  - assert (H : In (maxl cols) cols) by (apply Hmax; unfold cols; destruct f; cbn; congruence).
    apply in_map_iff in H as ([[i j] v] & Ei & H). cbn in Ei. exists i. apply in_map_iff. exists ((i, j), v).
    split; auto. cbn. congruence.
Qed.
Print Assumptions C84_function_to_smallest_table.

Lemma in_enum : forall {A} (l : list A) s i x, In (i, x) (combine (seq s (List.length l)) l) <->
  (s <= i)%nat /\ nth_error l (i - s) = Some x.
Proof.
  induction l as [|y l IH]; intros s i x; cbn [List.length seq combine In].
  - split; [tauto|]. intros [_ H]. destruct (i - s)%nat; discriminate.
  - rewrite IH. split.
    + intros [E|[Hi He]].
      * injection E as -> ->. rewrite Nat.sub_diag. auto.
      * split; [lia|]. replace (i - s)%nat with (S (i - S s)) by lia. auto.
    + intros [Hi He]. destruct (i - s)%nat as [|k] eqn:Ek.
      * left. injection He as ->. f_equal. lia.
      * right. split; [lia|]. replace (i - S s)%nat with k by lia. auto.
Qed.

Lemma in_array_to_f : forall a i j v, In ((i, j), v) (array_to_f a) <->
  exists r, nth_error a i = Some r /\ nth_error r j = Some v.
Proof.
  intros a i j v. unfold array_to_f. rewrite in_concat. split.
  - intros (l & Hl & Hin). apply in_map_iff in Hl as ([i' r] & <- & Hr). cbn [fst snd] in Hin.
    apply in_map_iff in Hin as ([j' v'] & E & Hv). cbn [fst snd] in E. injection E as -> -> ->.
    apply in_enum in Hr as [_ Hr]. apply in_enum in Hv as [_ Hv]. rewrite Nat.sub_0_r in *. eauto.
  - intros (r & Hr & Hv). eexists. split.
    + apply in_map_iff. exists (i, r). split; [reflexivity|]. apply in_enum. rewrite Nat.sub_0_r. split; [lia|auto].
    + cbn [fst snd]. apply in_map_iff. exists (j, v). split; auto. apply in_enum. rewrite Nat.sub_0_r. split; [lia|auto].
Qed.

Lemma array_to_f_keys : forall a, NoDup (map fst (array_to_f a)).
Proof.
  intro a. unfold array_to_f. generalize 0%nat at 2 as s. induction a as [|r a IH]; intro s; cbn [List.length seq combine map List.concat].
  - constructor.
  - rewrite map_app. cbn [fst snd]. rewrite map_map. cbn [fst].
    assert (Hd : forall (b : list (list Z)) s0 c, In c (map fst (List.concat (map (fun p => map (fun q => ((fst p, fst q), snd q)) (combine (seq 0 (List.length (snd p))) (snd p))) (combine (seq s0 (List.length b)) b)))) -> (s0 <= fst c)%nat).
    { intros b s0 c Hc. apply in_map_iff in Hc as ([c' v] & <- & Hc). cbn [fst].
      apply in_concat in Hc as (q & Hq & Hc). apply in_map_iff in Hq as ([i' r'] & <- & Hr).
      apply in_enum in Hr as [Hi _]. apply in_map_iff in Hc as ([j' v'] & E & _). injection E as <- <-. auto. }
    assert (Hrow : NoDup (map (fun q : nat * Z => (s, fst q)) (combine (seq 0 (List.length r)) r))).
    { generalize 0%nat as t. clear. induction r as [|v r IH]; intro t; cbn [List.length seq combine map]; constructor; auto.
      intro H. apply in_map_iff in H as ([j w] & E & H). injection E as E. cbn in E. subst j.
      apply in_enum in H as [H _]. lia. }
    revert Hrow. specialize (Hd a (S s)). specialize (IH (S s)).
    assert (Hdisj : forall x, In x (map (fun q : nat * Z => (s, fst q)) (combine (seq 0 (List.length r)) r)) -> fst x = s).
    { intros x Hx. apply in_map_iff in Hx as (q & <- & _). auto. }
    revert Hdisj. generalize (map (fun q : nat * Z => (s, fst q)) (combine (seq 0 (List.length r)) r)) as l1.
    intros l1. induction l1 as [|x l1 IH1]; intros Hdisj Hnd; cbn [app]; auto.
    inversion Hnd; subst. constructor.
    + rewrite in_app_iff. intros [H|H]; [contradiction|]. apply Hd in H. rewrite (Hdisj x) in H by (cbn; auto). lia.
    + apply IH1; auto. intros; apply Hdisj; cbn; auto.
Qed.

Lemma rect_ext : forall m n a b, rectangle m n a -> rectangle m n b ->
  (forall i j, (i < m)%nat -> (j < n)%nat -> cell a i j = cell b i j) -> a = b.
Proof.
  intros m n a b [Ha1 Ha2] [Hb1 Hb2] H. apply (nth_ext _ _ [] []); [congruence|].
  intros i Hi. rewrite Ha1 in Hi.
  assert (In (nth i a []) a) by (apply nth_In; lia). assert (In (nth i b []) b) by (apply nth_In; lia).
  apply (nth_ext _ _ 0 0); [rewrite Ha2, Hb2; auto|].
  intros j Hj. rewrite Ha2 in Hj by auto. apply H; auto.
Qed.

(** C84, round trip: for every table with at least one row and column, converting
    it to a function on cells and back (with or without its shape) gives the
    table. *)
Theorem C84_table_function_roundtrip : forall m n t, (0 < m)%nat -> (0 < n)%nat -> rectangle m n t ->
  f_to_array (array_to_f t) None = Ok t /\ f_to_array (array_to_f t) (Some (m, n)) = Ok t.
Proof.
  intros m n t Hm Hn Ht.
  assert (Hin : forall i j, (i < m)%nat -> (j < n)%nat -> In ((i, j), cell t i j) (array_to_f t)).
  { intros i j Hi Hj. apply in_array_to_f. exists (nth i t []). destruct Ht as [H1 H2].
    split; [apply nth_error_nth'; lia|]. apply nth_error_nth'. rewrite H2; auto. apply nth_In. lia. }
  assert (Hsh : forall i j v, In ((i, j), v) (array_to_f t) -> (i < m)%nat /\ (j < n)%nat).
  { intros i j v H. apply in_array_to_f in H as (r & Hr & Hv). destruct Ht as [H1 H2]. split.
    - rewrite <- H1. apply nth_error_Some. congruence.
    - rewrite <- (H2 r) by (eapply nth_error_In; eauto). apply nth_error_Some. congruence. }
  assert (Hne : array_to_f t <> []).
  { intro E. specialize (Hin 0%nat 0%nat Hm Hn). rewrite E in Hin. destruct Hin. }
  pose proof (array_to_f_keys t) as Hk. split.
  - destruct (C84_function_to_smallest_table (array_to_f t) Hne Hk) as (a & m' & n' & E & R & V & _ & [j Hj] & [i Hi]).
    assert (m' = m /\ n' = n) as [-> ->].
    { destruct (V _ _ _ (Hin (pred m) (pred n) ltac:(lia) ltac:(lia))) as (A1 & A2 & _).
      apply in_map_iff in Hj as ([[x1 y1] v1] & E1 & Hj). cbn in E1. injection E1 as -> ->.
      apply in_map_iff in Hi as ([[x2 y2] v2] & E2 & Hi). cbn in E2. injection E2 as -> ->.
      apply Hsh in Hj. apply Hsh in Hi. lia. }
    rewrite E. f_equal. eapply rect_ext; eauto. intros i' j' H1 H2. apply V. auto.
  - destruct (C84_function_to_table m n (array_to_f t) Hne Hk Hsh) as (a & E & R & V & _).
    rewrite E. f_equal. eapply rect_ext; eauto. 
Qed.
Print Assumptions C84_table_function_roundtrip.

Example C84_nonvacuous :
  rectangle 2 2 [[1; 0]; [3; 4]] /\
  array_to_f [[1; 0]; [3; 4]] = [((0%nat, 0%nat), 1); ((0%nat, 1%nat), 0); ((1%nat, 0%nat), 3); ((1%nat, 1%nat), 4)] /\
  f_to_array [((0%nat, 0%nat), 1); ((1%nat, 2%nat), -1)] (Some (3, 4)%nat)
    = Ok [[1; 0; 0; 0]; [0; 0; -1; 0]; [0; 0; 0; 0]].
Proof.
  split; [|split; reflexivity]. split; [reflexivity|]. intros r [<-|[<-|[]]]; reflexivity.
Qed.
