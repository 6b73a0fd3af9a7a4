(** Properties C11-C15: Markov basis moves. *)
From Coq Require Import List ZArith Lia Bool Arith Permutation Sorted.
From Verif Require Import Base Axes Tables TablesProps InitTablesProps MarkovBasis.
Import ListNotations.
Open Scope Z_scope.

(** ---- Specification vocabulary -------------------------------------- *)

(** The table after adding [eps] times a move. *)
Definition moved (t : table) (f : basis_fn) (eps : Z) : table :=
  fun i j => t i j + eps * bf_value f (i, j).

Definition same_on (s : shape) (t u : table) : Prop :=
  forall i j, (i < nI s)%nat -> (j < nJ s)%nat -> t i j = u i j.

Definition nonneg_on (s : shape) (t : table) : Prop :=
  forall i j, (i < nI s)%nat -> (j < nJ s)%nat -> 0 <= t i j.

(** A walk of moves of [fs], forwards or backwards, all of whose tables
    (both ends included) satisfy [good]. *)
Inductive walk (s : shape) (good : table -> Prop) (fs : list basis_fn) : table -> table -> Prop :=
| walk_here : forall t u, good t -> same_on s t u -> walk s good fs t u
| walk_move : forall t u f eps, good t -> In f fs -> eps = 1 \/ eps = -1 ->
    walk s good fs (moved t f eps) u -> walk s good fs t u.

(** Same totals on the axes the user asked for. *)
Definition same_margins (s : shape) (axes : list ax) (t u : table) : Prop :=
  (In A1 axes -> forall i, (i < nI s)%nat -> row_sum s t i = row_sum s u i) /\
  (In A0 axes -> forall j, (j < nJ s)%nat -> col_sum s t j = col_sum s u j) /\
  total s t = total s u.

(** ---- Sums over lists of cells --------------------------------------- *)

Definition csum (g : cell -> Z) (l : list cell) : Z := lsum (map g l).
Definition dl (k x : cell) : Z := if cell_eqb x k then 1 else 0.

Lemma csum_cons : forall g x l, csum g (x :: l) = g x + csum g l.
Proof. reflexivity. Qed.

Lemma csum_add : forall g h l, csum (fun x => g x + h x) l = csum g l + csum h l.
Proof. intros g h l; induction l as [|x l IH]; [reflexivity|]. rewrite !csum_cons, IH; ring. Qed.

Lemma csum_le : forall g h l, (forall x, In x l -> g x <= h x) -> csum g l <= csum h l.
Proof.
  intros g h l; induction l as [|x l IH]; intros H; [cbn; lia|]. rewrite !csum_cons.
  assert (g x <= h x) by (apply H; left; reflexivity).
  assert (csum g l <= csum h l) by (apply IH; intros; apply H; right; assumption). lia.
Qed.

Lemma csum_ext : forall g h l, (forall x, In x l -> g x = h x) -> csum g l = csum h l.
Proof.
  intros g h l; induction l as [|x l IH]; intros H; [reflexivity|]. rewrite !csum_cons.
  rewrite (H x) by (left; reflexivity). rewrite IH; [reflexivity|intros; apply H; right; assumption].
Qed.

Lemma csum_nonneg : forall g l, (forall x, In x l -> 0 <= g x) -> 0 <= csum g l.
Proof.
  intros g l; induction l as [|x l IH]; intros H; [cbn; lia|]. rewrite !csum_cons.
  assert (0 <= g x) by (apply H; left; reflexivity).
  assert (0 <= csum g l) by (apply IH; intros; apply H; right; assumption). lia.
Qed.

Lemma dl_refl : forall k, dl k k = 1.
Proof. intros k; unfold dl. assert (cell_eqb k k = true) as -> by (apply cell_eqb_spec; reflexivity). reflexivity. Qed.

Lemma dl_neq : forall k x, x <> k -> dl k x = 0.
Proof.
  intros k x H; unfold dl. destruct (cell_eqb x k) eqn:E; [|reflexivity].
  apply cell_eqb_spec in E; contradiction.
Qed.

Lemma dl_01 : forall k x, dl k x = 0 \/ dl k x = 1.
Proof. intros k x; unfold dl; destruct (cell_eqb x k); auto. Qed.

Lemma csum_dl : forall k l, NoDup l -> csum (dl k) l = if cell_in k l then 1 else 0.
Proof.
  intros k l H; induction H as [|x l Hx HN IH]; [reflexivity|].
  rewrite csum_cons, IH. unfold cell_in; cbn [existsb]; fold (cell_in k l).
  unfold dl. destruct (cell_eqb x k) eqn:E.
  - apply cell_eqb_spec in E; subst.
    assert (cell_in k l = false) as -> by (apply cell_in_false; exact Hx).
    assert (cell_eqb k k = true) as -> by (apply cell_eqb_spec; reflexivity). reflexivity.
  - assert (cell_eqb k x = false) as ->.
    { destruct (cell_eqb k x) eqn:E2; [|reflexivity]. apply cell_eqb_spec in E2; subst.
      assert (cell_eqb x x = true) by (apply cell_eqb_spec; reflexivity). congruence. }
    cbn. reflexivity.
Qed.

Lemma csum_pos_ex : forall g l, 0 < csum g l -> exists x, In x l /\ 0 < g x.
Proof.
  intros g l; induction l as [|x l IH]; [cbn; lia|]. rewrite csum_cons; intros H.
  destruct (Z_lt_dec 0 (g x)); [exists x; split; [left; reflexivity|assumption]|].
  destruct IH as [y [Hy Hp]]; [lia|]. exists y; split; [right; exact Hy|exact Hp].
Qed.

(** If the sum is zero and some term is not, a term has the opposite sign. *)
Lemma csum_zero_signs : forall g l x, In x l -> g x <> 0 -> csum g l = 0 ->
  (exists y, In y l /\ 0 < g y) /\ (exists y, In y l /\ g y < 0).
Proof.
  intros g l x Hx Hg H0.
  assert (P : forall h, csum h l = 0 -> h x < 0 -> exists y, In y l /\ 0 < h y).
  { intros h; revert Hx; clear; induction l as [|z l IH]; [intros []|].
    intros [<-|Hx]; rewrite csum_cons; intros H0 Hn.
    - destruct (csum_pos_ex h l) as [y [Hy Hp]]; [lia|]. exists y; split; [right; exact Hy|exact Hp].
    - destruct (Z_lt_dec 0 (h z)); [exists z; split; [left; reflexivity|assumption]|].
      destruct (Z.eq_dec (h z) 0) as [E|E].
      + destruct IH as [y [Hy Hp]]; auto; [lia|]. exists y; split; [right; exact Hy|exact Hp].
      + destruct (csum_pos_ex h l) as [y [Hy Hp]]; [lia|]. exists y; split; [right; exact Hy|exact Hp]. }
  assert (N : csum (fun y => - g y) l = 0).
  { rewrite <- H0. assert (csum (fun y => g y + - g y) l = 0).
    { rewrite (csum_ext _ (fun _ => 0)); [|intros; lia].
      clear; induction l as [|y l IH]; [reflexivity|]. rewrite csum_cons; lia. }
    rewrite csum_add in H. lia. }
  destruct (Z_lt_dec (g x) 0).
  - split; [apply P; assumption|]. exists x; auto.
  - split; [exists x; split; [exact Hx|lia]|].
    destruct (P _ N) as [y [Hy Hp]]; [lia|]. exists y; split; [exact Hy|lia].
Qed.

Definition tv (t : table) (k : cell) : Z := t (fst k) (snd k).

Lemma row_sum_csum : forall s t i, (i < nI s)%nat ->
  row_sum s t i = csum (tv t) (filter (fun k => Nat.eqb (fst k) i) (all_cells s)).
Proof.
  intros s t i Hi. change (csum (tv t) ?l) with (cells_sum t l).
  rewrite (cells_sum_row s t (all_cells s) i (all_cells_NoDup s))
    by (intros k Hk; apply all_cells_in; exact Hk).
  unfold row_sum; apply zsum_ext; intros j Hj.
  assert (cell_in (i, j) (all_cells s) = true) as ->; [|reflexivity].
  apply cell_in_spec, all_cells_in; split; assumption.
Qed.

Lemma col_sum_csum : forall s t j, (j < nJ s)%nat ->
  col_sum s t j = csum (tv t) (filter (fun k => Nat.eqb (snd k) j) (all_cells s)).
Proof.
  intros s t j Hj. change (csum (tv t) ?l) with (cells_sum t l).
  rewrite (cells_sum_col s t (all_cells s) j (all_cells_NoDup s))
    by (intros k Hk; apply all_cells_in; exact Hk).
  unfold col_sum; apply zsum_ext; intros i Hi.
  assert (cell_in (i, j) (all_cells s) = true) as ->; [|reflexivity].
  apply cell_in_spec, all_cells_in; split; assumption.
Qed.

(** Row and column sums of an indicator table. *)
Definition dlt (k : cell) : table := fun i j => dl k (i, j).

Lemma row_sum_dlt : forall s k i, in_shape s k ->
  row_sum s (dlt k) i = if Nat.eqb i (fst k) then 1 else 0.
Proof.
  intros s [a b] i [Ha Hb]; cbn in *. unfold row_sum, dlt, dl, cell_eqb; cbn.
  destruct (Nat.eqb_spec i a) as [->|Hne]; cbn.
  - rewrite zsum_delta. assert ((b <? nJ s)%nat = true) as -> by (apply Nat.ltb_lt; exact Hb). reflexivity.
  - apply zsum_const0.
Qed.

Lemma col_sum_dlt : forall s k j, in_shape s k ->
  col_sum s (dlt k) j = if Nat.eqb j (snd k) then 1 else 0.
Proof.
  intros s [a b] j [Ha Hb]; cbn in *. unfold col_sum, dlt, dl, cell_eqb; cbn.
  destruct (Nat.eqb_spec j b) as [->|Hne]; cbn.
  - rewrite (zsum_ext _ _ (fun j => if Nat.eqb j a then 1 else 0));
      [|intros i _; rewrite andb_true_r; reflexivity].
    rewrite zsum_delta. assert ((a <? nI s)%nat = true) as -> by (apply Nat.ltb_lt; exact Ha). reflexivity.
  - apply zsum_zero; intros; rewrite andb_false_r; reflexivity.
Qed.

Lemma total_dlt : forall s k, in_shape s k -> total s (dlt k) = 1.
Proof.
  intros s k Hk; unfold total.
  rewrite (zsum_ext _ _ (fun i => if Nat.eqb i (fst k) then 1 else 0))
    by (intros; apply row_sum_dlt; exact Hk).
  rewrite zsum_delta. destruct Hk as [Ha _].
  assert ((fst k <? nI s)%nat = true) as -> by (apply Nat.ltb_lt; exact Ha). reflexivity.
Qed.

Lemma row_sum_lin : forall s t u e i, row_sum s (fun i j => t i j + e * u i j) i
  = row_sum s t i + e * row_sum s u i.
Proof. intros; unfold row_sum; rewrite zsum_add, zsum_mul; reflexivity. Qed.

Lemma col_sum_lin : forall s t u e j, col_sum s (fun i j => t i j + e * u i j) j
  = col_sum s t j + e * col_sum s u j.
Proof. intros; unfold col_sum; rewrite zsum_add, zsum_mul; reflexivity. Qed.

Lemma row_sum_ext : forall s t u i, (i < nI s)%nat -> same_on s t u -> row_sum s t i = row_sum s u i.
Proof. intros s t u i Hi H; unfold row_sum; apply zsum_ext; intros; apply H; assumption. Qed.

Lemma col_sum_ext : forall s t u j, (j < nJ s)%nat -> same_on s t u -> col_sum s t j = col_sum s u j.
Proof. intros s t u j Hj H; unfold col_sum; apply zsum_ext; intros; apply H; assumption. Qed.

Lemma total_ext : forall s t u, same_on s t u -> total s t = total s u.
Proof. intros s t u H; unfold total; apply zsum_ext; intros; apply row_sum_ext; assumption. Qed.

(** ---- Candidate cells -------------------------------------------------- *)

Definition lexlt (a b : cell) : Prop :=
  (fst a < fst b)%nat \/ (fst a = fst b /\ (snd a < snd b)%nat).

Lemma all_cells_sorted : forall s, StronglySorted lexlt (all_cells s).
Proof.
  intros s; unfold all_cells.
  assert (P : forall n a, StronglySorted lexlt (list_prod (seq a n) (seq 0 (nJ s)))).
  { induction n as [|n IH]; intros a; cbn; [constructor|].
    specialize (IH (S a)).
    assert (Q : forall m b rest, StronglySorted lexlt rest ->
       (forall x, In x rest -> (a < fst x)%nat) ->
       StronglySorted lexlt (map (fun y => (a, y)) (seq b m) ++ rest)).
    { induction m as [|m IHm]; intros b rest HS HL; cbn; [exact HS|].
      constructor; [apply IHm; assumption|].
      apply Forall_forall; intros x Hx; apply in_app_or in Hx as [Hx|Hx].
      - apply in_map_iff in Hx as [y [<- Hy]]; apply in_seq in Hy. right; cbn; lia.
      - left; cbn; apply HL; exact Hx. }
    apply Q; [exact IH|].
    intros [x1 x2] Hx; apply in_prod_iff in Hx as [Hx _]; apply in_seq in Hx; cbn; lia. }
  apply P.
Qed.

Lemma filter_sorted : forall (R : cell -> cell -> Prop) p l,
  StronglySorted R l -> StronglySorted R (filter p l).
Proof.
  intros R p l H; induction H as [|x l HS IH HF]; cbn; [constructor|].
  destruct (p x); [|exact IH]. constructor; [exact IH|].
  rewrite Forall_forall in *; intros y Hy; apply filter_In in Hy as [Hy _]; auto.
Qed.

Lemma sorted_rest : forall (l pre rest : list cell) k, StronglySorted lexlt l -> l = pre ++ k :: rest ->
  forall d, In d rest <-> In d l /\ lexlt k d.
Proof.
  intros l pre rest k HS ->. induction pre as [|p pre IH]; cbn in *.
  - inversion HS as [|? ? HS' HF]; subst. rewrite Forall_forall in HF.
    intros d; split; [intros Hd; split; [right; exact Hd|apply HF; exact Hd]|].
    intros [[->|Hd] HL]; [|exact Hd]. unfold lexlt in HL; lia.
  - inversion HS as [|? ? HS' HF]; subst. rewrite Forall_forall in HF.
    intros d; rewrite (IH HS' d). split; [intros [H1 H2]; auto|].
    intros [[<-|Hd] HL]; [|auto]. exfalso.
    assert (lexlt p k) by (apply HF; apply in_or_app; right; left; reflexivity).
    unfold lexlt in *; lia.
Qed.

Lemma axes_are_spec : forall l want, axes_are l want = true <-> (forall a, In a l <-> In a want).
Proof.
  intros l want; unfold axes_are, all_axes; cbn [forallb].
  rewrite !andb_true_iff, !eqb_true_iff. split.
  - intros [H0 [H01 [H1 _]]] a. rewrite <- !ax_in_spec. destruct a; rewrite ?H0, ?H01, ?H1; reflexivity.
  - intros H. assert (E : forall a, ax_in a l = ax_in a want).
    { intros a; apply eq_true_iff_eq; rewrite !ax_in_spec; apply H. }
    rewrite !E; auto.
Qed.

(** Which branch of active_candidates runs, for each set of axes. *)
Lemma candidates_cases : forall c axes k cells, ct_caxes c = constrained_axes_2d axes ->
  active_candidates c k cells =
  (if ax_in A1 axes then
     if ax_in A0 axes then Ok (filter (fun d => negb (Nat.eqb (fst d) (fst k)) && (snd k <? snd d)%nat) cells)
     else Ok (filter (fun d => (snd k <? snd d)%nat && Nat.eqb (fst d) (fst k)) cells)
   else if ax_in A0 axes then Ok (filter (fun d => (fst k <? fst d)%nat && Nat.eqb (snd d) (snd k)) cells)
   else Raise EExn).
Proof.
  intros c axes k cells E; unfold active_candidates; rewrite E, constrained_axes_2d_eq.
  destruct (ax_in A0 axes), (ax_in A1 axes), (ax_in A01 axes); reflexivity.
Qed.

Theorem C15_candidates_exact : forall s truth m axes fixed c pre k rest,
  build_ct s truth m axes fixed = Ok c ->
  ct_free c = pre ++ k :: rest ->
  let free d := (fst d < nI s)%nat /\ (snd d < nJ s)%nat /\ ~ In d fixed in
  (In A1 axes -> ~ In A0 axes -> exists l, active_candidates c k rest = Ok l /\ NoDup l /\
     forall d, In d l <-> free d /\ fst d = fst k /\ (snd k < snd d)%nat) /\
  (In A0 axes -> ~ In A1 axes -> exists l, active_candidates c k rest = Ok l /\ NoDup l /\
     forall d, In d l <-> free d /\ snd d = snd k /\ (fst k < fst d)%nat) /\
  (In A0 axes -> In A1 axes -> exists l, active_candidates c k rest = Ok l /\ NoDup l /\
     forall d, In d l <-> free d /\ (fst k < fst d)%nat /\ (snd k < snd d)%nat) /\
  (~ In A0 axes -> ~ In A1 axes -> active_candidates c k rest = Raise EExn).
Proof.
  intros s truth m axes fixed c pre k rest Hok HF free.
  destruct (build_shape _ _ _ _ _ _ Hok) as [Es [Et [Em [Ea Ef]]]].
  pose proof (build_free _ _ _ _ _ _ Hok) as EF.
  assert (HS : StronglySorted lexlt (ct_free c)) by (rewrite EF; apply filter_sorted, all_cells_sorted).
  assert (HN : NoDup rest).
  { assert (NoDup (ct_free c)) as HN by (rewrite EF; apply NoDup_filter, all_cells_NoDup).
    rewrite HF in HN. apply NoDup_remove_1 in HN.
    clear -HN. induction pre; cbn in *; [exact HN|inversion HN; auto]. }
  assert (HR : forall d, In d rest <-> free d /\ lexlt k d).
  { intros d; rewrite (sorted_rest _ _ _ _ HS HF d), EF, filter_In, all_cells_in, negb_true_iff, cell_in_false.
    unfold free, in_shape; tauto. }
  rewrite (candidates_cases c axes k rest Ea).
  assert (I : forall a, ~ In a axes -> ax_in a axes = false).
  { intros a Ha; destruct (ax_in a axes) eqn:E; [apply ax_in_spec in E; contradiction|reflexivity]. }
  assert (I' : forall a, In a axes -> ax_in a axes = true) by (intros; apply ax_in_spec; assumption).
  split; [|split; [|split]]; intros H1 H2.
  - rewrite (I' A1 H1), (I A0 H2). eexists; split; [reflexivity|]. split; [apply NoDup_filter; exact HN|].
    intros d; rewrite filter_In, HR, andb_true_iff, Nat.ltb_lt, Nat.eqb_eq. unfold lexlt. intuition lia.
  - rewrite (I' A0 H1), (I A1 H2). eexists; split; [reflexivity|]. split; [apply NoDup_filter; exact HN|].
    intros d; rewrite filter_In, HR, andb_true_iff, Nat.ltb_lt, Nat.eqb_eq. unfold lexlt. intuition lia.
  - rewrite (I' A0 H1), (I' A1 H2). eexists; split; [reflexivity|]. split; [apply NoDup_filter; exact HN|].
    intros d; rewrite filter_In, HR, andb_true_iff, Nat.ltb_lt, negb_true_iff, Nat.eqb_neq.
    unfold lexlt. intuition lia.
  - rewrite (I A0 H1), (I A1 H2). reflexivity.
Qed.
Print Assumptions C15_candidates_exact.

Example C15_nonvacuous : exists c pre rest,
  build_ct (Shape 3 3) (fun _ _ => 5) (axis_margin (Shape 3 3) (fun _ _ => 5)) [A0; A1] [(2, 2)%nat] = Ok c /\
  ct_free c = pre ++ (0, 1)%nat :: rest /\
  active_candidates c (0, 1)%nat rest = Ok [(1, 2)%nat].
Proof.
  eexists; exists [(0, 0)%nat]; eexists.
  split; [reflexivity|split; reflexivity].
Qed.

(** ---- Shape of the generated moves ------------------------------------- *)

Lemma ax_in_false_iff : forall a l, ax_in a l = false <-> ~ In a l.
Proof.
  intros a l; rewrite <- ax_in_spec; destruct (ax_in a l); split; intros; congruence.
Qed.

Section Moves.
  Variables (s : shape) (truth : table) (m : margins) (axes : list ax) (fixed : list cell) (c : ct).
  Hypothesis Hok : build_ct s truth m axes fixed = Ok c.

  Definition is_free (d : cell) : Prop := in_shape s d /\ ~ In d fixed.

  Lemma free_iff : forall d, In d (ct_free c) <-> is_free d.
  Proof.
    intros d; rewrite (build_free _ _ _ _ _ _ Hok), filter_In, all_cells_in, negb_true_iff, cell_in_false.
    reflexivity.
  Qed.

  Lemma free_sorted : StronglySorted lexlt (ct_free c).
  Proof. rewrite (build_free _ _ _ _ _ _ Hok); apply filter_sorted, all_cells_sorted. Qed.

  Lemma free_nodup : NoDup (ct_free c).
  Proof. rewrite (build_free _ _ _ _ _ _ Hok); apply NoDup_filter, all_cells_NoDup. Qed.

  Lemma caxes_eq : ct_caxes c = constrained_axes_2d axes.
  Proof. destruct (build_shape _ _ _ _ _ _ Hok) as [_ [_ [_ [E _]]]]; exact E. Qed.

  (** The relation "partner of" for the constraint set. *)
  Definition partner (k d : cell) : Prop :=
    if ax_in A1 axes then
      if ax_in A0 axes then (fst k < fst d)%nat /\ (snd k < snd d)%nat
      else fst d = fst k /\ (snd k < snd d)%nat
    else snd d = snd k /\ (fst k < fst d)%nat.

  Definition cond (k d : cell) : bool :=
    if ax_in A1 axes then
      if ax_in A0 axes then negb (Nat.eqb (fst d) (fst k)) && (snd k <? snd d)%nat
      else (snd k <? snd d)%nat && Nat.eqb (fst d) (fst k)
    else (fst k <? fst d)%nat && Nat.eqb (snd d) (snd k).

  Lemma cond_partner : forall k d, lexlt k d -> (cond k d = true <-> partner k d).
  Proof.
    intros k d H; unfold cond, partner, lexlt in *.
    destruct (ax_in A1 axes), (ax_in A0 axes);
      rewrite andb_true_iff, ?negb_true_iff, Nat.ltb_lt, ?Nat.eqb_neq, ?Nat.eqb_eq; intuition lia.
  Qed.

  Lemma partner_lex : forall k d, partner k d -> lexlt k d.
  Proof.
    intros k d; unfold partner, lexlt; destruct (ax_in A1 axes), (ax_in A0 axes); lia.
  Qed.

  Hypothesis Hax : ax_in A0 axes || ax_in A1 axes = true.

  Lemma cand_cond : forall k cells, active_candidates c k cells = Ok (filter (cond k) cells).
  Proof.
    intros k cells; rewrite (candidates_cases c axes k cells caxes_eq). unfold cond.
    destruct (ax_in A0 axes), (ax_in A1 axes); try discriminate; reflexivity.
  Qed.

  Lemma cand_match : forall k rest,
    (match rest with [] => Ok [] | _ => active_candidates c k rest end) = Ok (filter (cond k) rest).
  Proof. intros k [|d rest]; [reflexivity|apply cand_cond]. Qed.

  Lemma pairs_eq : forall cells, (forall d, In d cells -> In d (ct_free c)) ->
    exists ps, one_margin_pairs c (ct_free c) cells = Ok ps /\
    (StronglySorted lexlt cells ->
     NoDup ps /\ forall k d, In (k, d) ps <-> In k cells /\ In d cells /\ partner k d).
  Proof.
    induction cells as [|x cells IH]; intros HI.
    - exists []; split; [reflexivity|]. intros _; split; [constructor|]. cbn; tauto.
    - destruct IH as [ps [E IH]]; [intros; apply HI; right; assumption|].
      cbn [one_margin_pairs]. rewrite cand_match. cbn [rbind]. rewrite E. cbn [rbind].
      eexists; split; [reflexivity|]. intros HS. inversion HS as [|? ? HS' HF]; subst.
      destruct (IH HS') as [HN HP]. rewrite Forall_forall in HF.
      set (l := filter (fun d => cell_in x (ct_free c) && cell_in d (ct_free c)) (filter (cond x) cells)).
      assert (HL : forall d, In d l <-> In d cells /\ partner x d).
      { intros d; unfold l; rewrite !filter_In, andb_true_iff, !cell_in_spec. split.
        - intros [[H1 H2] _]; split; [exact H1|]. apply cond_partner in H2; [exact H2|apply HF; exact H1].
        - intros [H1 H2]; split; [split; [exact H1|apply cond_partner; [apply HF; exact H1|exact H2]]|].
          split; apply HI; [left; reflexivity|right; exact H1]. }
      assert (HNc : NoDup cells).
      { clear -HS'. induction HS' as [|y l' H IH HF]; constructor; [|exact IH].
        intros Hin; rewrite Forall_forall in HF. specialize (HF _ Hin). unfold lexlt in HF; lia. }
      split.
      + apply NoDup_app_intro.
        * apply FinFun.Injective_map_NoDup; [intros a b Eab; congruence|].
          unfold l; repeat apply NoDup_filter; exact HNc.
        * exact HN.
        * intros [a b] H1 H2. apply in_map_iff in H1 as [d [Ed Hd]]. inversion Ed; subst.
          apply HP in H2 as [H2 _]. specialize (HF _ H2). unfold lexlt in HF; lia.
      + intros k d. rewrite in_app_iff, HP, in_map_iff. cbn [In]. split.
        * intros [[b [Eb Hb]]|H]; [|tauto]. inversion Eb; subst. apply HL in Hb. tauto.
        * intros [[<-|Hk] [[<-|Hd] HPk]].
          -- apply partner_lex in HPk; unfold lexlt in HPk; lia.
          -- left; exists d; split; [reflexivity|apply HL; tauto].
          -- apply partner_lex in HPk. specialize (HF _ Hk). unfold lexlt in *; lia.
          -- right; tauto.
  Qed.

  Lemma loop_eq : forall draws cells n, exists fs, both_margin_loop c (ct_free c) draws n cells = Ok fs /\
    (StronglySorted lexlt cells -> (forall d, In d cells -> In d (ct_free c)) ->
     forall f, In f fs -> exists k d, f = square_move k d /\ In k cells /\ In d cells /\ partner k d /\
       is_free (fst k, snd d) /\ is_free (fst d, snd k)).
  Proof.
    intros draws cells; induction cells as [|x cells IH]; intros n.
    - exists []; split; [reflexivity|]. intros _ _ f [].
    - destruct (IH (S n)) as [fs [E HF]]. cbn [both_margin_loop].
      unfold both_margin_for_cell. rewrite cand_match. cbn [rbind].
      destruct (filter (cond x) cells) as [|d0 cand] eqn:EC.
      + rewrite E. cbn [rbind app]. exists fs; split; [reflexivity|].
        intros HS HI f Hf. inversion HS; subst.
        destruct (HF H1 (fun d Hd => HI d (or_intror Hd)) f Hf) as [k [d [H3 [H4 [H5 H6]]]]].
        exists k, d; cbn [In]; tauto.
      + cbv zeta. cbn [rbind]. rewrite E. cbn [rbind]. eexists; split; [reflexivity|].
        intros HS HI f Hf. inversion HS as [|? ? HS' HFx]; subst. rewrite Forall_forall in HFx.
        apply in_app_or in Hf as [Hf|Hf].
        * set (d := nth (Nat.modulo (draws n) (length (d0 :: cand))) (d0 :: cand) d0) in *.
          assert (Hd : In d (d0 :: cand)).
          { apply nth_In. apply Nat.mod_upper_bound. cbn; lia. }
          rewrite <- EC in Hd. apply filter_In in Hd as [Hd1 Hd2].
          destruct (square_free (ct_free c) x d) eqn:ES; [|destruct Hf].
          destruct Hf as [<-|[]]. exists x, d. split; [reflexivity|].
          apply cond_partner in Hd2; [|apply HFx; exact Hd1].
          unfold square_free in ES. rewrite !andb_true_iff, !cell_in_spec, !free_iff in ES.
          cbn [In]; tauto.
        * destruct (HF HS' (fun d Hd => HI d (or_intror Hd)) f Hf) as [k [d [H3 [H4 [H5 H6]]]]].
          exists k, d; cbn [In]; tauto.
  Qed.

  Lemma gen_len2 : ax_in A0 axes && ax_in A1 axes = false -> length (ct_caxes c) = 2%nat.
  Proof.
    rewrite caxes_eq, constrained_axes_2d_eq. revert Hax.
    destruct (ax_in A0 axes), (ax_in A1 axes), (ax_in A01 axes); cbn; intros; congruence.
  Qed.

  Lemma gen_len3 : ax_in A0 axes && ax_in A1 axes = true -> length (ct_caxes c) = 3%nat.
  Proof.
    rewrite caxes_eq, constrained_axes_2d_eq.
    destruct (ax_in A0 axes), (ax_in A1 axes), (ax_in A01 axes); cbn; intros; congruence.
  Qed.

  Lemma generate_one : ax_in A0 axes && ax_in A1 axes = false -> forall draws,
    exists ps, generate_markov_basis c draws = Ok (map pair_move ps) /\ NoDup ps /\
    forall k d, In (k, d) ps <-> is_free k /\ is_free d /\ partner k d.
  Proof.
    intros H draws. destruct (pairs_eq (ct_free c) (fun d Hd => Hd)) as [ps [E HP]].
    destruct (HP free_sorted) as [HN HI].
    exists ps. split; [|split; [exact HN|]].
    - unfold generate_markov_basis, generate_one_margin. rewrite (gen_len2 H), E. reflexivity.
    - intros k d; rewrite HI, !free_iff; reflexivity.
  Qed.

  Lemma generate_both : ax_in A0 axes && ax_in A1 axes = true -> forall draws,
    exists fs, generate_markov_basis c draws = Ok fs /\
    forall f, In f fs -> exists k d, f = square_move k d /\ is_free k /\ is_free d /\
       is_free (fst k, snd d) /\ is_free (fst d, snd k) /\ (fst k < fst d)%nat /\ (snd k < snd d)%nat.
  Proof.
    intros H draws. destruct (loop_eq draws (ct_free c) 0) as [fs [E HP]].
    exists fs. split.
    - unfold generate_markov_basis. rewrite (gen_len3 H). exact E.
    - intros f Hf. destruct (HP free_sorted (fun d Hd => Hd) f Hf) as [k [d [H1 [H2 [H3 [H4 [H5 H6]]]]]]].
      exists k, d. rewrite free_iff in H2, H3. unfold partner in H4.
      apply andb_true_iff in H as [H0' H1']. rewrite H0', H1' in H4. tauto.
  Qed.
End Moves.

Lemma cell_eqb_refl : forall k, cell_eqb k k = true.
Proof. intros; apply cell_eqb_spec; reflexivity. Qed.

Lemma cell_eqb_neq : forall a b, a <> b -> cell_eqb a b = false.
Proof. intros a b H; destruct (cell_eqb a b) eqn:E; [apply cell_eqb_spec in E; contradiction|reflexivity]. Qed.

Lemma pair_value : forall k d, k <> d -> forall x, bf_value (pair_move (k, d)) x = dl k x - dl d x.
Proof.
  intros k d H x. unfold pair_move; cbn [bf_value fst snd].
  rewrite !cell_eqb_refl, (cell_eqb_neq k d H), (cell_eqb_neq d k (fun E => H (eq_sym E))).
  unfold dl. destruct (cell_eqb x k) eqn:E1.
  - apply cell_eqb_spec in E1; subst. rewrite (cell_eqb_neq k d H); reflexivity.
  - destruct (cell_eqb x d); reflexivity.
Qed.

Lemma square_value : forall k d, fst k <> fst d -> snd k <> snd d ->
  forall x, bf_value (square_move k d) x = dl k x + dl d x - dl (fst k, snd d) x - dl (fst d, snd k) x.
Proof.
  intros [a b] [e g] H1 H2 [x y]; cbn in *. unfold dl, cell_eqb; cbn.
  destruct (Nat.eqb_spec x a), (Nat.eqb_spec y b), (Nat.eqb_spec x e), (Nat.eqb_spec y g); subst; cbn;
    try reflexivity; try congruence.
Qed.

(** Row, column and total sums of a move are those of the combination. *)
Lemma pair_sums : forall s k d, in_shape s k -> in_shape s d -> k <> d ->
  let t : table := fun i j => bf_value (pair_move (k, d)) (i, j) in
  (forall i, row_sum s t i = (if Nat.eqb i (fst k) then 1 else 0) - (if Nat.eqb i (fst d) then 1 else 0)) /\
  (forall j, col_sum s t j = (if Nat.eqb j (snd k) then 1 else 0) - (if Nat.eqb j (snd d) then 1 else 0)) /\
  total s t = 0.
Proof.
  intros s k d Hk Hd Hne t.
  assert (E : forall i j, t i j = dlt k i j + -1 * dlt d i j).
  { intros i j; unfold t, dlt; rewrite pair_value by exact Hne; lia. }
  assert (R : forall i, row_sum s t i = (if Nat.eqb i (fst k) then 1 else 0) - (if Nat.eqb i (fst d) then 1 else 0)).
  { intros i. rewrite <- (row_sum_dlt s k i Hk), <- (row_sum_dlt s d i Hd).
    transitivity (row_sum s (fun i j => dlt k i j + -1 * dlt d i j) i);
      [apply zsum_ext; intros; apply E|rewrite row_sum_lin; lia]. }
  split; [exact R|split].
  - intros j. rewrite <- (col_sum_dlt s k j Hk), <- (col_sum_dlt s d j Hd).
    transitivity (col_sum s (fun i j => dlt k i j + -1 * dlt d i j) j);
      [apply zsum_ext; intros; apply E|rewrite col_sum_lin; lia].
  - transitivity (total s (dlt k) - total s (dlt d)); [|rewrite !total_dlt by assumption; lia].
    unfold total. rewrite <- zsum_sub. apply zsum_ext.
    intros i _; rewrite R, row_sum_dlt, row_sum_dlt by assumption; reflexivity.
Qed.

Lemma square_sums : forall s k d, in_shape s k -> in_shape s d -> fst k <> fst d -> snd k <> snd d ->
  let t : table := fun i j => bf_value (square_move k d) (i, j) in
  (forall i, row_sum s t i = 0) /\ (forall j, col_sum s t j = 0) /\ total s t = 0.
Proof.
  intros s k d Hk Hd Hr Hc t.
  assert (Hkd : in_shape s (fst k, snd d)) by (destruct Hk, Hd; split; assumption).
  assert (Hdk : in_shape s (fst d, snd k)) by (destruct Hk, Hd; split; assumption).
  assert (E : forall i j, t i j = (dlt k i j + dlt d i j) - (dlt (fst k, snd d) i j + dlt (fst d, snd k) i j)).
  { intros i j; unfold t, dlt; rewrite square_value by assumption; lia. }
  assert (R : forall i, row_sum s t i = 0).
  { intros i.
    transitivity ((row_sum s (dlt k) i + row_sum s (dlt d) i)
                  - (row_sum s (dlt (fst k, snd d)) i + row_sum s (dlt (fst d, snd k)) i)).
    - unfold row_sum. rewrite <- !zsum_add, <- zsum_sub. apply zsum_ext; intros; apply E.
    - rewrite !row_sum_dlt by assumption. cbn [fst]. lia. }
  split; [exact R|split].
  - intros j.
    transitivity ((col_sum s (dlt k) j + col_sum s (dlt d) j)
                  - (col_sum s (dlt (fst k, snd d)) j + col_sum s (dlt (fst d, snd k)) j)).
    + unfold col_sum. rewrite <- !zsum_add, <- zsum_sub. apply zsum_ext; intros; apply E.
    + rewrite !col_sum_dlt by assumption. cbn [snd]. lia.
  - unfold total; apply zsum_zero; intros; apply R.
Qed.

(** ---- C11 --------------------------------------------------------------- *)

Theorem C11_moves_preserve_constraints : forall s truth m axes fixed c draws fs f,
  build_ct s truth m axes fixed = Ok c ->
  generate_markov_basis c draws = Ok fs -> In f fs ->
  (In A1 axes -> forall i, zsum (nJ s) (fun j => bf_value f (i, j)) = 0) /\
  (In A0 axes -> forall j, zsum (nI s) (fun i => bf_value f (i, j)) = 0) /\
  zsum (nI s) (fun i => zsum (nJ s) (fun j => bf_value f (i, j))) = 0 /\
  NoDup (map fst f) /\
  (forall k v, In (k, v) f ->
     (fst k < nI s)%nat /\ (snd k < nJ s)%nat /\ ~ In k fixed /\ bf_value f k = v /\ (v = 1 \/ v = -1)) /\
  f <> [].
Proof.
  intros s truth m axes fixed c draws fs f Hok Hgen Hin.
  destruct (ax_in A0 axes || ax_in A1 axes) eqn:Hax.
  - destruct (ax_in A0 axes && ax_in A1 axes) eqn:Hb.
    + destruct (generate_both s truth m axes fixed c Hok Hax Hb draws) as [fs' [E HF]].
      rewrite Hgen in E; inversion E; subst fs'.
      destruct (HF f Hin) as [k [d [-> [[Hk Hk'] [[Hd Hd'] [[Hkd Hkd'] [[Hdk Hdk'] [H1 H2]]]]]]]].
      destruct (square_sums s k d Hk Hd ltac:(lia) ltac:(lia)) as [R [C T]].
      split; [intros _; exact R|]. split; [intros _; exact C|]. split; [exact T|].
      assert (V : forall x, bf_value (square_move k d) x = dl k x + dl d x - dl (fst k, snd d) x - dl (fst d, snd k) x)
        by (apply square_value; lia).
      destruct k as [a b], d as [e g]; cbn [fst snd] in *.
      split; [|split; [|discriminate]].
      * cbn. repeat constructor; cbn; intuition congruence || intuition (match goal with H : (_, _) = (_, _) |- _ => inversion H; lia end).
      * intros k v Hv. unfold in_shape in *. cbn [fst snd] in *. cbn in Hv.
        destruct Hv as [Hv|[Hv|[Hv|[Hv|[]]]]]; inversion Hv; subst; cbn [fst snd];
          (split; [lia|split; [lia|split; [assumption|split; [|lia]]]]);
          rewrite V; unfold dl, cell_eqb; cbn [fst snd];
          repeat match goal with |- context [Nat.eqb ?x ?y] => destruct (Nat.eqb_spec x y); try lia end; reflexivity.
    + destruct (generate_one s truth m axes fixed c Hok Hax Hb draws) as [ps [E [_ HI]]].
      rewrite Hgen in E; inversion E; subst fs.
      apply in_map_iff in Hin as [[k d] [<- Hin]].
      apply HI in Hin as [[Hk Hk'] [[Hd Hd'] HP]].
      assert (Hne : k <> d) by (apply partner_lex in HP; unfold lexlt in HP; intros ->; lia).
      destruct (pair_sums s k d Hk Hd Hne) as [R [C T]].
      unfold partner in HP.
      split; [|split; [|split; [exact T|split; [|split; [|discriminate]]]]].
      * intros H1 i. apply ax_in_spec in H1. rewrite H1 in HP, Hb.
        destruct (ax_in A0 axes); [discriminate|]. destruct HP as [HP _].
        specialize (R i). rewrite HP, Z.sub_diag in R. exact R.
      * intros H0 j. apply ax_in_spec in H0. rewrite H0 in HP, Hb.
        destruct (ax_in A1 axes); [discriminate|]. destruct HP as [HP _].
        specialize (C j). rewrite HP, Z.sub_diag in C. exact C.
      * cbn. repeat constructor; cbn; intuition congruence.
      * intros k' v Hv. cbn in Hv.
        rewrite !cell_eqb_refl, (cell_eqb_neq k d Hne), (cell_eqb_neq d k (fun E => Hne (eq_sym E))) in Hv.
        unfold in_shape in *.
        destruct Hv as [Hv|[Hv|[]]]; inversion Hv; subst; rewrite pair_value by exact Hne;
          rewrite dl_refl, dl_neq by congruence; repeat split; try tauto; try (left; reflexivity); try (right; reflexivity).
  - exfalso. unfold generate_markov_basis in Hgen.
    destruct (build_shape _ _ _ _ _ _ Hok) as [_ [_ [_ [E _]]]].
    rewrite E, constrained_axes_2d_eq in Hgen.
    apply orb_false_iff in Hax as [H0 H1]. rewrite H0, H1 in Hgen.
    destruct (ax_in A01 axes); discriminate.
Qed.
Print Assumptions C11_moves_preserve_constraints.

Example C11_nonvacuous : exists c fs,
  build_ct (Shape 3 3) (fun _ _ => 5) (axis_margin (Shape 3 3) (fun _ _ => 5)) [A0; A1] [(2, 2)%nat] = Ok c /\
  generate_markov_basis c (fun n => n) = Ok fs /\
  fs = [square_move (0, 0)%nat (1, 1)%nat; square_move (0, 1)%nat (1, 2)%nat; square_move (1, 0)%nat (2, 1)%nat].
Proof. eexists; eexists. split; [reflexivity|split; reflexivity]. Qed.

(** Generation never fails for a constraint set with row or column totals, and
    refuses the others. *)
Theorem C11_generation_succeeds_iff : forall s truth m axes fixed c draws,
  build_ct s truth m axes fixed = Ok c ->
  (is_ok (generate_markov_basis c draws) = true <-> In A0 axes \/ In A1 axes).
Proof.
  intros s truth m axes fixed c draws Hok. rewrite <- !ax_in_spec, <- orb_true_iff.
  destruct (ax_in A0 axes || ax_in A1 axes) eqn:Hax.
  - split; [reflexivity|intros _].
    destruct (ax_in A0 axes && ax_in A1 axes) eqn:Hb.
    + destruct (generate_both s truth m axes fixed c Hok Hax Hb draws) as [fs' [-> _]]; reflexivity.
    + destruct (generate_one s truth m axes fixed c Hok Hax Hb draws) as [fs' [-> _]]; reflexivity.
  - unfold generate_markov_basis. destruct (build_shape _ _ _ _ _ _ Hok) as [_ [_ [_ [E _]]]].
    rewrite E, constrained_axes_2d_eq.
    apply orb_false_iff in Hax as [H0 H1]. rewrite H0, H1. destruct (ax_in A01 axes); cbn; split; discriminate.
Qed.
Print Assumptions C11_generation_succeeds_iff.
