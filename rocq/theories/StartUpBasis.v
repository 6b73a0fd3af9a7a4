(** Properties of StartUp: C147, the stored Markov basis. *)
From Coq Require Import List String Ascii ZArith Bool Arith Lia DecimalString DecimalNat.
From Verif Require Import Base PyMonad Tables TablesProps MarkovBasis MarkovBasisProps Inputs InputsProps StartUp StartUpProps.
Import ListNotations.
Open Scope string_scope.
Open Scope Z_scope.
Open Scope nat_scope.
Open Scope list_scope.

(** * The name of the file *)

(** [free_of c s]: the character does not occur. *)
Fixpoint free_of (c : ascii) (s : string) : Prop :=
  match s with EmptyString => True | String a r => a <> c /\ free_of c r end.

Lemma cut_at : forall c a b r r', free_of c a -> free_of c b ->
  (a ++ String c r = b ++ String c r')%string -> a = b /\ r = r'.
Proof.
  intros c a. induction a as [|x a IH]; intros [|y b] r r' A B H; cbn in *.
  - inversion H. auto.
  - inversion H; subst. destruct B; congruence.
  - inversion H; subst. destruct A; congruence.
  - inversion H; subst. destruct (IH b r r') as [-> ->]; tauto.
Qed.
Lemma digits_free : forall c d, (forall n, n < 10 -> c <> ascii_of_nat (48 + n)) -> free_of c (NilZero.string_of_uint d).
Proof.
  intros c d H. assert (G : forall d, free_of c (NilEmpty.string_of_uint d)).
  { clear d. assert (D : forall x, x = "0"%char \/ x = "1"%char \/ x = "2"%char \/ x = "3"%char \/ x = "4"%char \/
      x = "5"%char \/ x = "6"%char \/ x = "7"%char \/ x = "8"%char \/ x = "9"%char -> x <> c).
    { intros x K E. subst x.
      destruct K as [K|[K|[K|[K|[K|[K|[K|[K|[K|K]]]]]]]]].
      - apply (H 0); [lia|assumption]. - apply (H 1); [lia|assumption]. - apply (H 2); [lia|assumption].
      - apply (H 3); [lia|assumption]. - apply (H 4); [lia|assumption]. - apply (H 5); [lia|assumption].
      - apply (H 6); [lia|assumption]. - apply (H 7); [lia|assumption]. - apply (H 8); [lia|assumption].
      - apply (H 9); [lia|assumption]. }
    induction d; cbn [NilEmpty.string_of_uint free_of]; [exact I|..]; (split; [apply D; tauto|assumption]). }
  destruct d; try apply G. cbn. split; [|exact I]. intro E. apply (H 0); [lia|]. now symmetry.
Qed.
Lemma decimal_free : forall c n, (forall k, k < 10 -> c <> ascii_of_nat (48 + k)) -> free_of c (decimal n).
Proof. intros c n H. now apply digits_free. Qed.

Lemma axes_text_inj : forall l l' : list ax,
  (join_text "_" (map ax_text (filter (fun a => ax_in a l) all_axes)) ++ "_preserved_markov_basis.gzip.json")%string =
  (join_text "_" (map ax_text (filter (fun a => ax_in a l') all_axes)) ++ "_preserved_markov_basis.gzip.json")%string ->
  forall a, ax_in a l = ax_in a l'.
Proof.
  intros l l' H. unfold all_axes in H. cbn [filter] in H.
  destruct (ax_in A0 l) eqn:E0, (ax_in A01 l) eqn:E01, (ax_in A1 l) eqn:E1,
    (ax_in A0 l') eqn:F0, (ax_in A01 l') eqn:F01, (ax_in A1 l') eqn:F1;
    cbn in H; try discriminate; intros [| |]; congruence.
Qed.

(** Two tables share a basis file exactly when they have the same dimensions
    and the same constrained margins: the fixed cells do not count. *)
Theorem C147_file_shared_exactly : forall c c',
  basis_name c = basis_name c' <->
  nI (ct_shape c) = nI (ct_shape c') /\ nJ (ct_shape c) = nJ (ct_shape c') /\
  (forall a, In a (ct_caxes c) <-> In a (ct_caxes c')).
Proof.
  intros c c'. unfold basis_name. split.
  - intro H. apply sapp_inj in H.
    apply cut_at in H as [H1 H]; [| |].
    2, 3: apply decimal_free; intros k K; do 10 (destruct k as [|k]; [discriminate|]); lia.
    apply decimal_inj in H1. cbn [append] in H.
    apply cut_at in H as [H2 H].
    2, 3: apply decimal_free; intros k K; do 10 (destruct k as [|k]; [discriminate|]); lia.
    apply decimal_inj in H2. split; [assumption|]. split; [assumption|].
    inversion H as [K]. intro a. rewrite <- !ax_in_spec. rewrite (axes_text_inj _ _ K a). reflexivity.
  - intros (-> & -> & A). assert (E : forall a, ax_in a (ct_caxes c) = ax_in a (ct_caxes c')).
    { intro a. apply eq_true_iff_eq. rewrite !ax_in_spec. apply A. }
    assert (filter (fun a => ax_in a (ct_caxes c)) all_axes = filter (fun a => ax_in a (ct_caxes c')) all_axes) as ->.
    { apply filter_ext. exact E. }
    reflexivity.
Qed.
Print Assumptions C147_file_shared_exactly.

(** * Moves *)
Local Open Scope Z_scope.

(** For a move generated for a table without fixed cells, the admissibility
    test of a table with the same margins only looks at the fixed cells. *)
Lemma admissible_iff : forall s truth m truth' m' axes fixed c c' draws fs f,
  build_ct s truth m axes [] = Ok c -> build_ct s truth' m' axes fixed = Ok c' ->
  generate_markov_basis c draws = Ok fs -> In f fs ->
  (basis_function_admissible c' f = true <-> forall k, In k fixed -> bf_value f k = 0).
Proof.
  intros s truth m truth' m' axes fixed c c' draws fs f Hc Hc' Hg Hin.
  destruct (C11_moves_preserve_constraints s truth m axes [] c draws fs f Hc Hg Hin) as (R & C & T & ND & V & NE).
  destruct (build_shape _ _ _ _ _ _ Hc') as (Es & _ & _ & Ea & Ef).
  unfold basis_function_admissible. rewrite Es, Ea, Ef.
  assert (M : forallb (Z.eqb 0) (flat_map (axis_margin s (fun i j => bf_value f (i, j))) (constrained_axes_2d axes)) = true).
  { apply forallb_forall. intros x X. apply in_flat_map in X as (a & A & X).
    apply Z.eqb_eq. symmetry. destruct (C02_two_way_closure axes) as (Q0 & Q1 & _).
    assert (K : (a = A0 -> In A0 axes) /\ (a = A1 -> In A1 axes)).
    { split; intros ->; tauto. }
    destruct K as [K0 K1]. destruct a; cbn [axis_margin] in X.
    - apply in_map_iff in X as (j & <- & _). apply C. now apply K0.
    - destruct X as [<-|[]]. exact T.
    - apply in_map_iff in X as (i & <- & _). apply R. now apply K1. }
  assert (N : existsb (fun k => negb (bf_value f (fst k, snd k) =? 0)) (all_cells s) = true).
  { apply existsb_exists. destruct f as [|[k v] f]; [congruence|].
    destruct (V k v (or_introl eq_refl)) as (A & B & _ & E & D). exists k. split; [apply all_cells_in; split; assumption|].
    destruct k as [i j]. cbn [fst snd] in *. rewrite E. destruct D as [-> | ->]; reflexivity. }
  rewrite M, N. cbn [andb]. rewrite forallb_forall. split.
  - intros H k K. specialize (H k K). destruct k. cbn [fst snd] in H. now apply Z.eqb_eq.
  - intros H k K. destruct k. cbn [fst snd]. apply Z.eqb_eq. now apply H.
Qed.

Lemma no_space_strip : forall a, free_of (ascii_of_nat 32) a -> strip_spaces a = a.
Proof.
  induction a as [|x a IH]; cbn [strip_spaces free_of]; [reflexivity|]. intros [N H].
  rewrite (IH H). destruct (Ascii.eqb_spec x (ascii_of_nat 32)); [contradiction|reflexivity].
Qed.
Lemma free_app : forall c a b, free_of c a -> free_of c b -> free_of c (a ++ b)%string.
Proof. induction a as [|x a IH]; cbn; intros b H K; [assumption|]. split; [tauto|]. now apply IH. Qed.
Ltac no_spaces := repeat (apply free_app); try (cbn; repeat split; discriminate).

Lemma name_no_space : forall c, free_of (ascii_of_nat 32) (basis_name c).
Proof.
  intro c. unfold basis_name.
  assert (D : forall n, free_of (ascii_of_nat 32) (decimal n)).
  { intro n. apply decimal_free. intros k K. do 10 (destruct k as [|k]; [discriminate|]). lia. }
  repeat (apply free_app; [first [apply D | cbn; repeat split; discriminate]|]).
  unfold all_axes. cbn [filter].
  apply free_app; [|cbn; repeat split; discriminate].
  destruct (ax_in A0 (ct_caxes c)), (ax_in A01 (ct_caxes c)), (ax_in A1 (ct_caxes c)); cbn; repeat split; discriminate.
Qed.

Lemma export_ok : forall out c fs d, out <> "" -> free_of (ascii_of_nat 32) out ->
  aget (basis_dir out ++ basis_name c)%string (b_files d) = None ->
  exists d', export_basis out c fs d = Ok d' /\ In (basis_dir out) (b_dirs d') /\
    b_files d' = aset (basis_dir out ++ basis_name c)%string fs (b_files d).
Proof.
  intros out c fs d NE NS A. unfold export_basis.
  destruct (String.eqb_spec out ""); [contradiction|].
  assert (SD : strip_spaces (basis_dir out) = basis_dir out).
  { apply no_space_strip. unfold basis_dir. apply free_app; [assumption|]. cbn; repeat split; discriminate. }
  assert (SF : strip_spaces (basis_dir out ++ basis_name c) = (basis_dir out ++ basis_name c)%string).
  { apply no_space_strip. apply free_app; [|apply name_no_space].
    unfold basis_dir. apply free_app; [assumption|]. cbn; repeat split; discriminate. }
  cbv zeta. rewrite SF, SD, A.
  assert (M : memb (basis_dir out) (if memb (basis_dir out) (b_dirs d) then b_dirs d else basis_dir out :: b_dirs d) = true).
  { destruct (memb (basis_dir out) (b_dirs d)) eqn:E; [exact E|]. unfold memb. cbn [existsb].
    now rewrite String.eqb_refl. }
  rewrite M. eexists. split; [reflexivity|]. cbn [b_dirs b_files]. split; [|reflexivity].
  destruct (memb (basis_dir out) (b_dirs d)) eqn:E; [|now left]. unfold memb in E.
  apply existsb_exists in E as (x & I & X). apply String.eqb_eq in X. now subst.
Qed.
Lemma import_ok : forall out c fs d, out <> "" -> In (basis_dir out) (b_dirs d) ->
  aget (basis_dir out ++ basis_name c)%string (b_files d) = Some fs ->
  import_basis out c d = Some (if Nat.ltb 0 (List.length (ct_fixed c)) then update_markov_basis c fs else fs).
Proof.
  intros out c fs d NE I A. unfold import_basis. destruct (String.eqb_spec out ""); [contradiction|].
  cbv zeta. rewrite A. assert (memb (basis_dir out) (b_dirs d) = true) as ->; [|reflexivity].
  unfold memb. apply existsb_exists. exists (basis_dir out). split; [assumption|apply String.eqb_refl].
Qed.

(** A basis stored by a run without fixed cells serves every later table of the
    same dimensions and margins: the moves read from the file are exactly those
    the generator makes for it, whatever its fixed cells (one family of margins
    fixed). *)
Theorem C147_reused_exact_partial : forall s truth m truth' m' axes fixed c c' draws draws' fs out d,
  (In A0 axes /\ ~ In A1 axes) \/ (In A1 axes /\ ~ In A0 axes) ->
  build_ct s truth m axes [] = Ok c -> build_ct s truth' m' axes fixed = Ok c' ->
  generate_markov_basis c draws = Ok fs ->
  out <> "" -> free_of (ascii_of_nat 32) out ->
  aget (basis_dir out ++ basis_name c)%string (b_files d) = None ->
  exists d' read made,
    export_basis out c fs d = Ok d' /\ import_basis out c' d' = Some read /\
    generate_markov_basis c' draws' = Ok made /\ (forall f, In f read <-> In f made).
Proof.
  intros s truth m truth' m' axes fixed c c' draws draws' fs out d Hax Hc Hc' Hg NE NS A.
  destruct (export_ok out c fs d NE NS A) as (d' & X & I & F).
  assert (EN : basis_name c' = basis_name c).
  { apply C147_file_shared_exactly.
    destruct (build_shape _ _ _ _ _ _ Hc) as (-> & _ & _ & -> & _).
    destruct (build_shape _ _ _ _ _ _ Hc') as (-> & _ & _ & -> & _). repeat split; auto. }
  assert (G : aget (basis_dir out ++ basis_name c')%string (b_files d') = Some fs).
  { rewrite EN, F. apply aget_aset_same. }
  pose proof (import_ok out c' fs d' NE I G) as R.
  assert (B1 : ax_in A0 axes || ax_in A1 axes = true).
  { apply orb_true_iff. rewrite !ax_in_spec. tauto. }
  assert (B2 : ax_in A0 axes && ax_in A1 axes = false).
  { apply andb_false_iff. rewrite <- !not_true_iff_false, !ax_in_spec. tauto. }
  destruct (generate_one s truth m axes [] c Hc B1 B2 draws) as (ps & E & _ & HP).
  destruct (generate_one s truth' m' axes fixed c' Hc' B1 B2 draws') as (ps' & E' & _ & HP').
  rewrite Hg in E. inversion E; subst fs.
  eexists d', _, (map pair_move ps'). split; [exact X|]. split; [exact R|]. split; [exact E'|].
  assert (Ff : ct_fixed c' = fixed) by apply (build_shape _ _ _ _ _ _ Hc').
  assert (PT : forall k dd, In (k, dd) ps -> k <> dd).
  { intros k dd K. apply HP in K as (_ & _ & P). apply partner_lex in P. unfold lexlt in P. intros ->. lia. }
  assert (S1 : forall f, In f (map pair_move ps') -> In f (map pair_move ps)).
  { intros f H. apply in_map_iff in H as ((k & dd) & <- & H). apply in_map.
    apply HP' in H as ((K1 & _) & (K2 & _) & P). apply HP. split; [split; [exact K1|intros []]|].
    split; [split; [exact K2|intros []]|exact P]. }
  (* a move made for the free table is made for the other iff it avoids its fixed cells *)
  assert (S2 : forall f, In f (map pair_move ps) ->
            ((forall k, In k fixed -> bf_value f k = 0) <-> In f (map pair_move ps'))).
  { intros f H. split.
    - intro Z. apply in_map_iff in H as ((k & dd) & <- & H). apply in_map. pose proof (PT k dd H) as N.
      apply HP in H as ((K1 & _) & (K2 & _) & P). apply HP'. split; [split; [exact K1|]|split; [split; [exact K2|]|exact P]].
      + intro Q. specialize (Z k Q). rewrite pair_value in Z by assumption. rewrite dl_refl, dl_neq in Z; [lia|]. assumption.
      + intro Q. specialize (Z dd Q). rewrite pair_value in Z by assumption. rewrite dl_refl, dl_neq in Z; [lia|].
        intro Y; now apply N.
    - intros Q. apply in_map_iff in Q as ((k & dd) & <- & Q). intros x X0.
      assert (N : k <> dd). { apply HP' in Q as (_ & _ & P). apply partner_lex in P. unfold lexlt in P. intros ->. lia. }
      apply HP' in Q as ((_ & K1) & (_ & K2) & _). rewrite pair_value by assumption.
      rewrite !dl_neq; [reflexivity| |]; intros ->; contradiction. }
  intro f. rewrite Ff. destruct (Nat.ltb_spec 0 (List.length fixed)) as [L|L].
  - unfold update_markov_basis. rewrite filter_In. split.
    + intros [H1 H2]. apply S2; [assumption|].
      apply (admissible_iff s truth m truth' m' axes fixed c c' draws _ f Hc Hc' Hg H1). exact H2.
    + intro H. pose proof (S1 f H) as H1. split; [assumption|].
      apply (admissible_iff s truth m truth' m' axes fixed c c' draws _ f Hc Hc' Hg H1). now apply S2.
  - split.
    + intro H. apply S2; [assumption|]. intros k K. destruct fixed; [contradiction|cbn in L; lia].
    + apply S1.
Qed.
Print Assumptions C147_reused_exact_partial.

(** Reading never yields a move that breaks a fixed cell or a fixed margin of
    the table that reads, also when both families of margins are fixed. *)
Theorem C147_read_moves_safe : forall s truth m truth' m' axes fixed c c' draws fs out d read f,
  build_ct s truth m axes [] = Ok c -> build_ct s truth' m' axes fixed = Ok c' ->
  generate_markov_basis c draws = Ok fs ->
  aget (basis_dir out ++ basis_name c)%string (b_files d) = Some fs ->
  import_basis out c' d = Some read -> In f read ->
  (In A1 axes -> forall i, zsum (nJ s) (fun j => bf_value f (i, j)) = 0) /\
  (In A0 axes -> forall j, zsum (nI s) (fun i => bf_value f (i, j)) = 0) /\
  (forall k, In k fixed -> bf_value f k = 0).
Proof.
  intros s truth m truth' m' axes fixed c c' draws fs out d read f Hc Hc' Hg A R H.
  assert (EN : basis_name c' = basis_name c).
  { apply C147_file_shared_exactly.
    destruct (build_shape _ _ _ _ _ _ Hc) as (-> & _ & _ & -> & _).
    destruct (build_shape _ _ _ _ _ _ Hc') as (-> & _ & _ & -> & _). repeat split; auto. }
  unfold import_basis in R. destruct (String.eqb out ""); [discriminate|]. cbv zeta in R. rewrite EN, A in R.
  destruct (memb (basis_dir out) (b_dirs d)); [|discriminate].
  assert (Ff : ct_fixed c' = fixed) by apply (build_shape _ _ _ _ _ _ Hc'). rewrite Ff in R.
  assert (K : In f fs /\ forall k, In k fixed -> bf_value f k = 0).
  { destruct (Nat.ltb_spec 0 (List.length fixed)) as [L|L]; injection R as <-.
    - unfold update_markov_basis in H. apply filter_In in H as [H1 H2]. split; [assumption|].
      apply (admissible_iff s truth m truth' m' axes fixed c c' draws fs f Hc Hc' Hg H1). exact H2.
    - split; [assumption|]. intros k K. destruct fixed; [contradiction|cbn in L; lia]. }
  destruct K as [K Z].
  destruct (C11_moves_preserve_constraints s truth m axes [] c draws fs f Hc Hg K) as (R1 & C1 & _). auto.
Qed.
Print Assumptions C147_read_moves_safe.

(** A file that exists is never changed. *)
Theorem C147_never_overwritten : forall out c fs d d', export_basis out c fs d = Ok d' ->
  forall q old, aget q (b_files d) = Some old -> aget q (b_files d') = Some old.
Proof.
  intros out c fs d d' H q old A. unfold export_basis in H. destruct (String.eqb out ""); [now inversion H; subst|].
  cbv zeta in H. destruct (aget (strip_spaces (basis_dir out ++ basis_name c)) (b_files d)) eqn:E.
  - inversion H; subst. exact A.
  - destruct (memb _ _) in H; [|discriminate]. inversion H; subst. cbn [b_files].
    rewrite aget_aset_other; [assumption|]. intros ->. congruence.
Qed.
Print Assumptions C147_never_overwritten.

(** But a first run with fixed cells leaves a basis that lacks moves, which a
    later run without fixed cells then reads as its own. *)
Definition square22 (fixed : list cell) : res ct :=
  build_ct (Shape 2 3) (fun _ _ => 1) (axis_margin (Shape 2 3) (fun _ _ => 1)) [A1] fixed.
Theorem C147_fixed_first_refuted : exists c c' fs d' read made,
  square22 [(0, 0)%nat] = Ok c /\ square22 [] = Ok c' /\
  generate_markov_basis c (fun n => n) = Ok fs /\ export_basis "out" c fs (mkbstore [] []) = Ok d' /\
  import_basis "out" c' d' = Some read /\ generate_markov_basis c' (fun n => n) = Ok made /\
  In (pair_move ((0, 0), (0, 1))%nat) made /\ ~ In (pair_move ((0, 0), (0, 1))%nat) read.
Proof.
  do 6 eexists. split; [vm_compute; reflexivity|]. split; [vm_compute; reflexivity|].
  split; [vm_compute; reflexivity|]. split; [vm_compute; reflexivity|]. split; [vm_compute; reflexivity|].
  split; [vm_compute; reflexivity|]. split; [vm_compute; now left|].
  vm_compute. intros H. repeat (destruct H as [H|H]; [discriminate|]). exact H.
Qed.
Print Assumptions C147_fixed_first_refuted.

(** An output directory whose name holds a space: the export fails, or lands in
    another directory where it is never found. *)
Theorem C147_space_refuted : exists c fs,
  square22 [] = Ok c /\ generate_markov_basis c (fun n => n) = Ok fs /\
  export_basis "my out" c fs (mkbstore [] []) = Raise EExn /\
  (exists d', export_basis "my out" c fs (mkbstore ["myout/markov_basis/"] []) = Ok d' /\
     b_files d' <> [] /\ import_basis "my out" c d' = None).
Proof.
  do 2 eexists. split; [vm_compute; reflexivity|]. split; [vm_compute; reflexivity|].
  split; [vm_compute; reflexivity|]. eexists. split; [vm_compute; reflexivity|].
  split; [vm_compute; discriminate|vm_compute; reflexivity].
Qed.
Print Assumptions C147_space_refuted.

Example C147_nonvacuous : exists c c' fs d' read,
  square22 [] = Ok c /\ build_ct (Shape 2 3) (fun _ _ => 2) (axis_margin (Shape 2 3) (fun _ _ => 2)) [A1] [(1, 2)%nat] = Ok c' /\
  generate_markov_basis c (fun n => n) = Ok fs /\ export_basis "out" c fs (mkbstore [] []) = Ok d' /\
  import_basis "out" c' d' = Some read /\ List.length fs = 6%nat /\ List.length read = 4%nat /\
  basis_name c = "table_2x3_axes_(0,1)_(1,)_preserved_markov_basis.gzip.json".
Proof.
  do 5 eexists. split; [vm_compute; reflexivity|]. split; [vm_compute; reflexivity|].
  split; [vm_compute; reflexivity|]. split; [vm_compute; reflexivity|]. split; [vm_compute; reflexivity|].
  repeat split; vm_compute; reflexivity.
Qed.
