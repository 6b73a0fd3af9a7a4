(** C137-C140: naming, finding and ordering experiment directories. *)
From Coq Require Import List String Ascii QArith Bool Arith Lia Permutation Sorted.
From Verif Require Import Base PyMonad OutputSearch.
Import ListNotations.
Open Scope string_scope.
Open Scope nat_scope.
Open Scope list_scope.

(** ---- Specification ------------------------------------------------------ *)

(** A date that exists, written with a four-digit year. *)
Definition real_moment (s : stamp) : Prop :=
  1 <= month s <= 12 /\ 1 <= day s <= 31 /\ (month s = 2 -> day s <= 29) /\
  1000 <= year s < 10 * 1000 /\ hour s < 24 /\ minute s < 60 /\ second s < 60.

(** The data files: what the sample file of a sweep in a directory contains. *)
Definition store := text -> text -> option nat.
(** open_output_file with mode 'w', outputs.py 991-1001: the file is truncated
    and refilled. *)
Definition save (st : store) (r : run) (sweep : text) (content : nat) : store :=
  fun d s => if teqb d (run_path r) && teqb s sweep then Some content else st d s.

(** ---- Texts --------------------------------------------------------------- *)

Lemma teqb_eq : forall a b, teqb a b = true <-> a = b.
Proof.
  induction a as [|x a IH]; destruct b as [|y b]; cbn [teqb]; split; intros H; try discriminate; auto.
  - apply andb_true_iff in H. destruct H as [H1 H2]. apply Ascii.eqb_eq in H1. apply IH in H2. congruence.
  - inversion H; subst. rewrite Ascii.eqb_refl. apply IH. reflexivity.
Qed.
Lemma teqb_refl : forall a, teqb a a = true. Proof. intros. apply teqb_eq. reflexivity. Qed.

Lemma digit_inj : forall a b, digit a = digit b -> a mod 10 = b mod 10.
Proof.
  intros a b H. unfold digit in H. pose proof (Nat.mod_upper_bound a 10). pose proof (Nat.mod_upper_bound b 10).
  apply (f_equal nat_of_ascii) in H. rewrite !nat_ascii_embedding in H; lia.
Qed.
Lemma pad2_inj : forall a b, a < 100 -> b < 100 -> pad2 a = pad2 b -> a = b.
Proof.
  intros a b Ha Hb H. unfold pad2 in H. inversion H as [[H1 H2]].
  apply digit_inj in H1. apply digit_inj in H2.
  rewrite (Nat.mod_small (a / 10)) in H1 by (apply Nat.div_lt_upper_bound; lia).
  rewrite (Nat.mod_small (b / 10)) in H1 by (apply Nat.div_lt_upper_bound; lia).
  rewrite (Nat.div_mod a 10), (Nat.div_mod b 10) by lia. lia.
Qed.
Lemma pad4_inj : forall a b, a < 10 * 1000 -> b < 10 * 1000 -> pad4 a = pad4 b -> a = b.
Proof.
  intros a b Ha Hb H.
  assert (H1 : digit (a / 1000) = digit (b / 1000)) by exact (f_equal (fun l => nth 0 l zero) H).
  assert (H2 : digit (a / 100) = digit (b / 100)) by exact (f_equal (fun l => nth 1 l zero) H).
  assert (H3 : digit (a / 10) = digit (b / 10)) by exact (f_equal (fun l => nth 2 l zero) H).
  assert (H4 : digit a = digit b) by exact (f_equal (fun l => nth 3 l zero) H).
  apply digit_inj in H1. apply digit_inj in H2. apply digit_inj in H3. apply digit_inj in H4.
  assert (E : forall x, x < 10 * 1000 -> x = 1000 * ((x / 1000) mod 10) + 100 * ((x / 100) mod 10) + 10 * ((x / 10) mod 10) + x mod 10).
  { intros x Hx.
    assert (x / 1000 < 10) by (apply Nat.div_lt_upper_bound; lia).
    rewrite (Nat.mod_small (x / 1000)) by lia.
    replace (x / 1000) with (x / 100 / 10) by (rewrite Nat.div_div by lia; reflexivity).
    replace (x / 100) with (x / 10 / 10) by (rewrite Nat.div_div by lia; reflexivity).
    pose proof (Nat.div_mod x 10 ltac:(lia)) as D1. pose proof (Nat.div_mod (x / 10) 10 ltac:(lia)) as D2. pose proof (Nat.div_mod (x / 10 / 10) 10 ltac:(lia)) as D3. clear - D1 D2 D3. lia. }
  rewrite (E a Ha), (E b Hb), H1, H2, H3, H4. reflexivity.
Qed.

Lemma app_len_inj {A} : forall (a b c d : list A), List.length a = List.length c -> a ++ b = c ++ d -> a = c /\ b = d.
Proof.
  induction a; destruct c; cbn; intros d Hl H; try discriminate; auto.
  inversion H; subst. destruct (IHa b c d) as [-> ->]; auto.
Qed.
Lemma app_tail_inj {A} : forall (a b c d : list A), List.length b = List.length d -> a ++ b = c ++ d -> a = c /\ b = d.
Proof.
  intros a b c d Hl H. apply app_len_inj; auto. apply (f_equal (@List.length A)) in H. rewrite !app_length in H. lia.
Qed.

Lemma stamp_text_length : forall s, List.length (stamp_text s) = 19.
Proof. intros []. reflexivity. Qed.

Lemma stamp_text_inj : forall s t, real_moment s -> real_moment t -> stamp_text s = stamp_text t -> s = t.
Proof.
  intros [d m y h mi s] [d' m' y' h' mi' s'] (A1 & A2 & _ & A4 & A5 & A6 & A7) (B1 & B2 & _ & B4 & B5 & B6 & B7) H.
  cbn [day month year hour minute second] in *.
  unfold stamp_text in H. cbn [day month year hour minute second] in H.
  assert (T : forall (x y : text) c, c :: x = c :: y -> x = y) by (intros x z c E; exact (f_equal (@tl ascii) E)).
  apply app_len_inj in H; [|reflexivity]. destruct H as [Hd H]. apply T in H.
  apply app_len_inj in H; [|reflexivity]. destruct H as [Hm H]. apply T in H.
  apply app_len_inj in H; [|reflexivity]. destruct H as [Hy H]. apply T in H.
  apply app_len_inj in H; [|reflexivity]. destruct H as [Hh H]. apply T in H.
  apply app_len_inj in H; [|reflexivity]. destruct H as [Hmi H]. apply T in H.
  f_equal; [apply pad2_inj | apply pad2_inj | apply pad4_inj | apply pad2_inj | apply pad2_inj | apply pad2_inj]; auto; lia.
Qed.

Lemma experiment_id_tail : forall r, exists p, experiment_id r = p ++ stamp_text (r_start r).
Proof. intros. unfold experiment_id. eexists. rewrite app_assoc. reflexivity. Qed.

Lemma pjoin_tail : forall a b, exists p, pjoin a b = p ++ b.
Proof.
  intros a b. unfold pjoin. destruct (absolute b); [exists []; reflexivity|].
  destruct a as [|c a]; [exists []; reflexivity|]. destruct (ends_slash (c :: a)).
  - exists (c :: a). reflexivity.
  - exists ((c :: a) ++ [slash]). rewrite <- app_assoc. reflexivity.
Qed.

Lemma run_path_tail : forall r, exists p, run_path r = p ++ stamp_text (r_start r).
Proof.
  intros. unfold run_path. destruct (pjoin_tail (pjoin (pjoin (r_out r) (r_dataset r)) (r_group r)) (experiment_id r)) as [p ->].
  destruct (experiment_id_tail r) as [p' ->]. exists (p ++ p'). rewrite app_assoc. reflexivity.
Qed.

(** ---- C137 ---------------------------------------------------------------- *)

(** Experiments started in different seconds never share a directory, whatever
    their configurations. *)
Theorem C137_directories_differ_partial : forall r1 r2,
  real_moment (r_start r1) -> real_moment (r_start r2) -> r_start r1 <> r_start r2 ->
  run_path r1 <> run_path r2.
Proof.
  intros r1 r2 H1 H2 Hne H. destruct (run_path_tail r1) as [p1 E1]. destruct (run_path_tail r2) as [p2 E2].
  rewrite E1, E2 in H. apply app_tail_inj in H; [|rewrite !stamp_text_length; reflexivity].
  destruct H as [_ H]. apply Hne. apply stamp_text_inj; auto.
Qed.
Print Assumptions C137_directories_differ_partial.

(** So the later experiment leaves the samples of the earlier one in place. *)
Theorem C137_samples_kept_partial : forall st r1 r2 sw1 sw2 x1 x2,
  real_moment (r_start r1) -> real_moment (r_start r2) -> r_start r1 <> r_start r2 ->
  save (save st r1 sw1 x1) r2 sw2 x2 (run_path r1) sw1 = Some x1.
Proof.
  intros st r1 r2 sw1 sw2 x1 x2 H1 H2 Hne. unfold save.
  destruct (teqb (run_path r1) (run_path r2)) eqn:E.
  - apply teqb_eq in E. exfalso. revert E. apply C137_directories_differ_partial; auto.
  - rewrite !teqb_refl. reflexivity.
Qed.
Print Assumptions C137_samples_kept_partial.

(** Started in the same second, two experiments that differ in anything the
    name does not record share the directory and the second one destroys the
    samples of the first: e.g. the same type, title and noise level but
    different table proposals. *)
Theorem C137_same_second_refuted : forall st ty K noise p1 p2 title s out ds g sw x1 x2,
  teqb (lower ty) (tx "tablesummariesmcmcconvergence") = false ->
  teqb (lower ty) (tx "table_mcmc_convergence") = false ->
  teqb (lower ty) (tx "table_mcmc") = false ->
  p1 <> p2 ->
  let r1 := mkrun ty K noise p1 title s out ds g in
  let r2 := mkrun ty K noise p2 title s out ds g in
  r1 <> r2 /\ save (save st r1 sw x1) r2 sw x2 (run_path r1) sw = Some x2.
Proof.
  intros st ty K noise p1 p2 title s out ds g sw x1 x2 T1 T2 T3 Hne r1 r2. split; [intros E; inversion E; auto|].
  assert (E : run_path r1 = run_path r2).
  { unfold run_path, experiment_id, r1, r2. cbn [r_type r_K r_noise r_proposal r_title r_start r_out r_dataset r_group].
    rewrite T1, T2, T3. reflexivity. }
  unfold save. rewrite E, !teqb_refl. reflexivity.
Qed.
Print Assumptions C137_same_second_refuted.

Definition ex_stamp (s : nat) : stamp := mkstamp 7 11 2023 9 30 s.
Definition ex_run (t : text) (s : nat) : run :=
  mkrun (tx "JointTableSIM_MCMC") [] (noise_level [] false [SNum (1 # 100)])
    None (Some t) (ex_stamp s) (tx "data/outputs") (tx "cambridge") (tx "exp1").
Example C137_nonvacuous :
  real_moment (r_start (ex_run (tx "base") 5)) /\ real_moment (r_start (ex_run (tx "base") 6)) /\
  r_start (ex_run (tx "base") 5) <> r_start (ex_run (tx "base") 6) /\
  string_of_list_ascii (run_path (ex_run (tx "base") 5)) =
    "data/outputs/cambridge/exp1/JointTableSIM_MCMC_LowNoise_base_07_11_2023_09_30_05".
Proof. repeat split; cbn; try lia; try discriminate; try reflexivity. Qed.

(** The noise level in the name, for an experiment with one numeric sigma that
    is not learnt and without an explicit regime: low exactly when 2/sigma^2 is
    at least 10000. *)
Theorem C137_noise_label : forall q, (0 < q)%Q ->
  (noise_level [] false [SNum q] = tx "Low" <-> (q * q <= 1 # 5000)%Q) /\
  (noise_level [] false [SNum q] = tx "High" <-> ~ (q * q <= 1 # 5000)%Q).
Proof.
  intros q Hq. unfold noise_level, sigma_regime.
  replace (Qeq_bool q 0) with false.
  2:{ symmetry. apply not_true_is_false. intros H. apply Qeq_bool_iff in H. rewrite H in Hq. apply Qlt_irrefl in Hq. exact Hq. }
  assert (Hqq : (0 < q * q)%Q) by (apply Qmult_lt_0_compat; assumption).
  assert (E : Qle_bool 10000 (2 / (q * q)) = true <-> (q * q <= 1 # 5000)%Q).
  { rewrite Qle_bool_iff. split; intros H.
    - apply (Qmult_le_compat_r _ _ (q * q)) in H; [|apply Qlt_le_weak; exact Hqq].
      assert (H2 : (2 / (q * q) * (q * q) == 2)%Q) by (field; intros E; rewrite E in Hqq; apply Qlt_irrefl in Hqq; exact Hqq).
      rewrite H2 in H. setoid_replace (q * q)%Q with ((1 # 10000) * (10000 * (q * q)))%Q by field.
      setoid_replace (1 # 5000)%Q with ((1 # 10000) * 2)%Q by reflexivity.
      rewrite (Qmult_le_l _ _ (1 # 10000)); [exact H | reflexivity].
    - apply Qle_shift_div_l; [exact Hqq|]. setoid_replace 2%Q with (10000 * (1 # 5000))%Q by reflexivity.
      rewrite (Qmult_le_l _ _ 10000); [exact H | reflexivity]. }
  destruct (Qle_bool 10000 (2 / (q * q))) eqn:B.
  - assert (H : (q * q <= 1 # 5000)%Q) by (apply E; reflexivity). split; split; intros X; auto; try (cbn in X; discriminate); tauto.
  - assert (H : ~ (q * q <= 1 # 5000)%Q) by (intros H; apply E in H; discriminate).
    replace (Qle_bool q 0) with false.
    2:{ symmetry. apply not_true_is_false. intros K. apply Qle_bool_iff in K. apply (Qlt_not_le _ _ Hq K). }
    split; split; intros X; auto; try (cbn in X; discriminate); tauto.
Qed.
Print Assumptions C137_noise_label.

(** ---- Regular expressions -------------------------------------------------- *)

(** The texts a pattern stands for. *)
Fixpoint denotes (p : list item) (w : text) : Prop :=
  match p with
  | [] => w = []
  | One a :: p' => exists c w', w = c :: w' /\ amatch a c = true /\ denotes p' w'
  | Star a :: p' => exists u w', w = u ++ w' /\ Forall (fun c => amatch a c = true) u /\ denotes p' w'
  end.

Lemma star_match_spec : forall k a l, star_match k a l = true <->
  exists u v, l = u ++ v /\ Forall (fun c => amatch a c = true) u /\ k v = true.
Proof.
  intros k a. induction l as [|c l IH]; cbn [star_match].
  - rewrite orb_false_r. split.
    + intros H. exists [], []. auto.
    + intros (u & v & E & _ & H). symmetry in E. apply app_eq_nil in E. destruct E as [-> ->]. exact H.
  - rewrite orb_true_iff, andb_true_iff, IH. split.
    + intros [H | [H (u & v & -> & Hu & Hv)]].
      * exists [], (c :: l). auto.
      * exists (c :: u), v. auto.
    + intros (u & v & E & Hu & Hv). destruct u as [|x u]; cbn in E.
      * left. subst v. exact Hv.
      * inversion E; subst. inversion Hu; subst. right. split; auto. exists u, v. auto.
Qed.

Lemma pmatch_spec : forall p l, pmatch p l = true <-> exists w s, l = w ++ s /\ denotes p w.
Proof.
  induction p as [|[a|a] p IH]; intros l; cbn [pmatch denotes].
  - split; auto. intros _. exists [], l. auto.
  - destruct l as [|c l].
    + split; [discriminate|]. intros (w & s & E & c & w' & -> & _). discriminate.
    + rewrite andb_true_iff, IH. split.
      * intros [H (w & s & -> & Hw)]. exists (c :: w), s. split; auto. exists c, w. auto.
      * intros (w & s & E & c' & w' & -> & Ha & Hw). inversion E; subst. split; auto. exists w', s. auto.
  - rewrite star_match_spec. split.
    + intros (u & v & -> & Hu & Hv). apply IH in Hv. destruct Hv as (w & s & -> & Hw).
      exists (u ++ w), s. rewrite app_assoc. split; auto. exists u, w. auto.
    + intros (w & s & -> & u & w' & -> & Hu & Hw). exists u, (w' ++ s). rewrite <- app_assoc. split; auto. split; auto.
      apply IH. exists w', s. auto.
Qed.

Lemma search_spec : forall p l, search p l = true <-> exists a w s, l = a ++ w ++ s /\ denotes p w.
Proof.
  intros p. induction l as [|c l IH]; cbn [search].
  - rewrite orb_false_r, pmatch_spec. split.
    + intros (w & s & E & H). exists [], w, s. auto.
    + intros (a & w & s & E & H). symmetry in E. apply app_eq_nil in E. destruct E as [-> E]. exists w, s. auto.
  - rewrite orb_true_iff, pmatch_spec, IH. split.
    + intros [(w & s & E & H) | (a & w & s & -> & H)].
      * exists [], w, s. auto.
      * exists (c :: a), w, s. auto.
    + intros (a & w & s & E & H). destruct a as [|x a]; cbn in E.
      * left. exists w, s. auto.
      * inversion E; subst. right. exists a, w, s. auto.
Qed.

Lemma denotes_app : forall p1 p2 w1 w2, denotes p1 w1 -> denotes p2 w2 -> denotes (p1 ++ p2) (w1 ++ w2).
Proof.
  induction p1 as [|[a|a] p1 IH]; intros p2 w1 w2 H1 H2; cbn [denotes app] in *.
  - subst. exact H2.
  - destruct H1 as (c & w & -> & Ha & H). exists c, (w ++ w2). auto.
  - destruct H1 as (u & w & -> & Hu & H). exists u, (w ++ w2). rewrite app_assoc. auto.
Qed.

Lemma denotes_app_inv : forall p1 p2 w, denotes (p1 ++ p2) w ->
  exists w1 w2, w = w1 ++ w2 /\ denotes p1 w1 /\ denotes p2 w2.
Proof.
  induction p1 as [|[a|a] p1 IH]; intros p2 w H; cbn [denotes app] in *.
  - exists [], w. auto.
  - destruct H as (c & w' & -> & Ha & H). apply IH in H. destruct H as (w1 & w2 & -> & H1 & H2).
    exists (c :: w1), w2. split; [reflexivity|]. split; auto. exists c, w1. auto.
  - destruct H as (u & w' & -> & Hu & H). apply IH in H. destruct H as (w1 & w2 & -> & H1 & H2).
    exists (u ++ w1), w2. rewrite app_assoc. split; auto. split; auto. exists u, w1. auto.
Qed.

Definition starts_star (l : text) : bool := match l with c :: _ => Ascii.eqb c star | [] => false end.

Lemma parse_app : forall x y, starts_star y = false ->
  parse (x ++ y) = rbind (parse x) (fun p => rbind (parse y) (fun q => Ok (p ++ q))).
Proof.
  intros x. remember (List.length x) as n eqn:Hn. revert x Hn.
  induction n as [n IH] using lt_wf_ind. intros x Hn y Hy.
  destruct x as [|c x].
  - cbn. destruct (parse y); reflexivity.
  - cbn [app parse]. destruct (Ascii.eqb c star) eqn:Ec; [reflexivity|].
    destruct x as [|c' x].
    + cbn [app]. destruct y as [|d y]; [reflexivity|]. cbn [starts_star] in Hy. rewrite Hy. reflexivity.
    + cbn [app]. destruct (Ascii.eqb c' star) eqn:Ec'.
      * rewrite (IH (List.length x)); [|subst n; cbn; lia|reflexivity|exact Hy].
        destruct (parse x); [|reflexivity]. cbn [rbind]. destruct (parse y); reflexivity.
      * change (c' :: x ++ y) with ((c' :: x) ++ y).
        rewrite (IH (List.length (c' :: x))); [|subst n; cbn; lia|reflexivity|exact Hy].
        destruct (parse (c' :: x)); [|reflexivity]. cbn [rbind]. destruct (parse y); reflexivity.
Qed.

(** Texts without the characters that are special in a pattern (the dot, which
    stands for any character, is allowed) and without newlines. *)
Definition special_chars : text := tx "[](){}+?^$|\*" ++ [newline].
Definition plain (t : text) : Prop := forall c, In c t -> ~ In c special_chars.
Definition nodot (t : text) : Prop := ~ In dot t.

Definition plainb (t : text) : bool := forallb (fun c => negb (existsb (Ascii.eqb c) special_chars)) t.
Lemma plainb_plain : forall t, plainb t = true -> plain t.
Proof.
  intros t H c Hc Hin. unfold plainb in H. rewrite forallb_forall in H. specialize (H c Hc).
  apply negb_true_iff in H. assert (existsb (Ascii.eqb c) special_chars = true); [|congruence].
  apply existsb_exists. exists c. split; auto. apply Ascii.eqb_refl.
Qed.

Definition lits (t : text) : list item := map (fun c => One (atom_of c)) t.

Lemma plain_not_star : forall t c, plain t -> In c t -> Ascii.eqb c star = false.
Proof.
  intros t c H Hc. destruct (Ascii.eqb_spec c star); auto. subst. exfalso. apply (H star Hc). cbn. tauto.
Qed.
Lemma plain_app : forall a b, plain (a ++ b) <-> plain a /\ plain b.
Proof.
  intros a b. unfold plain. split.
  - intros H. split; intros c Hc; apply H; apply in_or_app; auto.
  - intros [H1 H2] c Hc. apply in_app_or in Hc. destruct Hc; auto.
Qed.
Lemma plain_cons : forall a b, plain (a :: b) <-> plain [a] /\ plain b.
Proof. intros. apply (plain_app [a] b). Qed.
Lemma plain_starts : forall t, plain t -> starts_star t = false.
Proof. intros [|c t] H; auto. apply (plain_not_star (c :: t)); cbn; auto. Qed.

Lemma parse_plain : forall t, plain t -> parse t = Ok (lits t).
Proof.
  induction t as [|c t IH]; intros H; auto.
  assert (Hc : Ascii.eqb c star = false) by (apply (plain_not_star (c :: t)); cbn; auto).
  apply plain_cons in H. destruct H as [_ H]. specialize (IH H).
  cbn [parse]. rewrite Hc. destruct t as [|c' t]; [reflexivity|].
  rewrite (plain_not_star (c' :: t)) by (cbn; auto). rewrite IH. reflexivity.
Qed.

Lemma amatch_self : forall c, c <> newline -> amatch (atom_of c) c = true.
Proof.
  intros c H. unfold atom_of. destruct (Ascii.eqb c dot).
  - cbn. apply negb_true_iff. apply Ascii.eqb_neq. exact H.
  - apply Ascii.eqb_refl.
Qed.
Lemma plain_not_newline : forall t c, plain t -> In c t -> c <> newline.
Proof. intros t c H Hc E. subst. apply (H newline Hc). unfold special_chars. apply in_or_app. right. cbn. auto. Qed.

Lemma denotes_lits : forall t, plain t -> denotes (lits t) t.
Proof.
  induction t as [|c t IH]; intros H; cbn; auto. exists c, t. split; auto. split.
  - apply amatch_self. apply (plain_not_newline (c :: t)); cbn; auto.
  - apply IH. apply plain_cons in H. tauto.
Qed.
Lemma denotes_lits_inv : forall t w, nodot t -> denotes (lits t) w -> w = t.
Proof.
  induction t as [|c t IH]; intros w Hd H; cbn in H; auto.
  destruct H as (c' & w' & -> & Ha & H). f_equal.
  - unfold atom_of in Ha. destruct (Ascii.eqb_spec c dot); [subst; exfalso; apply Hd; cbn; auto|].
    apply Ascii.eqb_eq in Ha. exact Ha.
  - apply IH; auto. intros K. apply Hd. cbn. auto.
Qed.

Lemma denotes_dotstar : forall w, plain w -> denotes [Star Any] w.
Proof.
  intros w H. exists w, []. rewrite app_nil_r. split; auto. split; [|reflexivity].
  apply Forall_forall. intros c Hc. cbn. apply negb_true_iff. apply Ascii.eqb_neq. apply (plain_not_newline w); auto.
Qed.

(** ---- Sorting -------------------------------------------------------------- *)

Lemma insert_perm {A} (le : A -> A -> bool) : forall x l, Permutation (insert le x l) (x :: l).
Proof.
  induction l as [|y l IH]; cbn [insert]; auto. destruct (le x y); auto.
  rewrite IH. apply perm_swap.
Qed.
Lemma sort_perm {A} (le : A -> A -> bool) : forall l, Permutation (sort le l) l.
Proof. induction l; cbn [sort fold_right]; auto. rewrite insert_perm. constructor. exact IHl. Qed.

Lemma insert_sorted {A} (le : A -> A -> bool) :
  (forall x y, le x y = true \/ le y x = true) -> (forall x y z, le x y = true -> le y z = true -> le x z = true) ->
  forall x l, StronglySorted (fun a b => le a b = true) l -> StronglySorted (fun a b => le a b = true) (insert le x l).
Proof.
  intros Ht Htr x. induction l as [|y l IH]; intros H; cbn [insert].
  - constructor; constructor.
  - inversion H; subst. destruct (le x y) eqn:E.
    + constructor; auto. constructor; auto. eapply Forall_impl; [|exact H3]. intros z Hz. eauto.
    + constructor; [apply IH; auto|]. rewrite Forall_forall in *. intros z Hz.
      apply (Permutation_in _ (insert_perm le x l)) in Hz. destruct Hz as [<- | Hz]; auto.
      destruct (Ht x y); congruence.
Qed.
Lemma sort_sorted {A} (le : A -> A -> bool) :
  (forall x y, le x y = true \/ le y x = true) -> (forall x y z, le x y = true -> le y z = true -> le x z = true) ->
  forall l, StronglySorted (fun a b => le a b = true) (sort le l).
Proof. intros Ht Htr. induction l; cbn; [constructor|]. apply insert_sorted; auto. Qed.

Lemma lexleb_total : forall a b, lexleb a b = true \/ lexleb b a = true.
Proof.
  induction a as [|x a IH]; destruct b as [|y b]; cbn [lexleb]; auto.
  destruct (Nat.ltb_spec x y), (Nat.ltb_spec y x); auto; try lia.
Qed.
Lemma lexleb_trans : forall a b c, lexleb a b = true -> lexleb b c = true -> lexleb a c = true.
Proof.
  induction a as [|x a IH]; intros b c; destruct b as [|y b], c as [|z c]; cbn [lexleb]; auto; try discriminate.
  destruct (Nat.ltb_spec x y), (Nat.ltb_spec y x), (Nat.ltb_spec y z), (Nat.ltb_spec z y), (Nat.ltb_spec x z), (Nat.ltb_spec z x);
    auto; try discriminate; try lia. apply IH.
Qed.

Lemma mapR_inv {A B} (f : A -> res B) : forall l l', mapR f l = Ok l' -> Forall2 (fun a b => f a = Ok b) l l'.
Proof.
  induction l as [|a l IH]; intros l' H; cbn [mapR] in H.
  - inversion H. constructor.
  - destruct (f a) eqn:E; [|discriminate]. cbn [rbind] in H. destruct (mapR f l); [|discriminate].
    inversion H; subst. constructor; auto.
Qed.
Lemma mapR_ok {A B} (f : A -> res B) : forall l, (forall a, In a l -> exists b, f a = Ok b) -> exists l', mapR f l = Ok l'.
Proof.
  induction l as [|a l IH]; intros H; cbn [mapR]; [eauto|].
  destruct (H a (or_introl eq_refl)) as [b ->]. destruct IH as [l' ->]; [intros; apply H; cbn; auto|]. cbn. eauto.
Qed.
Lemma mapR_raise {A B} (f : A -> res B) e : forall l, (forall a x, In a l -> f a = Raise x -> x = e) ->
  forall x, mapR f l = Raise x -> x = e.
Proof.
  induction l as [|a l IH]; intros H x E; cbn [mapR] in E; [discriminate|].
  destruct (f a) eqn:Ea; cbn [rbind] in E.
  - destruct (mapR f l) eqn:El; [discriminate|]. inversion E; subst. apply IH; auto. intros b y Hb. apply H. cbn. auto.
  - inversion E; subst. apply (H a); cbn; auto.
Qed.

Lemma Forall2_map_snd : forall (l : list text) (ks : list (stamp * text)),
  Forall2 (fun a b => rbind (folder_date a) (fun s => Ok (s, a)) = Ok b) l ks ->
  map snd ks = l /\ Forall (fun k => folder_date (snd k) = Ok (fst k)) ks.
Proof.
  induction 1 as [|a b l ks H F [IH1 IH2]]; cbn; [auto|].
  destruct (folder_date a) eqn:E; [|discriminate]. cbn in H. inversion H; subst. cbn. split; [f_equal; auto|].
  constructor; auto.
Qed.

(** by_date returns a rearrangement, earliest first. *)
Lemma by_date_spec : forall l l', by_date l = Ok l' ->
  Permutation l l' /\ (forall x, In x l' -> exists s, folder_date x = Ok s) /\
  StronglySorted (fun x y => forall s t, folder_date x = Ok s -> folder_date y = Ok t -> before s t = true) l'.
Proof.
  intros l l' H. unfold by_date in H. destruct (mapR _ l) as [ks|] eqn:E; [|discriminate]. cbn [rbind] in H.
  inversion H; subst; clear H. apply mapR_inv in E. apply Forall2_map_snd in E. destruct E as [E1 E2].
  set (le := fun a b : stamp * text => before (fst a) (fst b)).
  assert (P : Permutation (sort le ks) ks) by apply sort_perm.
  split; [|split].
  - rewrite <- E1. apply Permutation_map. symmetry. exact P.
  - intros x Hx. apply in_map_iff in Hx. destruct Hx as (k & <- & Hk). apply (Permutation_in _ P) in Hk.
    rewrite Forall_forall in E2. exists (fst k). auto.
  - assert (S : StronglySorted (fun a b => le a b = true) (sort le ks)).
    { apply sort_sorted; unfold le, before; intros; [apply lexleb_total | eapply lexleb_trans; eauto]. }
    assert (F : Forall (fun k => folder_date (snd k) = Ok (fst k)) (sort le ks)).
    { rewrite Forall_forall in *. intros k Hk. apply E2. apply (Permutation_in _ P Hk). }
    clear P. induction S as [|a r S IH Ha]; cbn [map]; constructor.
    + apply IH. inversion F; auto.
    + inversion F as [|? ? F1 F2]; subst. rewrite Forall_forall in *. intros y Hy s t Hs Ht.
      apply in_map_iff in Hy. destruct Hy as (b & <- & Hb). rewrite F1 in Hs. rewrite (F2 b Hb) in Ht.
      inversion Hs; inversion Ht; subst. apply (Ha b Hb).
Qed.

Lemma by_date_ok : forall l, (forall x, In x l -> exists s, folder_date x = Ok s) -> exists l', by_date l = Ok l'.
Proof.
  intros l H. unfold by_date. destruct (mapR_ok (fun p => rbind (folder_date p) (fun s => Ok (s, p))) l) as [ks ->].
  - intros a Ha. destruct (H a Ha) as [s ->]. cbn. eauto.
  - cbn. eauto.
Qed.

(** ---- The search ------------------------------------------------------------ *)

(** [below n p d p' files]: directory [p'] is [d] itself, at [p], or lies at most
    [n] levels below it, and holds [files]. *)
Inductive below : nat -> text -> dir -> text -> list text -> Prop :=
| below_here : forall n p files subs, below n p (Dir files subs) p files
| below_sub : forall n p files subs name d p' files', In (name, d) subs ->
    below n (pjoin p name) d p' files' -> below (S n) p (Dir files subs) p' files'.

Lemma walk_below : forall n p d p' files, In (p', files) (walk n p d) <-> below n p d p' files.
Proof.
  induction n as [|n IH]; intros p [fs subs] p' files; cbn [walk].
  - split.
    + intros [H | []]. inversion H; subst. constructor.
    + intros H. inversion H; subst. left. reflexivity.
  - split.
    + intros [H | H].
      * inversion H; subst. constructor.
      * apply in_flat_map in H. destruct H as ([nm d] & Hin & H). cbn in H. apply IH in H. econstructor; eauto.
    + intros H. inversion H; subst; [left; reflexivity|]. right. apply in_flat_map.
      eexists (_, _). split; eauto. cbn. apply IH. assumption.
Qed.

Lemma has_prefix_spec : forall p l, has_prefix p l = true <-> exists s, l = p ++ s.
Proof.
  induction p as [|x p IH]; intros l; cbn [has_prefix].
  - split; auto. intros _. exists l. reflexivity.
  - destruct l as [|y l]; [split; [discriminate | intros (s & E); discriminate]|].
    rewrite andb_true_iff, IH. split.
    + intros [H (s & ->)]. apply Ascii.eqb_eq in H. subst. exists s. reflexivity.
    + intros (s & E). cbn in E. inversion E; subst. split; [apply Ascii.eqb_refl | exists s; reflexivity].
Qed.
Lemma contains_spec : forall sub l, contains sub l = true <-> exists a b, l = a ++ sub ++ b.
Proof.
  intros sub. induction l as [|c l IH]; cbn [contains].
  - rewrite orb_false_r, has_prefix_spec. split.
    + intros (s & E). exists [], s. exact E.
    + intros (a & b & E). symmetry in E. apply app_eq_nil in E. destruct E as [-> E]. exists b. auto.
  - rewrite orb_true_iff, has_prefix_spec, IH. split.
    + intros [(s & E) | (a & b & ->)]; [exists [], s; exact E | exists (c :: a), b; reflexivity].
    + intros (a & b & E). destruct a as [|x a]; cbn in E; [left; exists b; exact E|].
      inversion E; subst. right. eauto.
Qed.

(** A directory that holds a configuration file, at most two levels below [p]. *)
Definition holds_config (fs : fsys) (p x : text) : Prop :=
  exists d files f a b, fs p = Some d /\ below 2 (rstrip p) d x files /\ In f files /\ f = a ++ tx "config.json" ++ b.

Lemma subdirectories_spec : forall fs p d x, fs p = Some d -> (In x (subdirectories p d) <-> holds_config fs p x).
Proof.
  intros fs p d x Hd. unfold subdirectories. rewrite in_map_iff. split.
  - intros ((x' & files) & E & H). cbn in E. subst x'. apply filter_In in H. destruct H as [H1 H2]. cbn in H2.
    apply existsb_exists in H2. destruct H2 as (f & Hf & Hc). apply contains_spec in Hc. destruct Hc as (a & b & E).
    exists d, files, f, a, b. split; auto. split; auto. apply walk_below. exact H1.
  - intros (d' & files & f & a & b & Hd' & H & Hf & E). rewrite Hd in Hd'. inversion Hd'; subst d'.
    exists (x, files). split; auto. apply filter_In. split; [apply walk_below; exact H|]. cbn [snd].
    apply existsb_exists. exists f. split; auto. apply contains_spec. eauto.
Qed.

(** The directory in which the runs of a dataset are looked for. *)
Definition search_root (q : query) (ds : text) : text := pjoin (pjoin (q_out q) ds) (q_group q).

Definition candidates (fs : fsys) (q : query) : list text :=
  flat_map (fun ds => match fs (search_root q ds) with Some d => subdirectories (search_root q ds) d | None => [] end) (q_datasets q).

Lemma candidates_spec : forall fs q x, In x (candidates fs q) <->
  exists ds, In ds (q_datasets q) /\ holds_config fs (search_root q ds) x.
Proof.
  intros fs q x. unfold candidates. rewrite in_flat_map. split.
  - intros (ds & Hds & H). destruct (fs (search_root q ds)) eqn:E; [|destruct H].
    exists ds. split; auto. eapply subdirectories_spec; eauto.
  - intros (ds & Hds & H). exists ds. split; auto. destruct (fs (search_root q ds)) eqn:E.
    + eapply subdirectories_spec; eauto.
    + destruct H as (d & ? & ? & ? & ? & E' & _). congruence.
Qed.

Lemma find_search : forall fs ex q, q_directories q = [] -> find_folders fs ex q =
  rbind (mapR parse (folder_patterns q)) (fun ps =>
  let hits := filter (found_by ps) (sort tleb (candidates fs q)) in
  rbind (match q_exclude q, hits with _ :: _, _ :: _ => Raise EType | _, _ => by_date hits end)
   (fun m => match m with [] => Raise EExn | _ => Ok m end)).
Proof.
  intros fs ex q H. unfold find_folders. rewrite H.
  destruct (mapR parse (folder_patterns q)); reflexivity.
Qed.

Lemma in_patterns : forall q p, In p (folder_patterns q) <->
  exists ds ty ti dt, In ds (q_datasets q) /\ In ty (q_types q) /\ In ti (q_titles q) /\
    In dt (match q_dates q with [] => [[]] | l => l end) /\ p = folder_pattern ds (q_group q) ty ti dt.
Proof.
  intros q p. unfold folder_patterns. rewrite in_flat_map. split.
  - intros (ds & Hds & H). apply in_flat_map in H. destruct H as (ty & Hty & H).
    apply in_flat_map in H. destruct H as (ti & Hti & H). apply in_map_iff in H. destruct H as (dt & <- & Hdt).
    exists ds, ty, ti, dt. auto.
  - intros (ds & ty & ti & dt & Hds & Hty & Hti & Hdt & ->). exists ds. split; auto. apply in_flat_map.
    exists ty. split; auto. apply in_flat_map. exists ti. split; auto. apply in_map_iff. eauto.
Qed.

Lemma Forall2_in_l {A B} (R : A -> B -> Prop) : forall l l' a, Forall2 R l l' -> In a l -> exists b, In b l' /\ R a b.
Proof. induction 1; intros []; subst; [eexists; cbn; eauto|]. destruct (IHForall2 H1) as (b & ? & ?). exists b. cbn. auto. Qed.
Lemma Forall2_in_r {A B} (R : A -> B -> Prop) : forall l l' b, Forall2 R l l' -> In b l' -> exists a, In a l /\ R a b.
Proof. induction 1; intros []; subst; [eexists; cbn; eauto|]. destruct (IHForall2 H1) as (a & ? & ?). exists a. cbn. auto. Qed.

Lemma found_in : forall ps l p, In p ps -> search p l = true -> found_by ps l = true.
Proof.
  intros ps l p Hp H. unfold found_by. destruct ps; auto. apply existsb_exists. exists p. auto.
Qed.

Lemma filter_perm {A} (f : A -> bool) : forall l l', Permutation l l' -> Permutation (filter f l) (filter f l').
Proof.
  induction 1 as [|x l l' P IH|x y l|l l' l'' P1 IH1 P2 IH2]; cbn [filter].
  - constructor.
  - destruct (f x); auto.
  - destruct (f x), (f y); auto. apply perm_swap.
  - etransitivity; eauto.
Qed.

(** What a successful search returns. *)
Lemma find_ok : forall fs ex q L, q_directories q = [] -> find_folders fs ex q = Ok L ->
  exists ps, mapR parse (folder_patterns q) = Ok ps /\ q_exclude q = [] /\
  (forall x, In x L <-> In x (candidates fs q) /\ found_by ps x = true) /\
  Permutation L (filter (found_by ps) (candidates fs q)) /\
  (forall x, In x L -> exists s, folder_date x = Ok s) /\
  StronglySorted (fun x y => forall s t, folder_date x = Ok s -> folder_date y = Ok t -> before s t = true) L /\ L <> [].
Proof.
  intros fs ex q L Hd H. rewrite find_search in H by exact Hd.
  destruct (mapR parse (folder_patterns q)) as [ps|] eqn:E; [|discriminate]. cbn [rbind] in H.
  exists ps. split; auto.
  set (hits := filter (found_by ps) (sort tleb (candidates fs q))) in *.
  assert (P : Permutation hits (filter (found_by ps) (candidates fs q))).
  { unfold hits. apply filter_perm. apply sort_perm. }
  assert (B : exists L', by_date hits = Ok L' /\ q_exclude q = [] /\ L' = L /\ L <> []).
  { destruct hits as [|h hits].
    - exfalso. destruct (q_exclude q); cbn in H; discriminate.
    - destruct (q_exclude q); [|discriminate].
      destruct (by_date (h :: hits)) as [m|] eqn:B; [|discriminate]. cbn [rbind] in H.
      destruct m as [|t m]; inversion H; subst. exists (t :: m). split; auto. split; auto. split; auto. discriminate. }
  destruct B as (L' & B & Hex & -> & Hne). apply by_date_spec in B. destruct B as (P1 & D & S).
  split; auto. split; [|split; [|auto]].
  - intros x. rewrite <- filter_In. split; intros Hx.
    + apply (Permutation_in _ P). apply (Permutation_in _ (Permutation_sym P1) Hx).
    + apply (Permutation_in _ P1). apply (Permutation_in _ (Permutation_sym P) Hx).
  - rewrite <- P1. exact P.
Qed.

(** ---- C138 ------------------------------------------------------------------ *)

Definition prefix_of (a b : text) : Prop := exists c, b = a ++ c.
(** Not empty, neither starting nor ending with a slash. *)
Definition clean (t : text) : Prop := t <> [] /\ absolute t = false /\ ends_slash t = false.

(** The query names the dataset, group, (a prefix of) the type and, when
    restricted, (prefixes of) the title and of the start date of the run. *)
Record asks_for (q : query) (r : run) : Prop := mkasks {
  ask_search : q_directories q = [];
  ask_keep : q_exclude q = [];
  ask_out : q_out q = r_out r;
  ask_group : q_group q = r_group r;
  ask_dataset : In (r_dataset r) (q_datasets q);
  ask_type : exists ty, In ty (q_types q) /\ ty <> [] /\ prefix_of ty (r_type r);
  ask_title : In [] (q_titles q) \/ exists ti t, In ti (q_titles q) /\ r_title r = Some t /\ prefix_of ti t;
  ask_date : q_dates q = [] \/ exists dt, In dt (q_dates q) /\ prefix_of dt (stamp_text (r_start r)) }.

(** The run was written: its directory is there and holds its configuration. *)
Definition stored (fs : fsys) (r : run) : Prop :=
  exists fl subs files sub', fs (pjoin (pjoin (r_out r) (r_dataset r)) (r_group r)) = Some (Dir fl subs) /\
    In (experiment_id r, Dir files sub') subs /\ In (tx "config.json") files.

(** Names without pattern characters; the type does not start with a slash. *)
Definition well_named (r : run) : Prop :=
  clean (r_dataset r) /\ (r_group r = [] \/ clean (r_group r)) /\ absolute (r_type r) = false /\
  plain (r_dataset r) /\ plain (r_group r) /\ plain (experiment_id r).

Definition base (ds g : text) : text :=
  match g with [] => ds ++ [slash] | _ => ds ++ slash :: g ++ [slash] end.

Lemma ends_slash_app : forall a b, b <> [] -> ends_slash (a ++ b) = ends_slash b.
Proof.
  intros a b H. unfold ends_slash. rewrite rev_app_distr. destruct (rev b) eqn:E; auto.
  exfalso. apply H. rewrite <- (rev_involutive b), E. reflexivity.
Qed.
Lemma rstrip_slash : forall t, rstrip (t ++ [slash]) = rstrip t.
Proof. induction t as [|c t IH]; [reflexivity|]. cbn [app rstrip]. rewrite IH. reflexivity. Qed.
Lemma rstrip_id : forall t, ends_slash t = false -> rstrip t = t.
Proof.
  induction t as [|c t IH]; intros H; [reflexivity|]. cbn [rstrip].
  destruct t as [|d t].
  - cbn in *. rewrite H. reflexivity.
  - rewrite IH; [reflexivity|]. rewrite <- H. symmetry. apply (ends_slash_app [c]). discriminate.
Qed.

Lemma pjoin_ne : forall a b, a <> [] -> absolute b = false -> pjoin a b = if ends_slash a then a ++ b else a ++ slash :: b.
Proof. intros a b Ha Hb. unfold pjoin. rewrite Hb. destruct a; congruence. Qed.

Lemma pattern_shape : forall ds g tail, clean ds -> (g = [] \/ clean g) -> absolute tail = false ->
  pjoin (pjoin ds g) tail = base ds g ++ tail.
Proof.
  intros ds g tail (D1 & D2 & D3) Hg Ht. destruct Hg as [-> | (G1 & G2 & G3)].
  - rewrite (pjoin_ne ds []) by auto. rewrite D3. rewrite pjoin_ne; [|destruct ds; discriminate|exact Ht].
    rewrite ends_slash_app by discriminate. cbn [ends_slash]. reflexivity.
  - rewrite (pjoin_ne ds g) by auto. rewrite D3. rewrite pjoin_ne; [|destruct ds; discriminate|exact Ht].
    change (ds ++ slash :: g) with (ds ++ [slash] ++ g). rewrite app_assoc, ends_slash_app by exact G1. rewrite G3.
    unfold base. destruct g as [|x g]; [congruence|]. rewrite <- !app_assoc. cbn. rewrite <- app_assoc. reflexivity.
Qed.

Lemma root_shape : forall out ds g, clean ds -> (g = [] \/ clean g) -> exists X, forall id, absolute id = false ->
  pjoin (pjoin (pjoin out ds) g) id = X ++ base ds g ++ id /\
  pjoin (rstrip (pjoin (pjoin out ds) g)) id = X ++ base ds g ++ id.
Proof.
  intros out ds g (D1 & D2 & D3) Hg.
  assert (HX : exists X, pjoin out ds = X ++ ds).
  { apply pjoin_tail. }
  destruct HX as [X HX]. exists X. intros id Hid. rewrite HX.
  assert (Hne : X ++ ds <> []) by (intros E; apply app_eq_nil in E; tauto).
  assert (Hes : ends_slash (X ++ ds) = false) by (rewrite ends_slash_app by auto; auto).
  destruct Hg as [-> | (G1 & G2 & G3)].
  - rewrite (pjoin_ne (X ++ ds) []) by auto. rewrite Hes. cbn [base]. change (slash :: []) with ([slash] : text). split.
    + rewrite pjoin_ne; [|intros E; apply app_eq_nil in E; tauto|exact Hid].
      rewrite ends_slash_app by discriminate. cbn [ends_slash rev app]. cbn. rewrite <- !app_assoc. reflexivity.
    + rewrite rstrip_slash, rstrip_id by auto. rewrite pjoin_ne by auto. rewrite Hes. rewrite <- !app_assoc. reflexivity.
  - rewrite (pjoin_ne (X ++ ds) g) by auto. rewrite Hes.
    assert (E2 : ends_slash ((X ++ ds) ++ slash :: g) = false).
    { change (slash :: g) with ([slash] ++ g). rewrite app_assoc, ends_slash_app by auto. exact G3. }
    rewrite rstrip_id by exact E2. rewrite pjoin_ne; [|intros E; apply app_eq_nil in E; destruct E as [_ E]; discriminate|exact Hid].
    rewrite E2. unfold base. destruct g as [|x g]; [congruence|].
    split; rewrite <- !app_assoc; cbn; rewrite <- !app_assoc; reflexivity.
Qed.

(** The name is: the type, then something ending in an underscore, then the
    title and its underscore if there is one, then the date. *)
Lemma id_shape : forall r, exists m, experiment_id r = r_type r ++ m ++ us :: opt_part (r_title r) ++ stamp_text (r_start r).
Proof.
  intros r. unfold experiment_id.
  assert (O : forall (o : option text) pre rest, exists m, (pre ++ us :: opt_part o) ++ rest = pre ++ m ++ us :: rest).
  { intros [t|] pre rest; cbn [opt_part].
    - exists (us :: t). rewrite <- !app_assoc. cbn. rewrite <- app_assoc. reflexivity.
    - exists []. rewrite <- app_assoc. reflexivity. }
  destruct (_ || _); [|destruct (teqb _ _)].
  - destruct (O (r_proposal r) (r_type r ++ tx "_K" ++ r_K r) (opt_part (r_title r) ++ stamp_text (r_start r))) as [m E].
    exists ((tx "_K" ++ r_K r) ++ m). rewrite <- !app_assoc in *. exact E.
  - destruct (O (r_proposal r) (r_type r) (opt_part (r_title r) ++ stamp_text (r_start r))) as [m E]. exists m. exact E.
  - exists (us :: r_noise r ++ tx "Noise"). rewrite <- !app_assoc. cbn. rewrite <- !app_assoc. reflexivity.
Qed.

Definition dot_star : text := tx ".*".
Lemma parse_dot_star : forall y, starts_star y = false -> parse (dot_star ++ y) = rbind (parse y) (fun q => Ok (Star Any :: q)).
Proof. intros y H. rewrite parse_app by exact H. cbn. destruct (parse y); reflexivity. Qed.

Definition title_items (ti : text) : list item := match ti with [] => [] | _ => lits (us :: ti) ++ [Star Any] end.
Definition date_items (dt : text) : list item :=
  match rev dt with [] => [] | c :: d => lits (rev d) ++ [Star (atom_of c)] end.

Lemma parse_date : forall dt, plain dt -> parse (ifne dt (dt ++ tx "*")) = Ok (date_items dt).
Proof.
  intros dt H. unfold date_items. destruct (rev dt) as [|c d] eqn:E.
  - assert (dt = []) as -> by (rewrite <- (rev_involutive dt), E; reflexivity). reflexivity.
  - assert (Edt : dt = rev d ++ [c]) by (rewrite <- (rev_involutive dt), E; reflexivity).
    assert (Hi : ifne dt (dt ++ tx "*") = rev d ++ [c; star]).
    { rewrite Edt. destruct (rev d); cbn; [reflexivity|]. rewrite <- app_assoc. reflexivity. }
    rewrite Hi. rewrite Edt in H. apply plain_app in H. destruct H as [H1 H2].
    assert (Hc : Ascii.eqb c star = false) by (apply (plain_not_star [c]); cbn; auto).
    rewrite parse_app by (cbn; exact Hc). rewrite parse_plain by exact H1. cbn [rbind parse]. rewrite Hc.
    reflexivity.
Qed.
Lemma ifne_starts : forall dt y, starts_star dt = false -> starts_star (ifne dt (dt ++ y)) = false.
Proof. intros [|c dt] y H; auto. Qed.

Lemma parse_title : forall ti y q, plain ti -> starts_star y = false -> parse y = Ok q ->
  parse (ifne ti (us :: ti ++ dot_star) ++ y) = Ok (title_items ti ++ q).
Proof.
  intros [|c ti] y q H Hy E; [exact E|]. cbn [ifne title_items].
  replace ((us :: (c :: ti) ++ dot_star) ++ y) with ((us :: c :: ti) ++ dot_star ++ y) by (cbn [app]; rewrite <- app_assoc; reflexivity).
  assert (P : plain (us :: c :: ti)) by (apply plain_cons; split; [apply plainb_plain; reflexivity | exact H]).
  rewrite parse_app by reflexivity. rewrite parse_plain by exact P. cbn [rbind].
  rewrite parse_dot_star by exact Hy. rewrite E. cbn [rbind]. rewrite <- app_assoc. reflexivity.
Qed.

Lemma title_starts : forall ti y, starts_star y = false -> starts_star (ifne ti (us :: ti ++ dot_star) ++ y) = false.
Proof. intros [|c ti] y H; auto. Qed.

Definition type_items (ty : text) : list item := match ty with [] => [] | _ => lits ty ++ [Star Any] end.

(** What one folder pattern stands for. *)
Lemma parse_tail : forall ty ti dt, plain ty -> plain ti -> plain dt ->
  parse (ifne ty (ty ++ dot_star) ++ ifne ti (us :: ti ++ dot_star) ++ ifne dt (dt ++ tx "*")) =
  Ok (type_items ty ++ title_items ti ++ date_items dt).
Proof.
  intros ty ti dt H1 H2 H3.
  assert (D : starts_star (ifne dt (dt ++ tx "*")) = false) by (apply ifne_starts, plain_starts; exact H3).
  pose proof (parse_title ti _ _ H2 D (parse_date dt H3)) as E.
  destruct ty as [|c ty]; [exact E|]. cbn [ifne type_items].
  rewrite <- !app_assoc. rewrite parse_app by reflexivity. rewrite parse_plain by exact H1. cbn [rbind].
  rewrite parse_dot_star by (apply title_starts; exact D). rewrite E. reflexivity.
Qed.

Lemma tail_not_absolute : forall ty ti dt, absolute ty = false -> absolute dt = false ->
  absolute (ifne ty (ty ++ dot_star) ++ ifne ti (us :: ti ++ dot_star) ++ ifne dt (dt ++ tx "*")) = false.
Proof. intros [|a ty] [|b ti] [|c dt] H1 H2; try exact H1; try exact H2; reflexivity. Qed.

Lemma parse_pattern : forall ds g ty ti dt, clean ds -> (g = [] \/ clean g) -> plain ds -> plain g ->
  absolute ty = false -> absolute dt = false -> plain ty -> plain ti -> plain dt ->
  parse (folder_pattern ds g ty ti dt) = Ok (lits (base ds g) ++ type_items ty ++ title_items ti ++ date_items dt).
Proof.
  intros ds g ty ti dt Hds Hg Pd Pg Ay Ad Py Pt Pdt. unfold folder_pattern.
  rewrite pattern_shape; auto; [|apply tail_not_absolute; auto].
  assert (Pb : plain (base ds g)).
  { unfold base. destruct g as [|x g]; apply plain_app; split; auto; [apply plainb_plain; reflexivity|].
    apply plain_cons. split; [apply plainb_plain; reflexivity|]. apply plain_app. split; auto. apply plainb_plain; reflexivity. }
  rewrite parse_app.
  - rewrite parse_plain by exact Pb. change (tx ".*") with dot_star. rewrite parse_tail by auto. reflexivity.
  - destruct ty as [|c ty]; [|apply (plain_starts (c :: ty)); exact Py]. destruct ti; [|reflexivity].
    apply ifne_starts, plain_starts. exact Pdt.
Qed.

Lemma denotes_date : forall dt, plain dt -> exists d, prefix_of d dt /\ denotes (date_items dt) d.
Proof.
  intros dt H. unfold date_items. destruct (rev dt) as [|c d] eqn:E.
  - exists []. split; [exists dt; reflexivity | reflexivity].
  - assert (Edt : dt = rev d ++ [c]) by (rewrite <- (rev_involutive dt), E; reflexivity).
    exists (rev d ++ []). split; [exists [c]; rewrite app_nil_r; exact Edt|].
    apply denotes_app.
    + apply denotes_lits. rewrite Edt in H. apply plain_app in H. tauto.
    + exists [], []. split; auto. split; [constructor | reflexivity].
Qed.

Lemma plain_prefix : forall a b, prefix_of a b -> plain b -> plain a.
Proof. intros a b [c ->] H. apply plain_app in H. tauto. Qed.
Lemma absolute_prefix : forall a b, a <> [] -> prefix_of a b -> absolute b = absolute a.
Proof. intros [|x a] b H [c ->]; [congruence | reflexivity]. Qed.

Ltac lassoc := repeat (rewrite <- app_assoc || (progress cbn [app])); reflexivity.

(** A run's directory matches each pattern whose pieces it was named from. *)
Lemma run_matches : forall r ty ti dt, well_named r -> ty <> [] -> prefix_of ty (r_type r) ->
  (ti = [] \/ exists t, r_title r = Some t /\ prefix_of ti t) -> prefix_of dt (stamp_text (r_start r)) ->
  exists p, parse (folder_pattern (r_dataset r) (r_group r) ty ti dt) = Ok p /\ search p (run_path r) = true.
Proof.
  intros r ty ti dt (Cd & Cg & At & Pd & Pg & Pid) Hty Hpty Hti Hdt.
  destruct (id_shape r) as [m E]. rewrite E in Pid.
  pose proof Pid as Pid'. apply plain_app in Pid'. destruct Pid' as [Pty Prest]. apply plain_app in Prest. destruct Prest as [Pm Prest].
  apply plain_cons in Prest. destruct Prest as [Pus Prest]. apply plain_app in Prest. destruct Prest as [Ptitle Pstamp].
  assert (Pti : plain ti).
  { destruct Hti as [-> | (t & Et & Hp)]; [intros c []|]. rewrite Et in Ptitle. cbn in Ptitle. apply plain_app in Ptitle.
    eapply plain_prefix; [exact Hp | tauto]. }
  assert (Pdt : plain dt) by (eapply plain_prefix; eauto).
  assert (Ady : absolute dt = false).
  { destruct dt as [|c dt]; auto. rewrite <- (absolute_prefix (c :: dt) (stamp_text (r_start r))); [|discriminate|exact Hdt].
    unfold stamp_text, pad2. cbn [app absolute]. unfold digit. apply Ascii.eqb_neq. intros X. apply (f_equal nat_of_ascii) in X.
    pose proof (Nat.mod_upper_bound (day (r_start r) / 10) 10 ltac:(lia)). rewrite nat_ascii_embedding in X by lia.
    change (nat_of_ascii slash) with 47 in X. lia. }
  assert (Aty : absolute ty = false) by (rewrite <- (absolute_prefix ty (r_type r)); auto).
  eexists. split; [apply parse_pattern; auto; eapply plain_prefix; eauto|].
  destruct (root_shape (r_out r) _ _ Cd Cg) as [X HX].
  assert (Aid : absolute (experiment_id r) = false).
  { rewrite E. destruct Hpty as [c Hc]. destruct ty; [congruence|]. rewrite Hc in *. exact Aty. }
  destruct (HX _ Aid) as [HX1 _]. unfold run_path. rewrite HX1. apply search_spec.
  assert (Hb : denotes (lits (base (r_dataset r) (r_group r))) (base (r_dataset r) (r_group r))).
  { apply denotes_lits. unfold base. destruct (r_group r) as [|x g]; apply plain_app; split; auto; [apply plainb_plain; reflexivity|].
    apply plain_cons. split; [apply plainb_plain; reflexivity|]. apply plain_app. split; auto. apply plainb_plain; reflexivity. }
  destruct (denotes_date dt Pdt) as (d & [c0 Hd0] & Hd). destruct Hdt as [c3 Hs]. rewrite Hd0 in Hs.
  destruct Hpty as [c1 Hty1].
  assert (Dty : denotes (lits ty) ty) by (apply denotes_lits; rewrite Hty1 in Pty; apply plain_app in Pty; tauto).
  assert (Pc1 : plain c1) by (rewrite Hty1 in Pty; apply plain_app in Pty; tauto).
  assert (Ety : type_items ty = lits ty ++ [Star Any]) by (destruct ty; [congruence | reflexivity]).
  destruct ti as [|c ti].
  - exists X, (base (r_dataset r) (r_group r) ++ (ty ++ (c1 ++ m ++ us :: opt_part (r_title r))) ++ [] ++ d), (c0 ++ c3). split.
    + rewrite E, Hs, Hty1. lassoc.
    + apply denotes_app; [exact Hb|]. apply denotes_app; [|apply denotes_app; [reflexivity | exact Hd]].
      rewrite Ety. apply denotes_app; [exact Dty|]. apply denotes_dotstar.
      apply plain_app. split; auto. apply plain_app. split; auto. apply plain_cons. auto.
  - destruct Hti as [Hti | (t & Et & [c2 Ht])]; [discriminate|].
    rewrite Et in E, Ptitle. cbn [opt_part] in E, Ptitle.
    assert (Pt2 : plain ((c :: ti) ++ c2)) by (rewrite <- Ht; apply plain_app in Ptitle; tauto).
    apply plain_app in Pt2. destruct Pt2 as [Pt1 Pt2].
    exists X, (base (r_dataset r) (r_group r) ++ (ty ++ (c1 ++ m)) ++ (((us :: c :: ti) ++ (c2 ++ [us])) ++ d)), (c0 ++ c3). split.
    + rewrite E, Hs, Hty1, Ht. lassoc.
    + apply denotes_app; [exact Hb|]. apply denotes_app; [|apply denotes_app; [|exact Hd]].
      * rewrite Ety. apply denotes_app; [exact Dty|]. apply denotes_dotstar. apply plain_app. auto.
      * cbn [title_items]. apply denotes_app; [|apply denotes_dotstar; apply plain_app; auto].
        apply denotes_lits. apply plain_cons. auto.
Qed.

(** Whenever the patterns are readable, a written run asked for is a candidate that matches. *)
Lemma run_hit : forall fs q r ps,
  well_named r -> stored fs r -> asks_for q r -> mapR parse (folder_patterns q) = Ok ps ->
  In (run_path r) (candidates fs q) /\ found_by ps (run_path r) = true.
Proof.
  intros fs q r ps Hw Hst Ha Eps.
  destruct Ha as [Qd Qe Qo Qg Qds (ty & Hty & Htyne & Hpty) Hti Hdt]. split.
  - apply candidates_spec. exists (r_dataset r). split; auto.
    destruct Hst as (fl & subs & files & sub' & E & Hin & Hc). unfold search_root. rewrite Qo, Qg.
    exists (Dir fl subs), files, (tx "config.json"), [], []. split; auto. split; [|auto].
    destruct Hw as (Cd & Cg & At & Pd & Pg & Pid).
    destruct (root_shape (r_out r) _ _ Cd Cg) as [X HX].
    assert (Aid : absolute (experiment_id r) = false).
    { destruct (id_shape r) as [m ->]. destruct (r_type r) as [|x y] eqn:Et.
      - destruct Hpty as [c Hc']. destruct ty; [congruence | discriminate].
      - exact At. }
    destruct (HX _ Aid) as [E1 E2]. econstructor; [exact Hin|]. unfold run_path. rewrite E1, E2. constructor.
  - assert (exists ti, In ti (q_titles q) /\ (ti = [] \/ exists t, r_title r = Some t /\ prefix_of ti t)) as (ti & Hti1 & Hti2).
    { destruct Hti as [Hti | (ti & t & H1 & H2 & H3)]; [exists []; auto | exists ti; eauto]. }
    assert (exists dt, In dt (match q_dates q with [] => [[]] | l => l end) /\ prefix_of dt (stamp_text (r_start r))) as (dt & Hdt1 & Hdt2).
    { destruct Hdt as [-> | (dt & H1 & H2)].
      - exists []. split; [cbn; auto | exists (stamp_text (r_start r)); reflexivity].
      - exists dt. split; auto. destruct (q_dates q); auto. destruct H1. }
    destruct (run_matches r ty ti dt Hw Htyne Hpty Hti2 Hdt2) as (p & Ep & Hp).
    apply mapR_inv in Eps.
    destruct (Forall2_in_l _ _ _ (folder_pattern (r_dataset r) (r_group r) ty ti dt) Eps) as (p' & Hp' & E').
    { apply in_patterns. exists (r_dataset r), ty, ti, dt. rewrite Qg. auto. }
    rewrite Ep in E'. inversion E'; subst p'. eapply found_in; eauto.
Qed.

(** A written run is in the result of every successful search that asks for it. *)
Theorem C138_found_partial : forall fs ex q r L,
  well_named r -> stored fs r -> asks_for q r -> find_folders fs ex q = Ok L -> In (run_path r) L.
Proof.
  intros fs ex q r L Hw Hst Ha H.
  destruct (find_ok fs ex q L (ask_search _ _ Ha) H) as (ps & Eps & _ & HL & _).
  apply HL. eapply run_hit; eauto.
Qed.
Print Assumptions C138_found_partial.

(** The search succeeds as soon as one written run is asked for, the options
    contain no pattern characters and every directory found under the searched
    datasets carries a readable date. *)
Theorem C138_search_succeeds_partial : forall fs ex q r,
  well_named r -> stored fs r -> asks_for q r ->
  (forall t, In t (q_datasets q) -> clean t /\ plain t) ->
  (forall t, In t (q_types q ++ q_dates q) -> plain t /\ absolute t = false) -> (forall t, In t (q_titles q) -> plain t) ->
  (forall ds x, In ds (q_datasets q) -> holds_config fs (search_root q ds) x -> exists s, folder_date x = Ok s) ->
  exists L, find_folders fs ex q = Ok L /\ In (run_path r) L.
Proof.
  intros fs ex q r Hw Hst Ha HD HT Hti HF.
  assert (Hex : exists L, find_folders fs ex q = Ok L).
  2:{ destruct Hex as [L HL]. exists L. split; auto. eapply C138_found_partial; eauto. }
  pose proof Ha as [Qd Qe _ Qg _ _ _ _].
  destruct Hw as (Cd & Cg & At & Pd & Pg & Pid). rewrite <- Qg in Cg, Pg.
  destruct (mapR_ok parse (folder_patterns q)) as [ps Eps].
  { intros p Hp. apply in_patterns in Hp. destruct Hp as (ds & ty & ti & dt & H1 & H2 & H3 & H4 & ->).
    destruct (HD _ H1) as [? ?]. destruct (HT ty ltac:(apply in_or_app; auto)) as [? ?].
    assert (plain dt /\ absolute dt = false) as [? ?].
    { destruct (q_dates q) as [|d0 ds0] eqn:E; [|apply HT; apply in_or_app; right; exact H4].
      destruct H4 as [<- | []]. split; [intros c [] | reflexivity]. }
    eexists. apply parse_pattern; auto. }
  destruct (by_date_ok (filter (found_by ps) (sort tleb (candidates fs q)))) as [L EL].
  { intros x Hx. apply filter_In in Hx. destruct Hx as [Hx _]. apply (Permutation_in _ (sort_perm _ _)) in Hx.
    apply candidates_spec in Hx. destruct Hx as (ds & Hds & Hx). eauto. }
  assert (E : find_folders fs ex q = match L with [] => Raise EExn | _ => Ok L end).
  { rewrite find_search by exact Qd. rewrite Eps. cbn [rbind]. rewrite Qe, EL. reflexivity. }
  destruct L as [|x L]; [|eauto].
  exfalso. apply by_date_spec in EL. destruct EL as (P & _ & _).
  assert (Hin : In (run_path r) []); [|destruct Hin].
  apply (Permutation_in _ P). apply filter_In.
  destruct (run_hit fs q r ps) as [H1 H2]; auto.
  { rewrite Qg in Cg, Pg. repeat split; auto; try apply Cd. }
  split; auto. apply (Permutation_in _ (Permutation_sym (sort_perm _ _))). exact H1.
Qed.
Print Assumptions C138_search_succeeds_partial.

(** A file system with two runs of the same dataset and group. *)
Definition ex_fs (rs : list run) : fsys := fun p =>
  if teqb p (tx "data/outputs/cambridge/exp1")
  then Some (Dir [] (map (fun r => (experiment_id r, Dir [tx "config.json"; tx "data.h5"] [])) rs)) else None.
Definition ex_runs : list run := [ex_run (tx "base") 9; ex_run (tx "extra") 5].
Definition ex_query (types titles dates exclude : list text) : query :=
  mkquery (tx "data/outputs") (tx "exp1") [tx "cambridge"] [] types titles dates exclude.
Definition all_paths (t : text) : bool := true.

Lemma plain_of_string : forall s, plainb (tx s) = true -> plain (tx s).
Proof. intros. apply plainb_plain. exact H. Qed.

Example C138_nonvacuous :
  well_named (ex_run (tx "base") 9) /\ stored (ex_fs ex_runs) (ex_run (tx "base") 9) /\
  asks_for (ex_query [tx "Joint"] [tx "base"] [tx "07_11_2023"] []) (ex_run (tx "base") 9) /\
  find_folders (ex_fs ex_runs) all_paths (ex_query [tx "Joint"] [tx "base"] [tx "07_11_2023"] []) =
    Ok [run_path (ex_run (tx "base") 9)] /\
  find_folders (ex_fs ex_runs) all_paths (ex_query [tx "Joint"] [[]] [] []) =
    Ok [run_path (ex_run (tx "extra") 5); run_path (ex_run (tx "base") 9)].
Proof.
  split; [|split; [|split; [|split]]].
  - repeat split; try discriminate; try reflexivity; try (apply plainb_plain; reflexivity).
    right. repeat split; try discriminate; reflexivity.
  - exists [], (map (fun r => (experiment_id r, Dir [tx "config.json"; tx "data.h5"] [])) ex_runs), [tx "config.json"; tx "data.h5"], [].
    split; [reflexivity|]. split; cbn [In map ex_runs]; auto.
  - constructor; try reflexivity; cbn [ex_query q_datasets q_types q_titles q_dates r_dataset ex_run].
    + left. reflexivity.
    + exists (tx "Joint"). split; [left; reflexivity|]. split; [discriminate|]. exists (tx "TableSIM_MCMC"). reflexivity.
    + right. exists (tx "base"), (tx "base"). split; [left; reflexivity|]. split; [reflexivity|]. exists []. reflexivity.
    + right. exists (tx "07_11_2023"). split; [left; reflexivity|]. exists (tx "_09_30_09"). reflexivity.
  - vm_compute. reflexivity.
  - vm_compute. reflexivity.
Qed.

(** No component of the path starts with the character. *)
Definition no_component_starts (c : ascii) (x : text) : Prop := forall a b, x <> a ++ slash :: c :: b.

Lemma parse_err : forall l x, parse l = Raise x -> x = EExn.
Proof.
  intros l. remember (List.length l) as n eqn:Hn. revert l Hn.
  induction n as [n IH] using lt_wf_ind. intros l Hn x H. destruct l as [|c l]; cbn [parse] in H; [discriminate|].
  destruct (Ascii.eqb c star); [inversion H; reflexivity|]. destruct l as [|d l]; [discriminate|].
  destruct (Ascii.eqb d star).
  - destruct (parse l) eqn:E; cbn [rbind] in H; [discriminate|]. inversion H; subst.
    apply (IH (List.length l)) with (l := l); auto. cbn. lia.
  - destruct (parse (d :: l)) eqn:E; cbn [rbind] in H; [discriminate|]. inversion H; subst.
    apply (IH (List.length (d :: l))) with (l := d :: l); auto.
Qed.

Lemma slash_pattern : forall f c y p x, c <> star -> c <> dot -> starts_star y = false -> parse (f ++ slash :: c :: y) = Ok p ->
  no_component_starts c x -> search p x = false.
Proof.
  intros f c y p x Hc Hd Hy Hp Hx. apply not_true_is_false. intros H. apply search_spec in H.
  destruct H as (a & w & s & E & Hw).
  assert (Ec : Ascii.eqb c star = false) by (apply Ascii.eqb_neq; exact Hc).
  rewrite parse_app in Hp by reflexivity. destruct (parse f) as [pf|]; [|discriminate]. cbn [rbind] in Hp.
  change (slash :: c :: y) with ([slash; c] ++ y) in Hp. rewrite parse_app in Hp by exact Hy.
  replace (parse [slash; c]) with (Ok [One (Lit slash); One (Lit c)] : res (list item)) in Hp.
  2:{ cbn [parse]. change (Ascii.eqb slash star) with false. rewrite Ec. cbn. unfold atom_of.
      rewrite (proj2 (Ascii.eqb_neq c dot)) by exact Hd. reflexivity. }
  cbn [rbind] in Hp. destruct (parse y) as [py|]; [|discriminate]. cbn [rbind] in Hp. inversion Hp; subst p.
  apply denotes_app_inv in Hw. destruct Hw as (w1 & w2 & -> & _ & Hw). cbn in Hw.
  destruct Hw as (c1 & w3 & -> & A1 & c2 & w4 & -> & A2 & _). apply Ascii.eqb_eq in A1. apply Ascii.eqb_eq in A2. subst.
  apply (Hx (a ++ w1) (w4 ++ s)). rewrite <- !app_assoc. reflexivity.
Qed.

Lemma find_nothing : forall fs ex q, q_directories q = [] -> folder_patterns q <> [] ->
  (forall p it x, In p (folder_patterns q) -> parse p = Ok it -> In x (candidates fs q) -> search it x = false) ->
  find_folders fs ex q = Raise EExn.
Proof.
  intros fs ex q Qd Hne H. rewrite find_search by exact Qd.
  destruct (mapR parse (folder_patterns q)) as [ps|e] eqn:E.
  - cbn [rbind].
    assert (F : filter (found_by ps) (sort tleb (candidates fs q)) = []).
    { destruct (filter _ _) as [|x l] eqn:Ef; auto. exfalso.
      assert (Hx : In x (filter (found_by ps) (sort tleb (candidates fs q)))) by (rewrite Ef; cbn; auto).
      apply filter_In in Hx. destruct Hx as [Hx1 Hx2]. apply (Permutation_in _ (sort_perm _ _)) in Hx1.
      apply mapR_inv in E. destruct ps as [|p0 ps].
      - inversion E; subst. congruence.
      - unfold found_by in Hx2. apply existsb_exists in Hx2. destruct Hx2 as (it & Hit & Hs).
        destruct (Forall2_in_r _ _ _ it E Hit) as (p & Hp & Ep). rewrite (H p it x Hp Ep Hx1) in Hs. discriminate. }
    rewrite F. destruct (q_exclude q); reflexivity.
  - cbn [rbind]. f_equal. eapply mapR_raise; [|exact E]. intros a x _. apply parse_err.
Qed.

Lemma base_slash : forall ds g tail, ds <> [] -> absolute tail = false -> exists f, pjoin (pjoin ds g) tail = f ++ slash :: tail.
Proof.
  intros ds g tail Hds Ht.
  assert (Hne : pjoin ds g <> []).
  { unfold pjoin. destruct g as [|x g]; cbn [absolute].
    - destruct ds; [congruence|]. destruct (ends_slash _); discriminate.
    - destruct (Ascii.eqb x slash); [discriminate|]. destruct ds; [congruence|]. destruct (ends_slash _); discriminate. }
  rewrite pjoin_ne by auto. destruct (ends_slash (pjoin ds g)) eqn:E; [|eauto].
  unfold ends_slash in E. destruct (rev (pjoin ds g)) as [|c r] eqn:Er; [discriminate|].
  apply Ascii.eqb_eq in E. subst c. exists (rev r). rewrite <- (rev_involutive (pjoin ds g)), Er. cbn [rev].
  rewrite <- app_assoc. reflexivity.
Qed.

(** The experiment type cannot be left out: a search by date alone finds nothing
    (unless a directory name starts with the date's first character), although
    the command line offers it. *)
Theorem C138_date_alone_refuted : forall fs ex q c,
  q_directories q = [] -> q_types q = [[]] -> q_titles q = [[]] -> q_datasets q <> [] -> ~ In [] (q_datasets q) ->
  q_dates q <> [] -> (forall dt, In dt (q_dates q) -> exists d, dt = c :: d /\ d <> [] /\ starts_star d = false) ->
  c <> star -> c <> dot -> c <> slash ->
  (forall ds x, In ds (q_datasets q) -> holds_config fs (search_root q ds) x -> no_component_starts c x) ->
  find_folders fs ex q = Raise EExn.
Proof.
  intros fs ex q c Qd Qty Qti Qds Qne Qdt Hdt C1 C2 C3 Hx. apply find_nothing; auto.
  - destruct (q_datasets q) as [|ds l] eqn:E1; [congruence|]. destruct (q_dates q) as [|dt l'] eqn:E2; [congruence|].
    intros K. assert (HI : In (folder_pattern ds (q_group q) [] [] dt) (folder_patterns q)).
    { apply in_patterns. exists ds, [], [], dt. rewrite E1, E2, Qty, Qti. cbn. auto 8. }
    rewrite K in HI. destruct HI.
  - intros p it x Hp Eit Hin. apply in_patterns in Hp. destruct Hp as (ds & ty & ti & dt & H1 & H2 & H3 & H4 & ->).
    rewrite Qty in H2. destruct H2 as [<- | []]. rewrite Qti in H3. destruct H3 as [<- | []].
    assert (H4' : In dt (q_dates q)) by (destruct (q_dates q); [congruence | exact H4]).
    destruct (Hdt dt H4') as (d & -> & Hd & Hs).
    unfold folder_pattern in Eit. cbn [ifne app] in Eit.
    destruct (base_slash ds (q_group q) (c :: d ++ tx "*")) as [f Ef].
    + intros ->. auto.
    + cbn. apply Ascii.eqb_neq. exact C3.
    + rewrite Ef in Eit. eapply slash_pattern; [exact C1|exact C2| |exact Eit|].
      * destruct d; [congruence | exact Hs].
      * apply candidates_spec in Hin. destruct Hin as (ds' & K1 & K2). eauto.
Qed.
Print Assumptions C138_date_alone_refuted.

(** ... and so does a search by title alone, unless a directory name starts with
    an underscore. *)
Theorem C138_title_alone_refuted : forall fs ex q,
  q_directories q = [] -> q_types q = [[]] -> q_titles q <> [] -> ~ In [] (q_titles q) ->
  q_datasets q <> [] -> ~ In [] (q_datasets q) -> (forall ti, In ti (q_titles q) -> starts_star ti = false) ->
  (forall ds x, In ds (q_datasets q) -> holds_config fs (search_root q ds) x -> no_component_starts us x) ->
  find_folders fs ex q = Raise EExn.
Proof.
  intros fs ex q Qd Qty Qti Qtn Qds Qne Hst Hx. apply find_nothing; auto.
  - destruct (q_datasets q) as [|ds l] eqn:E1; [congruence|]. destruct (q_titles q) as [|ti l'] eqn:E2; [congruence|].
    intros K.
    assert (Hdt : exists dt, In dt (match q_dates q with [] => [[]] | l => l end)) by (destruct (q_dates q); eexists; left; reflexivity).
    destruct Hdt as [dt Hdt].
    assert (HI : In (folder_pattern ds (q_group q) [] ti dt) (folder_patterns q)).
    { apply in_patterns. exists ds, [], ti, dt. rewrite E1, E2, Qty. cbn [In]. auto 8. }
    rewrite K in HI. destruct HI.
  - intros p it x Hp Eit Hin. apply in_patterns in Hp. destruct Hp as (ds & ty & ti & dt & H1 & H2 & H3 & H4 & ->).
    rewrite Qty in H2. destruct H2 as [<- | []]. destruct ti as [|c ti]; [exfalso; auto|].
    unfold folder_pattern in Eit. cbn [ifne app] in Eit.
    destruct (base_slash ds (q_group q) (us :: c :: (ti ++ tx ".*") ++ ifne dt (dt ++ tx "*"))) as [f Ef].
    + intros ->. auto.
    + reflexivity.
    + rewrite Ef in Eit. eapply slash_pattern; [| | |exact Eit|]; try discriminate.
      * apply (Hst (c :: ti) H3).
      * apply candidates_spec in Hin. destruct Hin as (ds' & K1 & K2). eauto.
Qed.
Print Assumptions C138_title_alone_refuted.

Example C138_refuted_nonvacuous :
  find_folders (ex_fs ex_runs) all_paths (ex_query [[]] [[]] [tx "07_11_2023"] []) = Raise EExn /\
  find_folders (ex_fs ex_runs) all_paths (ex_query [[]] [tx "base"] [] []) = Raise EExn.
Proof. split; vm_compute; reflexivity. Qed.

(** ---- C139 ------------------------------------------------------------------ *)

(** Every folder returned is a directory with a configuration file at most two
    levels below one of the searched directories, and its path contains, in
    order: the dataset and group, the type, the title after an underscore, and
    the date but for its last character. *)
Theorem C139_sound_partial : forall fs ex q L x,
  q_directories q = [] -> find_folders fs ex q = Ok L -> In x L ->
  (q_datasets q <> [] -> q_types q <> [] -> q_titles q <> [] ->
   (forall t, In t (q_datasets q) -> clean t /\ plain t /\ nodot t) ->
   (q_group q = [] \/ clean (q_group q)) -> plain (q_group q) -> nodot (q_group q) ->
   (forall t, In t (q_types q ++ q_dates q) -> plain t /\ nodot t /\ absolute t = false) ->
   (forall t, In t (q_titles q) -> plain t /\ nodot t) ->
   exists ds ty ti dt, In ds (q_datasets q) /\ In ty (q_types q) /\ In ti (q_titles q) /\
     (In dt (q_dates q) \/ q_dates q = [] /\ dt = []) /\
     exists a u v b, x = a ++ base ds (q_group q) ++ ty ++ u ++ ifne ti (us :: ti) ++ v ++ removelast dt ++ b) /\
  exists ds, In ds (q_datasets q) /\ holds_config fs (search_root q ds) x.
Proof.
  intros fs ex q L x Qd H Hx. destruct (find_ok fs ex q L Qd H) as (ps & Eps & _ & HL & _). apply HL in Hx.
  destruct Hx as [Hc Hf]. split; [|apply candidates_spec; exact Hc].
  intros Nd Ny Nt HD Cg Pg Dg HT Hti. apply mapR_inv in Eps. destruct ps as [|p0 ps].
  - exfalso. inversion Eps as [E|]. destruct (q_datasets q) as [|ds l] eqn:E1; [congruence|].
    destruct (q_types q) as [|ty l2] eqn:E2; [congruence|]. destruct (q_titles q) as [|ti l3] eqn:E3; [congruence|].
    assert (Hdt : exists dt, In dt (match q_dates q with [] => [[]] | l => l end)) by (destruct (q_dates q); eexists; left; reflexivity).
    destruct Hdt as [dt Hdt].
    assert (HI : In (folder_pattern ds (q_group q) ty ti dt) (folder_patterns q)).
    { apply in_patterns. exists ds, ty, ti, dt. rewrite E1, E2, E3. cbn [In]. auto 8. }
    rewrite <- E in HI. destruct HI.
  - unfold found_by in Hf. apply existsb_exists in Hf. destruct Hf as (it & Hit & Hs).
    destruct (Forall2_in_r _ _ _ it Eps Hit) as (p & Hp & Ep).
    apply in_patterns in Hp. destruct Hp as (ds & ty & ti & dt & H1 & H2 & H3 & H4 & ->).
    exists ds, ty, ti, dt. split; auto. split; auto. split; auto. split.
    { destruct (q_dates q); auto. destruct H4 as [<- | []]. auto. }
    destruct (HD _ H1) as (Cd & Pd & Dd). destruct (HT ty ltac:(apply in_or_app; auto)) as (Py & Dy & Ay).
    destruct (Hti _ H3) as [Pt Dt].
    assert (plain dt /\ nodot dt /\ absolute dt = false) as (Pdt & Ddt & Adt).
    { destruct (q_dates q) eqn:E; [|apply HT; apply in_or_app; right; exact H4].
      destruct H4 as [<- | []]. split; [intros c []|]. split; [intros [] | reflexivity]. }
    rewrite parse_pattern in Ep by auto. inversion Ep; subst it; clear Ep.
    apply search_spec in Hs. destruct Hs as (a & w & s & -> & Hw).
    apply denotes_app_inv in Hw. destruct Hw as (w1 & w2 & -> & W1 & Hw). apply denotes_app_inv in Hw.
    destruct Hw as (w3 & w4 & -> & W3 & Hw). apply denotes_app_inv in Hw. destruct Hw as (w5 & w6 & -> & W5 & W6).
    apply denotes_lits_inv in W1.
    2:{ unfold base, nodot in *. destruct (q_group q) as [|y g]; intros K; apply in_app_or in K.
        - destruct K as [K | [K | []]]; [auto | discriminate].
        - destruct K as [K | [K | K]]; [auto | discriminate|]. apply in_app_or in K. destruct K as [K | [K | []]]; [auto | discriminate]. }
    subst w1.
    assert (exists u, w3 = ty ++ u) as [u ->].
    { destruct ty as [|c ty]; [exists w3; reflexivity|]. cbn [type_items] in W3. apply denotes_app_inv in W3.
      destruct W3 as (u1 & u2 & -> & U1 & _). apply denotes_lits_inv in U1; [|exact Dy]. subst u1. eauto. }
    assert (exists v, w5 = ifne ti (us :: ti) ++ v) as [v ->].
    { destruct ti as [|c ti]; [exists w5; reflexivity|]. cbn [title_items ifne] in *. apply denotes_app_inv in W5.
      destruct W5 as (u1 & u2 & -> & U1 & _). apply denotes_lits_inv in U1; [subst u1; eauto|].
      intros [K | K]; [discriminate | auto]. }
    assert (exists b, w6 = removelast dt ++ b) as [b ->].
    { unfold date_items in W6. destruct (rev dt) as [|c d] eqn:E.
      - assert (dt = []) as -> by (rewrite <- (rev_involutive dt), E; reflexivity). exists w6. reflexivity.
      - assert (Edt : dt = rev d ++ [c]) by (rewrite <- (rev_involutive dt), E; reflexivity).
        apply denotes_app_inv in W6. destruct W6 as (u1 & u2 & -> & U1 & _).
        apply denotes_lits_inv in U1; [|intros K; apply Ddt; rewrite Edt; apply in_or_app; auto].
        subst u1. rewrite Edt, removelast_last. eauto. }
    exists a, u, v, (b ++ s). rewrite <- !app_assoc. reflexivity.
Qed.
Print Assumptions C139_sound_partial.

(** The last character of a date is never compared: asking for 07_11_2023 or for
    07_11_2024 gives the same folders, whatever is on disk. *)
Lemma search_drop_star : forall p a l, search (p ++ [Star a]) l = search p l.
Proof.
  intros p a l. apply eq_true_iff_eq. rewrite !search_spec. split.
  - intros (x & w & s & -> & H). apply denotes_app_inv in H. destruct H as (w1 & w2 & -> & H1 & _).
    exists x, w1, (w2 ++ s). rewrite <- !app_assoc. auto.
  - intros (x & w & s & -> & H). exists x, (w ++ []), s. split; [rewrite app_nil_r; reflexivity|].
    apply denotes_app; [exact H|]. exists [], []. split; [reflexivity|]. split; [constructor | reflexivity].
Qed.

Definition same_hits (p p' : text) : Prop :=
  (exists a b, parse p = Ok a /\ parse p' = Ok b /\ forall l, search a l = search b l) \/
  (parse p = Raise EExn /\ parse p' = Raise EExn).

Lemma same_find : forall fs ex q q', q_directories q = [] -> q_directories q' = [] ->
  candidates fs q = candidates fs q' -> q_exclude q = q_exclude q' ->
  Forall2 same_hits (folder_patterns q) (folder_patterns q') -> find_folders fs ex q = find_folders fs ex q'.
Proof.
  intros fs ex q q' Q1 Q2 Ec Ee F. rewrite !find_search by auto. rewrite <- Ec, <- Ee.
  assert (K : (exists ps ps', mapR parse (folder_patterns q) = Ok ps /\ mapR parse (folder_patterns q') = Ok ps' /\
                 forall l, found_by ps l = found_by ps' l) \/
              (mapR parse (folder_patterns q) = Raise EExn /\ mapR parse (folder_patterns q') = Raise EExn)).
  { clear Ec Ee. set (found := fun ps l => existsb (fun p => search p l) ps).
    assert (K : (exists ps ps', mapR parse (folder_patterns q) = Ok ps /\ mapR parse (folder_patterns q') = Ok ps' /\
                 List.length ps = List.length ps' /\ forall l, found ps l = found ps' l) \/
              (mapR parse (folder_patterns q) = Raise EExn /\ mapR parse (folder_patterns q') = Raise EExn)).
    { induction F as [|p p' l l' H F IH]; cbn [mapR].
      - left. exists [], []. auto.
      - destruct H as [(a & b & -> & -> & Hab) | [-> ->]]; [|right; auto]. cbn [rbind].
        destruct IH as [(ps & ps' & -> & -> & Hlen & Hps) | [-> ->]]; [|right; auto]. left. cbn [rbind].
        exists (a :: ps), (b :: ps'). repeat split; auto; [cbn; auto|]. intros x. unfold found in *. cbn [existsb]. rewrite Hab, Hps. reflexivity. }
    destruct K as [(ps & ps' & H1 & H2 & Hlen & H3) | K]; [|auto]. left. exists ps, ps'. split; auto. split; auto.
    intros l. unfold found_by. destruct ps, ps'; try discriminate; auto. apply H3. }
  destruct K as [(ps & ps' & -> & -> & H) | [-> ->]]; [|reflexivity]. cbn [rbind].
  rewrite (filter_ext _ _ H). reflexivity.
Qed.

Lemma pjoin_snoc : forall b t y, (t = [] -> absolute y = false) -> exists f, pjoin b (t ++ y) = f ++ y /\
  forall y', (t = [] -> absolute y' = false) -> pjoin b (t ++ y') = f ++ y'.
Proof.
  intros b t y Hy.
  assert (A : forall z, (t = [] -> absolute z = false) -> absolute (t ++ z) = absolute t).
  { intros z Hz. destruct t; [apply Hz; reflexivity | reflexivity]. }
  set (g := if absolute t then t else match b with [] => t | _ => if ends_slash b then b ++ t else b ++ slash :: t end).
  assert (K : forall z, (t = [] -> absolute z = false) -> pjoin b (t ++ z) = g ++ z).
  { intros z Hz. unfold pjoin, g. rewrite (A z Hz). destruct (absolute t); [reflexivity|]. destruct b as [|c b]; [reflexivity|].
    destruct (ends_slash (c :: b)); rewrite <- app_assoc; reflexivity. }
  exists g. split; auto.
Qed.

Lemma Forall2_flat_map {A B} (R : B -> B -> Prop) (f g : A -> list B) : forall l,
  (forall a, In a l -> Forall2 R (f a) (g a)) -> Forall2 R (flat_map f l) (flat_map g l).
Proof.
  induction l as [|a l IH]; intros H; cbn [flat_map]; [constructor|].
  apply Forall2_app; [apply H; cbn; auto | apply IH; intros; apply H; cbn; auto].
Qed.

Definition with_date (q : query) (dt : text) : query :=
  mkquery (q_out q) (q_group q) (q_datasets q) (q_directories q) (q_types q) (q_titles q) [dt] (q_exclude q).

Theorem C139_last_character_ignored_refuted : forall fs ex q d c c',
  q_directories q = [] -> c <> star -> c' <> star -> c <> slash -> c' <> slash ->
  find_folders fs ex (with_date q (d ++ [c])) = find_folders fs ex (with_date q (d ++ [c'])).
Proof.
  intros fs ex q d c c' Qd C1 C2 C3 C4. apply same_find; auto; try reflexivity.
  unfold folder_patterns. cbn [q_dates q_datasets q_types q_titles q_group with_date].
  apply Forall2_flat_map. intros ds _. apply Forall2_flat_map. intros ty _. apply Forall2_flat_map. intros ti _.
  cbn [map]. constructor; [|constructor]. unfold folder_pattern.
  assert (E : forall z, ifne ty (ty ++ tx ".*") ++ ifne ti (us :: ti ++ tx ".*") ++ ifne (d ++ [z]) ((d ++ [z]) ++ tx "*") =
    (ifne ty (ty ++ tx ".*") ++ ifne ti (us :: ti ++ tx ".*") ++ d) ++ [z; star]).
  { intros z. rewrite <- !app_assoc. do 2 f_equal. destruct d; cbn [ifne app]; [reflexivity|]. lassoc. }
  rewrite !E. set (t := ifne ty (ty ++ tx ".*") ++ ifne ti (us :: ti ++ tx ".*") ++ d).
  assert (A : forall z, z <> slash -> absolute [z; star] = false) by (intros z Hz; cbn; apply Ascii.eqb_neq; exact Hz).
  destruct (pjoin_snoc (pjoin ds (q_group q)) t [c; star]) as (f & -> & Hf); [intros _; apply A; exact C3|].
  rewrite Hf by (intros _; apply A; exact C4).
  unfold same_hits.
  assert (P : forall z, z <> star -> parse (f ++ [z; star]) = rbind (parse f) (fun p => Ok (p ++ [Star (atom_of z)]))).
  { intros z Hz. apply Ascii.eqb_neq in Hz. rewrite parse_app by exact Hz. cbn [parse]. rewrite Hz. cbn. reflexivity. }
  rewrite !P by assumption. destruct (parse f) as [p|e] eqn:Ep; cbn [rbind].
  - left. eexists _, _. split; [reflexivity|]. split; [reflexivity|]. intros l. rewrite !search_drop_star. reflexivity.
  - right. rewrite (parse_err f e Ep). auto.
Qed.
Print Assumptions C139_last_character_ignored_refuted.

(** A search for 2024 returns a run of 2023. *)
Example C139_nonvacuous :
  find_folders (ex_fs ex_runs) all_paths (ex_query [tx "Joint"] [tx "base"] [tx "07_11_2024"] []) =
    Ok [run_path (ex_run (tx "base") 9)] /\
  string_of_list_ascii (run_path (ex_run (tx "base") 9)) =
    "data/outputs/cambridge/exp1/JointTableSIM_MCMC_LowNoise_base_07_11_2023_09_30_09".
Proof. split; vm_compute; reflexivity. Qed.

(** ---- C140 ------------------------------------------------------------------ *)

(** Folders come back earliest first (by the date read from the path), each as
    often as it was listed. *)
Theorem C140_by_date : forall fs ex q L,
  q_directories q = [] -> find_folders fs ex q = Ok L ->
  (forall x, In x L -> exists s, folder_date x = Ok s) /\
  forall i j x y s t, i < j -> nth_error L i = Some x -> nth_error L j = Some y ->
    folder_date x = Ok s -> folder_date y = Ok t -> before s t = true.
Proof.
  intros fs ex q L Qd H. destruct (find_ok fs ex q L Qd H) as (ps & _ & _ & _ & _ & D & S & _). split; auto.
  clear H D. induction S as [|a l S IH Ha]; intros i j x y s t Hij Hi Hj Hs Ht.
  - destruct i; discriminate.
  - destruct j as [|j]; [lia|]. destruct i as [|i].
    + cbn in Hi, Hj. inversion Hi; subst. rewrite Forall_forall in Ha. eapply Ha; eauto. eapply nth_error_In; eauto.
    + cbn in Hi, Hj. apply (IH i j x y s t); auto. apply Nat.succ_lt_mono. exact Hij.
Qed.
Print Assumptions C140_by_date.

Lemma is_digit_digit : forall n, is_digit (digit n) = true /\ dval (digit n) = n mod 10.
Proof.
  intros n. unfold is_digit, dval, digit. pose proof (Nat.mod_upper_bound n 10 ltac:(lia)).
  rewrite nat_ascii_embedding by lia. split; [|lia]. apply andb_true_intro. split; apply Nat.leb_le; lia.
Qed.

Lemma span_digits : forall ds r, Forall (fun c => is_digit c = true) ds -> (match r with c :: _ => is_digit c = false | [] => True end) ->
  span (ds ++ r) = (ds, r).
Proof.
  induction ds as [|c ds IH]; intros r F Hr.
  - destruct r as [|c r]; [reflexivity|]. cbn [span app]. rewrite Hr. reflexivity.
  - inversion F; subst. cbn [span app]. rewrite H1, IH; auto.
Qed.
Lemma pad2_digits : forall n, Forall (fun c => is_digit c = true) (pad2 n).
Proof. intros n. unfold pad2. repeat constructor; apply is_digit_digit. Qed.
Lemma pad4_digits : forall n, Forall (fun c => is_digit c = true) (pad4 n).
Proof. intros n. unfold pad4. repeat constructor; apply is_digit_digit. Qed.

Lemma group_pad : forall lo hi ds r, Forall (fun c => is_digit c = true) ds -> lo <= List.length ds <= hi ->
  group lo hi (ds ++ us :: r) = Some (ds, r).
Proof.
  intros lo hi ds r F [H1 H2]. unfold group. rewrite span_digits; [|exact F|reflexivity].
  apply Nat.leb_le in H1. apply Nat.leb_le in H2. rewrite H1, H2. cbn [andb]. reflexivity.
Qed.

Lemma date_at_stamp : forall s, date_at (stamp_text s) =
  Some [pad2 (day s); pad2 (month s); pad4 (year s); pad2 (hour s); pad2 (minute s); pad2 (second s)].
Proof.
  intros s. unfold date_at, stamp_text.
  rewrite group_pad by (try apply pad2_digits; cbn; lia). cbn [obind].
  rewrite group_pad by (try apply pad2_digits; cbn; lia). cbn [obind].
  rewrite group_pad by (try apply pad4_digits; cbn; lia). cbn [obind].
  rewrite group_pad by (try apply pad2_digits; cbn; lia). cbn [obind].
  rewrite group_pad by (try apply pad2_digits; cbn; lia). cbn [obind].
  rewrite <- (app_nil_r (pad2 (second s))). rewrite span_digits; [|apply pad2_digits|exact I]. rewrite app_nil_r. reflexivity.
Qed.

Lemma number_pad2 : forall n, n < 100 -> number (pad2 n) = n.
Proof.
  intros n H. unfold number, pad2. cbn [fold_left]. destruct (is_digit_digit (n / 10)) as [_ E1]. destruct (is_digit_digit n) as [_ E2].
  rewrite E1, E2. assert (n / 10 < 10) by (apply Nat.div_lt_upper_bound; lia). rewrite (Nat.mod_small (n / 10)) by lia.
  pose proof (Nat.div_mod n 10 ltac:(lia)). lia.
Qed.
Lemma number_pad4 : forall n, n < 10 * 1000 -> number (pad4 n) = n.
Proof.
  intros n H. unfold number, pad4. cbn [fold_left].
  destruct (is_digit_digit (n / 1000)) as [_ E1]. destruct (is_digit_digit (n / 100)) as [_ E2].
  destruct (is_digit_digit (n / 10)) as [_ E3]. destruct (is_digit_digit n) as [_ E4].
  rewrite E1, E2, E3, E4. clear E1 E2 E3 E4.
  assert (H1 : n / 1000 < 10) by (apply Nat.div_lt_upper_bound; lia). rewrite (Nat.mod_small (n / 1000)) by exact H1.
  replace (n / 1000) with (n / 100 / 10) by (rewrite Nat.div_div by lia; reflexivity).
  replace (n / 100) with (n / 10 / 10) by (rewrite Nat.div_div by lia; reflexivity).
  pose proof (Nat.div_mod n 10 ltac:(lia)) as D1. pose proof (Nat.div_mod (n / 10) 10 ltac:(lia)) as D2.
  pose proof (Nat.div_mod (n / 10 / 10) 10 ltac:(lia)) as D3. clear - D1 D2 D3. lia.
Qed.

Lemma group_inv : forall lo hi l ds r, 1 <= lo -> group lo hi l = Some (ds, r) ->
  l = ds ++ us :: r /\ Forall (fun c => is_digit c = true) ds /\ ds <> [].
Proof.
  intros lo hi l ds r Hlo H. unfold group in H.
  assert (S : forall l a b, span l = (a, b) -> l = a ++ b /\ Forall (fun c => is_digit c = true) a).
  { clear. induction l as [|c l IH]; intros a b H; cbn [span] in H; [inversion H; auto|].
    destruct (is_digit c) eqn:E; [|inversion H; auto]. destruct (span l) as [x y]. inversion H; subst.
    destruct (IH x b eq_refl) as [-> F]. auto. }
  destruct (span l) as [a b] eqn:E. destruct (S l a b E) as [-> F].
  destruct (Nat.leb_spec lo (List.length a)); [|discriminate]. cbn [andb] in H.
  destruct (List.length a <=? hi); [|discriminate]. destruct b as [|c b]; [discriminate|].
  destruct (Ascii.eqb_spec c us); [|discriminate]. inversion H; subst. repeat split; auto.
  destruct ds; [cbn in *; lia | discriminate].
Qed.

(** Two numbers separated by an underscore. *)
Definition two_numbers (t : text) : Prop :=
  exists a x y b, t = a ++ x :: us :: y :: b /\ is_digit x = true /\ is_digit y = true.

Lemma date_at_two : forall l x, date_at l = Some x -> exists ds y r, ds <> [] /\ Forall (fun c => is_digit c = true) ds /\
  is_digit y = true /\ l = ds ++ us :: y :: r.
Proof.
  intros l x H. unfold date_at in H. destruct (group 1 2 l) as [[d l1]|] eqn:E1; [|discriminate]. cbn [obind] in H.
  destruct (group 1 2 l1) as [[m l2]|] eqn:E2; [|discriminate].
  apply group_inv in E1; [|lia]. apply group_inv in E2; [|lia].
  destruct E1 as (-> & F1 & N1). destruct E2 as (-> & F2 & N2). destruct m as [|y m]; [congruence|].
  exists d, y, (m ++ us :: l2). inversion F2; subst. auto.
Qed.

Lemma last_exists {A} : forall l : list A, l <> [] -> exists l' x, l = l' ++ [x].
Proof. intros l H. destruct (exists_last H) as (l' & x & E). eauto. Qed.

Lemma date_search_pre : forall pre s, ~ two_numbers pre -> (forall p c, pre = p ++ [c] -> is_digit c = false) ->
  date_search (pre ++ us :: stamp_text s) = date_at (stamp_text s).
Proof.
  induction pre as [|a pre IH]; intros s Hn Hl.
  - cbn [app date_search]. replace (date_at (us :: stamp_text s)) with (@None (list text)) by reflexivity.
    pose proof (date_at_stamp s) as E. destruct (stamp_text s) as [|c l] eqn:El; [reflexivity|].
    cbn [date_search]. rewrite E. reflexivity.
  - cbn [app date_search].
    replace (date_at (a :: pre ++ us :: stamp_text s)) with (@None (list text)).
    + apply IH.
      * intros (x & y & z & b & -> & H1 & H2). apply Hn. exists (a :: x), y, z, b. auto.
      * intros p c ->. apply (Hl (a :: p) c). reflexivity.
    + destruct (date_at (a :: pre ++ us :: stamp_text s)) as [x|] eqn:E; auto. exfalso.
      apply date_at_two in E. destruct E as (ds & y & r & Nd & Fd & Dy & E).
      change (a :: pre ++ us :: stamp_text s) with ((a :: pre) ++ us :: stamp_text s) in E.
      destruct (last_exists ds Nd) as (d0 & x0 & Ed).
      assert (Dx : is_digit x0 = true) by (rewrite Forall_forall in Fd; apply Fd; rewrite Ed; apply in_or_app; cbn; auto).
      apply app_eq_app in E. destruct E as (l & [[E1 E2] | [E1 E2]]).
      * destruct l as [|z l].
        -- rewrite app_nil_r in E1. rewrite (Hl d0 x0) in Dx; [discriminate | congruence].
        -- cbn [app] in E2. injection E2 as Ez E2. subst z. destruct l as [|z l].
           ++ cbn [app] in E2. injection E2 as Ey _. subst y. discriminate.
           ++ cbn [app] in E2. injection E2 as Ey _. subst z. apply Hn.
              exists d0, x0, y, l. split; auto. rewrite E1, Ed. rewrite <- app_assoc. reflexivity.
      * destruct l as [|z l].
        -- rewrite app_nil_r in E1. rewrite (Hl d0 x0) in Dx; [discriminate | congruence].
        -- cbn [app] in E2. injection E2 as Ez _. subst z.
           assert (K : is_digit us = true) by (rewrite Forall_forall in Fd; apply Fd; rewrite E1; apply in_or_app; cbn; auto).
           discriminate.
Qed.

(** The date read from a run's path is the moment it started, provided the rest
    of the path has no two numbers separated by an underscore and what comes
    before the date (the title, or the noise level) does not end with a digit. *)
Theorem C140_start_read_partial : forall r pre,
  run_path r = pre ++ us :: stamp_text (r_start r) -> ~ two_numbers pre -> (forall p c, pre = p ++ [c] -> is_digit c = false) ->
  valid_stamp (r_start r) = true -> 1000 <= year (r_start r) < 10 * 1000 ->
  folder_date (run_path r) = Ok (r_start r).
Proof.
  intros r pre E Hn Hl Hv Hy. unfold folder_date. rewrite E, date_search_pre, date_at_stamp by auto.
  unfold strptime. change (List.length (pad4 (year (r_start r))) =? 4) with true. cbv iota.
  unfold valid_stamp in Hv. repeat (apply andb_true_iff in Hv; destruct Hv as [Hv ?]).
  repeat match goal with H : (_ <=? _) = true |- _ => apply Nat.leb_le in H | H : (_ <? _) = true |- _ => apply Nat.ltb_lt in H end.
  assert (day (r_start r) <= 31).
  { unfold days_in in *. destruct (month (r_start r) =? 2); [destruct (leap _); lia|]. destruct (_ || _); lia. }
  rewrite !number_pad2, number_pad4 by lia.
  destruct (r_start r) as [d m y h mi s]. cbn [day month year hour minute second] in *.
  unfold valid_stamp. cbn [day month year hour minute second].
  repeat match goal with |- context [?a <=? ?b] => rewrite (proj2 (Nat.leb_le a b)) by lia end.
  repeat match goal with |- context [?a <? ?b] => rewrite (proj2 (Nat.ltb_lt a b)) by lia end.
  reflexivity.
Qed.
Print Assumptions C140_start_read_partial.

(** So such runs come back in the order in which they were started. *)
Theorem C140_start_order_partial : forall fs ex q L i j r1 r2,
  q_directories q = [] -> find_folders fs ex q = Ok L -> i < j ->
  nth_error L i = Some (run_path r1) -> nth_error L j = Some (run_path r2) ->
  (forall r, r = r1 \/ r = r2 -> valid_stamp (r_start r) = true /\ 1000 <= year (r_start r) < 10 * 1000 /\
    exists pre, run_path r = pre ++ us :: stamp_text (r_start r) /\ ~ two_numbers pre /\
      forall p c, pre = p ++ [c] -> is_digit c = false) ->
  before (r_start r1) (r_start r2) = true.
Proof.
  intros fs ex q L i j r1 r2 Qd H Hij Hi Hj Hr. destruct (C140_by_date fs ex q L Qd H) as [_ S].
  destruct (Hr r1 (or_introl eq_refl)) as (V1 & Y1 & p1 & E1 & N1 & D1).
  destruct (Hr r2 (or_intror eq_refl)) as (V2 & Y2 & p2 & E2 & N2 & D2).
  eapply S; eauto; eapply C140_start_read_partial; eauto.
Qed.
Print Assumptions C140_start_order_partial.

Example C140_nonvacuous :
  let r := ex_run (tx "base") 9 in
  valid_stamp (r_start r) = true /\ 1000 <= year (r_start r) < 10 * 1000 /\
  exists pre, run_path r = pre ++ us :: stamp_text (r_start r) /\ ~ two_numbers pre /\
    (forall p c, pre = p ++ [c] -> is_digit c = false) /\ folder_date (run_path r) = Ok (r_start r).
Proof.
  split; [reflexivity|]. split; [cbn; lia|].
  exists (tx "data/outputs/cambridge/exp1/JointTableSIM_MCMC_LowNoise_base").
  split; [vm_compute; reflexivity|]. split; [|split; [|vm_compute; reflexivity]].
  - intros (a & x & y & b & E & Hx & Hy).
    assert (G : forall (l : text) a, l = a ++ x :: us :: y :: b -> exists n, nth_error l n = Some x /\ nth_error l (S n) = Some us).
    { intros l a' ->. exists (List.length a'). rewrite !nth_error_app2 by lia. rewrite Nat.sub_diag.
      replace (S (List.length a') - List.length a') with 1 by lia. auto. }
    destruct (G _ _ E) as (n & G1 & G2). clear - Hx G1 G2.
    do 70 (destruct n as [|n]; [cbn in G1, G2; try (injection G1 as <-; discriminate); try discriminate|]).
    cbn in G1. discriminate.
  - intros p c E. apply (f_equal (fun l => rev l)) in E. rewrite rev_app_distr in E. cbn in E. injection E as <- _. reflexivity.
Qed.

(** A title ending in numbers is taken for part of the date: one such run makes
    every search that meets it fail, ... *)
Theorem C140_title_numbers_refuted :
  let bad := ex_run (tx "try_1_2_33") 5 in
  folder_date (run_path bad) = Raise EValue /\
  find_folders (ex_fs (bad :: ex_runs)) all_paths (ex_query [tx "Joint"] [[]] [] []) = Raise EValue.
Proof. split; vm_compute; reflexivity. Qed.
Print Assumptions C140_title_numbers_refuted.

(** ... or is sorted by the wrong date: the run started at 09:30:01 comes after the
    one started at 09:30:09. *)
Theorem C140_title_date_refuted :
  let old := ex_run (tx "05_10_2029") 1 in let new := ex_run (tx "base") 9 in
  before (r_start old) (r_start new) = true /\ before (r_start new) (r_start old) = false /\
  find_folders (ex_fs [old; new]) all_paths (ex_query [tx "Joint"] [[]] [] []) = Ok [run_path new; run_path old].
Proof. split; [|split]; vm_compute; reflexivity. Qed.
Print Assumptions C140_title_date_refuted.

(** Exclusions never work: with any given, the search never succeeds. *)
Theorem C140_exclude_refuted : forall fs ex q L,
  q_directories q = [] -> q_exclude q <> [] -> find_folders fs ex q <> Ok L.
Proof.
  intros fs ex q L Qd He H. destruct (find_ok fs ex q L Qd H) as (ps & _ & E & _). congruence.
Qed.
Print Assumptions C140_exclude_refuted.

Example C140_exclude_nonvacuous :
  find_folders (ex_fs ex_runs) all_paths (ex_query [tx "Joint"] [[]] [] [tx "extra"]) = Raise EType /\
  exists L, find_folders (ex_fs ex_runs) all_paths (ex_query [tx "Joint"] [[]] [] []) = Ok L.
Proof. split; [vm_compute; reflexivity | eexists; vm_compute; reflexivity]. Qed.

(** Naming directories explicitly returns exactly those that exist, in the order
    dataset by dataset, and fails when none does. *)
Theorem C140_directories : forall fs ex q,
  q_directories q <> [] ->
  (forall L, find_folders fs ex q = Ok L ->
    forall x, In x L <-> ex x = true /\ exists ds dr, In ds (q_datasets q) /\ In dr (q_directories q) /\ x = pjoin (pjoin (q_out q) ds) dr) /\
  ((exists ds dr, In ds (q_datasets q) /\ In dr (q_directories q) /\ ex (pjoin (pjoin (q_out q) ds) dr) = true) ->
   exists L, find_folders fs ex q = Ok L) /\
  ((forall ds dr, In ds (q_datasets q) -> In dr (q_directories q) -> ex (pjoin (pjoin (q_out q) ds) dr) = false) ->
   find_folders fs ex q = Raise EExn).
Proof.
  intros fs ex q Hd.
  set (L0 := filter ex (flat_map (fun ds => map (fun dr => pjoin (pjoin (q_out q) ds) dr) (q_directories q)) (q_datasets q))).
  assert (E : find_folders fs ex q = match L0 with [] => Raise EExn | _ => Ok L0 end).
  { unfold find_folders, L0. destruct (q_directories q); [congruence | reflexivity]. }
  assert (S : forall x, In x L0 <-> ex x = true /\ exists ds dr, In ds (q_datasets q) /\ In dr (q_directories q) /\ x = pjoin (pjoin (q_out q) ds) dr).
  { intros x. unfold L0. rewrite filter_In, in_flat_map. split.
    - intros [(ds & H1 & H2) H3]. apply in_map_iff in H2. destruct H2 as (dr & <- & H2). split; auto. exists ds, dr. auto.
    - intros [H3 (ds & dr & H1 & H2 & ->)]. split; auto. exists ds. split; auto. apply in_map_iff. eauto. }
  clearbody L0. rewrite E. split; [|split].
  - intros L H. destruct L0; inversion H; subst. exact S.
  - intros (ds & dr & H1 & H2 & H3). destruct L0 as [|x l]; [|eauto]. exfalso. apply (proj2 (S (pjoin (pjoin (q_out q) ds) dr))). eauto 8.
  - intros H. destruct L0 as [|x l]; auto. exfalso. destruct (proj1 (S x) (or_introl eq_refl)) as [H1 (ds & dr & H2 & H3 & ->)].
    rewrite H in H1; auto. discriminate.
Qed.
Print Assumptions C140_directories.

(** A directory given by an absolute path is looked up there, whatever the
    output directory and the datasets are. *)
Theorem C140_absolute_directories : forall fs ex q L,
  q_directories q <> [] -> q_datasets q <> [] ->
  (forall dr, In dr (q_directories q) -> exists r, dr = "/"%char :: r) ->
  find_folders fs ex q = Ok L ->
  forall x, In x L <-> ex x = true /\ In x (q_directories q).
Proof.
  intros fs ex q L Hd Hs Ha H x. destruct (C140_directories fs ex q Hd) as [D _]. rewrite (D L H x).
  assert (P : forall p dr, In dr (q_directories q) -> pjoin p dr = dr).
  { intros p dr I. destruct (Ha dr I) as [r ->]. reflexivity. }
  split.
  - intros (E & ds & dr & _ & I & ->). rewrite P in * by assumption. auto.
  - intros [E I]. split; [assumption|]. destruct (q_datasets q) as [|ds l]; [congruence|].
    exists ds, x. rewrite P by assumption. repeat split; auto. now left.
Qed.
Print Assumptions C140_absolute_directories.
Example C140_absolute_nonvacuous :
  find_folders (fun _ => None) (fun x => teqb x (tx "/data/run1"))
    (mkquery (tx "out") [] [tx "a"] [tx "/data/run1"; tx "/data/run2"] [] [] [] []) = Ok [tx "/data/run1"].
Proof. vm_compute. reflexivity. Qed.

Example C140_directories_nonvacuous :
  let q := mkquery (tx "out") [] [tx "a"; tx "b"] [tx "run1"; tx "run2"] [] [] [] [] in
  find_folders (fun _ => None) (fun x => negb (teqb x (tx "out/a/run2"))) q = Ok [tx "out/a/run1"; tx "out/b/run1"; tx "out/b/run2"].
Proof. vm_compute. reflexivity. Qed.
