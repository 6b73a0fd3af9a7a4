(** Properties C45 (range validation), C46 (range texts), C78 (file checks),
    C79 (entry checks) and C80 (list checks). *)
From Coq Require Import List ZArith QArith Qround Lia Bool String Ascii Lqa.
From Coq Require Import DecimalString DecimalZ Decimal.
From Verif Require Import Base PyMonad Schema.
Import ListNotations.
Local Open Scope Z_scope.

(** * Specification *)
(** [q] lies between the limits; [None] is no limit. *)
Definition within (lo hi : option Q) (q : Q) : Prop :=
  (forall l, lo = Some l -> (l <= q)%Q) /\ (forall h, hi = Some h -> (q <= h)%Q).
Definition strictly_within (lo hi : option Q) (q : Q) : Prop :=
  (forall l, lo = Some l -> (l < q)%Q) /\ (forall h, hi = Some h -> (q < h)%Q).

(** A schema with this range and these switches. *)
Definition range_schema (lo hi : option Q) (incl nan : option bool) : schema :=
  {| valid_range := Some (lo, hi); inclusive := incl; allow_nan := nan;
     is_infinite := None; is_any_of := []; contains := [] |}.

(** * C45 *)
Lemma Qltb_spec : forall a b, Qltb a b = true <-> (a < b)%Q.
Proof.
  intros a b. unfold Qltb. rewrite andb_true_iff, negb_true_iff. split.
  - intros [_ H]. apply Qnot_le_lt. intros H'. apply Qle_bool_iff in H'. congruence.
  - intros H. split; [apply Qle_bool_iff; lra|].
    destruct (Qle_bool b a) eqn:E; [|reflexivity]. apply Qle_bool_iff in E. lra.
Qed.

Lemma in_range_inclusive : forall v q lo hi nan, finite_of v = Some q ->
  exists b, in_range v lo hi nan true = Ok b /\ (b = true <-> within lo hi q).
Proof.
  intros v q lo hi nan Hv. unfold within.
  assert (E : in_range v lo hi nan true =
    Ok (match lo with None => true | Some l => Qle_bool l q end &&
        match hi with None => true | Some h => Qle_bool q h end)).
  { destruct v; cbn in Hv; try discriminate; injection Hv as <-; cbn [in_range finite_of];
      destruct lo as [l|], hi as [h|]; try destruct (Qle_bool l _); cbn; try reflexivity. }
  rewrite E. eexists. split; [reflexivity|].
  rewrite andb_true_iff. destruct lo as [l|], hi as [h|]; rewrite ?Qle_bool_iff; split;
    intros [H1 H2]; split; auto; intros; try discriminate;
    repeat match goal with H : Some _ = Some _ |- _ => injection H as <- end; auto.
Qed.

(** C45 with the ends included (the default): a finite value is accepted
    exactly when it lies in the range. *)
Theorem C45_inclusive_exact : forall v q lo hi nan, finite_of v = Some q ->
  (check_range v (range_schema lo hi None nan) = Ok tt <-> within lo hi q) /\
  (check_range v (range_schema lo hi (Some true) nan) = Ok tt <-> within lo hi q).
Proof.
  intros v q lo hi nan Hv.
  destruct (in_range_inclusive v q lo hi (opt_or false nan) Hv) as (b & E & Hb).
  unfold check_range. cbn [valid_range inclusive allow_nan range_schema opt_or]. rewrite E.
  destruct b; split; split; intros H; try reflexivity; try discriminate; try (now apply Hb);
    exfalso; apply Hb in H; discriminate.
Qed.
Print Assumptions C45_inclusive_exact.

(** Values that are not finite numbers are accepted exactly when allowed. *)
Theorem C45_not_finite_exact : forall v lo hi incl nan, v = VNone \/ v = VNan \/ (exists n, v = VInf n) ->
  (check_range v (range_schema lo hi incl nan) = Ok tt <-> nan = Some true).
Proof.
  intros v lo hi incl nan Hv. unfold check_range. cbn [valid_range inclusive allow_nan range_schema].
  assert (E : in_range v lo hi (opt_or false nan) (opt_or true incl) = Ok (opt_or false nan)).
  { destruct Hv as [->|[->|[n ->]]]; reflexivity. }
  rewrite E. destruct nan as [[]|]; cbn; split; congruence.
Qed.
Print Assumptions C45_not_finite_exact.

(** With the ends excluded the lower end is handled ... *)
Theorem C45_exclusive_lower_partial : forall v q lo nan, finite_of v = Some q ->
  (check_range v (range_schema lo None (Some false) nan) = Ok tt <-> strictly_within lo None q).
Proof.
  intros v q lo nan Hv. unfold check_range, strictly_within.
  cbn [valid_range inclusive allow_nan range_schema opt_or].
  assert (E : in_range v lo None (opt_or false nan) false =
    Ok (match lo with None => true | Some l => Qltb l q end)).
  { destruct v; cbn in Hv; try discriminate; injection Hv as <-; destruct lo; reflexivity. }
  rewrite E. destruct lo as [l|].
  - destruct (Qltb l q) eqn:El.
    + split; [|reflexivity]. intros _. apply Qltb_spec in El. split; intros ? H; [injection H as <-; auto|discriminate].
    + split; [discriminate|]. intros [H _]. specialize (H l eq_refl). apply Qltb_spec in H. congruence.
  - split; [|reflexivity]. intros _; split; discriminate.
Qed.
Print Assumptions C45_exclusive_lower_partial.

(** ... but with an upper limit every value is refused, also those strictly
    inside, because the value is compared with the lower limit again. *)
Theorem C45_exclusive_upper_refuted : forall v q lo h nan, finite_of v = Some q ->
  check_range v (range_schema lo (Some h) (Some false) nan) = Raise EExn.
Proof.
  intros v q lo h nan Hv. unfold check_range. cbn [valid_range inclusive allow_nan range_schema opt_or].
  assert (E : in_range v lo (Some h) (opt_or false nan) false <> Ok true).
  { destruct v; cbn in Hv; try discriminate; injection Hv as <-; cbn [in_range finite_of];
      (destruct lo as [l|]; [|cbn; discriminate]);
      match goal with |- context [Qltb l ?x] => destruct (Qltb l x) eqn:E1; cbn; [|discriminate];
        destruct (Qltb x l) eqn:E2; [|discriminate]; apply Qltb_spec in E1, E2; lra end. }
  destruct (in_range _ _ _ _ _) as [[]|]; auto; congruence.
Qed.
Print Assumptions C45_exclusive_upper_refuted.

Example C45_nonvacuous :
  check_range (VFloat (1#2)) (range_schema (Some 0%Q) (Some 1%Q) None None) = Ok tt /\
  check_range (VInt 2) (range_schema (Some 0%Q) (Some 1%Q) None None) = Raise EExn /\
  (* 1/2 is strictly between 0 and 1 and refused *)
  strictly_within (Some 0%Q) (Some 1%Q) (1#2) /\
  check_range (VFloat (1#2)) (range_schema (Some 0%Q) (Some 1%Q) (Some false) None) = Raise EExn.
Proof.
  split; [reflexivity|split; [reflexivity|split; [|reflexivity]]].
  split; intros ? H; injection H as <-; reflexivity.
Qed.

(** * Texts *)
Lemma split_on_join : forall c s, exists x l, split_on c s = x :: l /\
  s = fold_left (fun a b => a ++ String c b)%string l x.
Proof.
  intros c s. induction s as [|a s (x & l & E & Hs)]; cbn [split_on].
  - exists EmptyString, []. auto.
  - rewrite E. destruct (Ascii.eqb_spec a c) as [->|Hne].
    + exists EmptyString, (x :: l). split; [reflexivity|]. cbn [fold_left append].
      rewrite Hs. clear. revert x. induction l as [|y l IH]; intros x; cbn [fold_left]; [reflexivity|].
      rewrite IH. reflexivity.
    + exists (String a x), l. split; [reflexivity|]. rewrite Hs. clear.
      revert x. induction l as [|y l IH]; intros x; cbn [fold_left]; [reflexivity|].
      rewrite IH. reflexivity.
Qed.

Lemma count_char_app : forall c a b, count_char c (a ++ b) = (count_char c a + count_char c b)%nat.
Proof. intros c a b. induction a as [|x a IH]; cbn; [reflexivity|]. rewrite IH. lia. Qed.

Lemma split_on_none : forall c s, count_char c s = 0%nat -> split_on c s = [s].
Proof.
  intros c s. induction s as [|a s IH]; intros H; cbn in *; [reflexivity|].
  destruct (Ascii.eqb a c); [discriminate|]. rewrite IH by auto. reflexivity.
Qed.

Lemma split_on_app : forall c a b, count_char c a = 0%nat ->
  split_on c (a ++ String c b) = a :: split_on c b.
Proof.
  intros c a b. induction a as [|x a IH]; intros H; cbn [append split_on] in *.
  - rewrite Ascii.eqb_refl. reflexivity.
  - cbn in H. destruct (Ascii.eqb x c); [discriminate|]. rewrite IH by auto. reflexivity.
Qed.

Definition number_char (c : ascii) : bool :=
  existsb (Ascii.eqb c) ["0"; "1"; "2"; "3"; "4"; "5"; "6"; "7"; "8"; "9"; "."; "+"; "-"]%char.

Lemma digits_only : forall d c, number_char c = false ->
  count_char c (NilEmpty.string_of_uint d) = 0%nat.
Proof.
  intros d c Hc. cbn in Hc.
  repeat (apply orb_false_iff in Hc as [? Hc]).
  induction d; cbn [NilEmpty.string_of_uint count_char]; [reflexivity|..];
    rewrite IHd, Ascii.eqb_sym;
    match goal with H : Ascii.eqb c ?k = false |- context [Ascii.eqb c ?k] => rewrite H end; reflexivity.
Qed.

Lemma read_unsigned_chars : forall s q c, read_unsigned s = Some q -> number_char c = false ->
  count_char c s = 0%nat.
Proof.
  intros s q c H Hc. unfold read_unsigned in H.
  destruct (split_on_join "."%char s) as (x & l & E & Hs). rewrite E in H.
  assert (Hdig : forall t d, NilEmpty.uint_of_string t = Some d -> count_char c t = 0%nat).
  { intros t d Ht. apply NilEmpty.sus in Ht. subst t. now apply digits_only. }
  destruct l as [|y [|z l]]; [| |discriminate].
  - cbn in Hs. subst s. destruct (NilEmpty.uint_of_string x) eqn:Ex; [|discriminate]. eauto.
  - cbn in Hs. subst s.
    destruct (NilEmpty.uint_of_string x) eqn:Ex; [|discriminate].
    destruct (NilEmpty.uint_of_string y) eqn:Ey; [|destruct u; discriminate].
    rewrite count_char_app. cbn [count_char]. rewrite (Hdig _ _ Ex), (Hdig _ _ Ey).
    cbn in Hc. repeat (apply orb_false_iff in Hc as [? Hc]).
    rewrite Ascii.eqb_sym. destruct (Ascii.eqb c "."); [discriminate|reflexivity].
Qed.

Lemma read_decimal_cases : forall s,
  (exists r, s = String "-" r /\ read_decimal s = option_map Qopp (read_unsigned r)) \/
  (exists r, s = String "+" r /\ read_decimal s = read_unsigned r) \/
  read_decimal s = read_unsigned s.
Proof.
  intros [|c s]; [auto|].
  destruct (Ascii.eqb_spec c "-") as [->|H1]; [left; eexists; split; reflexivity|].
  destruct (Ascii.eqb_spec c "+") as [->|H2]; [right; left; eexists; split; reflexivity|].
  right; right. destruct c as [[] [] [] [] [] [] [] []]; try reflexivity; congruence.
Qed.

Lemma read_decimal_chars : forall s q c, read_decimal s = Some q -> number_char c = false ->
  count_char c s = 0%nat.
Proof.
  intros s q c H Hc.
  assert (Hs : Ascii.eqb "-" c = false /\ Ascii.eqb "+" c = false).
  { cbn in Hc. repeat (apply orb_false_iff in Hc as [? Hc]). rewrite !(Ascii.eqb_sym _ c). auto. }
  destruct (read_decimal_cases s) as [(r & -> & E)|[(r & -> & E)|E]]; rewrite E in H.
  - destruct (read_unsigned r) eqn:Er; [|discriminate]. cbn [count_char].
    rewrite (proj1 Hs). eapply read_unsigned_chars; eauto.
  - cbn [count_char]. rewrite (proj2 Hs). eapply read_unsigned_chars; eauto.
  - eapply read_unsigned_chars; eauto.
Qed.

(** The usual decimal text of an integer is read back as that integer. *)
Definition decimal_text (z : Z) : string := NilZero.string_of_int (Z.to_int z).

Lemma nilzero_nilempty : forall d, d <> Nil -> NilZero.string_of_uint d = NilEmpty.string_of_uint d.
Proof. intros [] H; try reflexivity; congruence. Qed.

Lemma read_unsigned_uint : forall d, d <> Nil ->
  read_unsigned (NilEmpty.string_of_uint d) = Some (inject_Z (Z.of_uint d)).
Proof.
  intros d Hd. unfold read_unsigned.
  assert (H0 : count_char "." (NilEmpty.string_of_uint d) = 0%nat).
  { clear. induction d; cbn; auto. }
  rewrite (split_on_none _ _ H0), NilEmpty.usu. destruct d; try reflexivity; congruence.
Qed.

Lemma decimal_text_read : forall z, read_decimal (decimal_text z) = Some (inject_Z z).
Proof.
  intros z. rewrite <- (DecimalZ.of_to z) at 2. unfold decimal_text.
  destruct (Z.to_int z) as [d|d] eqn:E.
  - assert (Hd : d <> Nil) by (intros ->; destruct z; try discriminate; cbn in E; injection E as E;
      exact (DecimalPos.Unsigned.to_uint_nonnil p E)).
    cbn [NilZero.string_of_int]. rewrite nilzero_nilempty by auto.
    assert (Hr : read_decimal (NilEmpty.string_of_uint d) = read_unsigned (NilEmpty.string_of_uint d))
      by (destruct d; reflexivity).
    rewrite Hr. apply read_unsigned_uint; auto.
  - assert (Hd : d <> Nil) by (intros ->; destruct z; try discriminate; cbn in E; injection E as E;
      exact (DecimalPos.Unsigned.to_uint_nonnil p E)).
    cbn [NilZero.string_of_int]. rewrite nilzero_nilempty by auto.
    cbn [read_decimal]. rewrite read_unsigned_uint by auto. reflexivity.
Qed.

(** * Single precision *)
Lemma rint_int : forall q n, (q == inject_Z n)%Q -> rint q = n.
Proof.
  intros q n H. unfold rint.
  assert (Hf : Qfloor q = n) by (rewrite (Qfloor_comp _ _ H); apply Qfloor_Z).
  rewrite Hf. assert (E : Qltb (q - inject_Z n) (1#2) = true) by (apply Qltb_spec; lra).
  rewrite E. reflexivity.
Qed.

Lemma qlog2_int : forall z, z <> 0 -> qlog2 (inject_Z z) = Z.log2 (Z.abs z).
Proof.
  intros z Hz. unfold qlog2. cbn [Qnum Qden inject_Z].
  change (Z.log2 1) with 0. rewrite Z.sub_0_r.
  assert (H : Qle_bool (Qpow2 (Z.log2 (Z.abs z))) (Z.abs z # 1) = true).
  { apply Qle_bool_iff. unfold Qpow2.
    pose proof (Z.log2_nonneg (Z.abs z)) as Hn.
    assert (El : (0 <=? Z.log2 (Z.abs z)) = true) by (apply Z.leb_le; auto). rewrite El.
    change (Z.abs z # 1) with (inject_Z (Z.abs z)). rewrite <- Zle_Qle.
    apply Z.log2_spec. lia. }
  rewrite H. reflexivity.
Qed.

Lemma inject_pow_pos : forall e, 0 <= e -> (0 < inject_Z (2 ^ e))%Q.
Proof. intros e He. change 0%Q with (inject_Z 0). rewrite <- Zlt_Qlt. apply Z.pow_pos_nonneg; lia. Qed.

Lemma f32_int : forall z, Z.abs z <= 2 ^ 24 -> (f32 (inject_Z z) == inject_Z z)%Q.
Proof.
  intros z Hz. unfold f32. destruct (Qeq_bool (inject_Z z) 0) eqn:E0.
  { apply Qeq_bool_iff in E0. rewrite E0. reflexivity. }
  assert (Hz0 : z <> 0) by (intros ->; discriminate).
  rewrite qlog2_int by auto. cbv zeta.
  pose proof (Z.log2_nonneg (Z.abs z)) as Hn.
  destruct (Z.log2_spec (Z.abs z)) as [Hl1 Hl2]; [lia|].
  rewrite Z.max_r by lia.
  destruct (Z.eq_dec (Z.abs z) (2 ^ 24)) as [Hmax|Hlt].
  - rewrite Hmax. change (Z.log2 (2 ^ 24) - 23) with 1.
    assert (Hr : rint (inject_Z z / Qpow2 1) = z / 2).
    { apply rint_int. destruct (Z.abs_eq_or_opp z) as [Ha|Ha]; rewrite Ha in Hmax;
        [|assert (z = - 2 ^ 24) by lia]; subst z; reflexivity. }
    rewrite Hr. destruct (Z.abs_eq_or_opp z) as [Ha|Ha]; rewrite Ha in Hmax;
      [|assert (z = - 2 ^ 24) by lia]; subst z; reflexivity.
  - assert (Hk : Z.log2 (Z.abs z) <= 23).
    { apply Z.lt_succ_r. change (Z.succ 23) with 24. apply Z.log2_lt_pow2; lia. }
    set (e := Z.log2 (Z.abs z) - 23) in *. assert (He : e <= 0) by lia.
    destruct (Z.eq_dec e 0) as [Ee|Ee].
    + rewrite Ee. change (Qpow2 0) with 1%Q.
      rewrite (rint_int _ z); [ring|field].
    + unfold Qpow2. assert (El : (0 <=? e) = false) by (apply Z.leb_gt; lia). rewrite El.
      pose proof (inject_pow_pos (- e) ltac:(lia)) as Hp.
      rewrite (rint_int _ (z * 2 ^ (- e))).
      * rewrite inject_Z_mult. field. lra.
      * rewrite inject_Z_mult. field. lra.
Qed.

Lemma string_to_numeric_int : forall s z, read_decimal s = Some (inject_Z z) -> Z.abs z <= 2 ^ 24 ->
  exists q, string_to_numeric s = Ok q /\ (q == inject_Z z)%Q.
Proof.
  intros s z Hs Hz. unfold string_to_numeric. rewrite Hs. cbv zeta.
  pose proof (f32_int z Hz) as Hf.
  assert (Efl : Qfloor (f32 (inject_Z z)) = z) by (rewrite (Qfloor_comp _ _ Hf); apply Qfloor_Z).
  rewrite Efl.
  assert (E : Qeq_bool (f32 (inject_Z z)) (inject_Z z) && (- 2 ^ 31 <=? z) && (z <? 2 ^ 31) = true).
  { rewrite !andb_true_iff, Z.leb_le, Z.ltb_lt. split; [split; [now apply Qeq_bool_iff|]|]; lia. }
  rewrite E. eauto.
Qed.

(** * arange *)
Lemma lt_Qceiling : forall k x, (k < Qceiling x) <-> (inject_Z k < x)%Q.
Proof.
  intros k x. split; intros H.
  - apply Qnot_le_lt. intros Hx. apply Qceiling_resp_le in Hx. rewrite Qceiling_Z in Hx. lia.
  - pose proof (Qle_ceiling x). rewrite Zlt_Qlt. lra.
Qed.

Lemma arange_spec : forall a b s, ~ (s == 0)%Q -> exists l, arange a b s = Ok l /\
  (forall k, (k < List.length l)%nat <->
     (inject_Z (Z.of_nat k) < (b - a) / s)%Q) /\
  (forall k, (k < List.length l)%nat -> (nth k l 0%Q == a + inject_Z (Z.of_nat k) * s)%Q).
Proof.
  intros a b s Hs. unfold arange.
  destruct (Qeq_bool s 0) eqn:E; [apply Qeq_bool_iff in E; tauto|].
  eexists. split; [reflexivity|]. rewrite map_length, seq_length. split.
  - intros k. rewrite <- lt_Qceiling. lia.
  - intros k Hk. set (f := fun k => (a + inject_Z (Z.of_nat k) * s)%Q).
    rewrite (nth_indep _ 0%Q (f 0%nat)) by (now rewrite map_length, seq_length).
    rewrite (map_nth f), seq_nth by auto. reflexivity.
Qed.

Lemma div_lt_pos : forall k d s, (0 < s)%Q -> (k < d / s <-> k * s < d)%Q.
Proof.
  intros k d s Hs. split; intros H.
  - apply Qmult_lt_r with (z := s) in H; auto. assert (E : (d / s * s == d)%Q) by (field; lra). lra.
  - apply Qmult_lt_r with (z := s); auto. assert (E : (d / s * s == d)%Q) by (field; lra). lra.
Qed.

(** The two sides of a range text. *)
Lemma parse_two : forall incl sa sb a b qa qb,
  read_decimal sa = Some a -> read_decimal sb = Some b ->
  string_to_numeric sa = Ok qa -> string_to_numeric sb = Ok qb ->
  parse_text incl (sa ++ ":" ++ sb) =
  rbind (arange qa (if opt_or true incl then qb + 1 else qb)%Q 1) (fun l => Ok (l, true)).
Proof.
  intros incl sa sb a b qa qb Ha Hb Na Nb. unfold parse_text.
  assert (Ca : count_char ":" sa = 0%nat) by (eapply read_decimal_chars; eauto).
  assert (Cb : count_char ":" sb = 0%nat) by (eapply read_decimal_chars; eauto).
  change (sa ++ ":" ++ sb)%string with (sa ++ String ":" sb)%string.
  rewrite count_char_app. cbn [count_char]. rewrite Ca, Cb. cbn [Nat.ltb Nat.leb Nat.add Ascii.eqb Bool.eqb].
  rewrite split_on_app, split_on_none by auto. cbn [mapr rbind]. rewrite Na, Nb. reflexivity.
Qed.

Lemma parse_three : forall incl sa sb sc a b c qa qb qc,
  read_decimal sa = Some a -> read_decimal sb = Some b -> read_decimal sc = Some c ->
  string_to_numeric sa = Ok qa -> string_to_numeric sb = Ok qb -> string_to_numeric sc = Ok qc ->
  parse_text incl (sa ++ ":" ++ sb ++ ":" ++ sc) =
  rbind (arange qa (if opt_or true incl then qb + 1 else qb)%Q qc) (fun l => Ok (l, true)).
Proof.
  intros incl sa sb sc a b c qa qb qc Ha Hb Hc Na Nb Nc. unfold parse_text.
  assert (Ca : count_char ":" sa = 0%nat) by (eapply read_decimal_chars; eauto).
  assert (Cb : count_char ":" sb = 0%nat) by (eapply read_decimal_chars; eauto).
  assert (Cc : count_char ":" sc = 0%nat) by (eapply read_decimal_chars; eauto).
  change (sa ++ ":" ++ sb ++ ":" ++ sc)%string with (sa ++ String ":" (sb ++ String ":" sc))%string.
  rewrite !count_char_app. cbn [count_char]. rewrite count_char_app. cbn [count_char].
  rewrite Ca, Cb, Cc. cbn [Nat.ltb Nat.leb Nat.add Ascii.eqb Bool.eqb].
  rewrite split_on_app, split_on_app, split_on_none by auto. cbn [mapr rbind]. rewrite Na, Nb, Nc. reflexivity.
Qed.

(** C46, integers without step: a:b is every integer from a to b, with b
    included unless the schema says otherwise. *)
Theorem C46_integer_range_partial : forall incl sa sb a b,
  read_decimal sa = Some (inject_Z a) -> read_decimal sb = Some (inject_Z b) ->
  Z.abs a <= 2 ^ 24 -> Z.abs b <= 2 ^ 24 ->
  exists l, parse_text incl (sa ++ ":" ++ sb) = Ok (l, true) /\
    List.length l = Z.to_nat (b - a + (if opt_or true incl then 1 else 0)) /\
    forall k, (k < List.length l)%nat -> (nth k l 0%Q == inject_Z (a + Z.of_nat k))%Q.
Proof.
  intros incl sa sb a b Ha Hb La Lb.
  destruct (string_to_numeric_int _ _ Ha La) as (qa & Na & Ea).
  destruct (string_to_numeric_int _ _ Hb Lb) as (qb & Nb & Eb).
  rewrite (parse_two incl _ _ _ _ _ _ Ha Hb Na Nb).
  destruct (arange_spec qa (if opt_or true incl then qb + 1 else qb)%Q 1) as (l & E & Hlen & Hnth); [lra|].
  rewrite E. exists l. split; [reflexivity|]. split.
  - set (m := b - a + (if opt_or true incl then 1 else 0)).
    assert (Hm : (((if opt_or true incl then qb + 1 else qb) - qa) / 1 == inject_Z m)%Q).
    { unfold m. unfold Z.sub. rewrite !inject_Z_plus, inject_Z_opp. destruct (opt_or true incl); rewrite Ea, Eb.
      - change (inject_Z 1) with 1%Q. field.
      - change (inject_Z 0) with 0%Q. field. }
    assert (Hk : forall k, (k < List.length l)%nat <-> Z.of_nat k < m).
    { intros k. rewrite Hlen, Hm, <- Zlt_Qlt. tauto. }
    destruct (Nat.lt_trichotomy (List.length l) (Z.to_nat m)) as [H|[H|H]]; auto.
    + assert (H' : (List.length l < List.length l)%nat) by (apply Hk; lia). lia.
    + apply Hk in H. lia.
  - intros k Hk. rewrite (Hnth k Hk), Ea, inject_Z_plus. ring.
Qed.
Print Assumptions C46_integer_range_partial.

(** C46, integers with a positive step: exactly the a+k*s not beyond b. *)
Theorem C46_integer_steps_partial : forall incl sa sb sc a b s,
  read_decimal sa = Some (inject_Z a) -> read_decimal sb = Some (inject_Z b) ->
  read_decimal sc = Some (inject_Z s) -> 0 < s ->
  Z.abs a <= 2 ^ 24 -> Z.abs b <= 2 ^ 24 -> Z.abs s <= 2 ^ 24 ->
  exists l, parse_text incl (sa ++ ":" ++ sb ++ ":" ++ sc) = Ok (l, true) /\
    (forall k, (k < List.length l)%nat <->
       if opt_or true incl then a + Z.of_nat k * s <= b else a + Z.of_nat k * s < b) /\
    forall k, (k < List.length l)%nat -> (nth k l 0%Q == inject_Z (a + Z.of_nat k * s))%Q.
Proof.
  intros incl sa sb sc a b s Ha Hb Hc Hs La Lb Ls.
  destruct (string_to_numeric_int _ _ Ha La) as (qa & Na & Ea).
  destruct (string_to_numeric_int _ _ Hb Lb) as (qb & Nb & Eb).
  destruct (string_to_numeric_int _ _ Hc Ls) as (qc & Nc & Ec).
  rewrite (parse_three incl _ _ _ _ _ _ _ _ _ Ha Hb Hc Na Nb Nc).
  assert (Hpos : (0 < qc)%Q) by (rewrite Ec; change 0%Q with (inject_Z 0); now rewrite <- Zlt_Qlt).
  destruct (arange_spec qa (if opt_or true incl then qb + 1 else qb)%Q qc) as (l & E & Hlen & Hnth); [lra|].
  rewrite E. exists l. split; [reflexivity|]. split.
  - intros k. rewrite Hlen, div_lt_pos by auto. destruct (opt_or true incl).
    + assert (Eq : ((inject_Z (Z.of_nat k) * qc < qb + 1 - qa) <->
        (inject_Z (Z.of_nat k * s) < inject_Z (b + 1 - a)))%Q).
      { rewrite inject_Z_mult. unfold Z.sub. rewrite !inject_Z_plus, inject_Z_opp, Ea, Eb, Ec.
        change (inject_Z 1) with 1%Q. split; intros; lra. }
      rewrite Eq, <- Zlt_Qlt. lia.
    + assert (Eq : ((inject_Z (Z.of_nat k) * qc < qb - qa) <->
        (inject_Z (Z.of_nat k * s) < inject_Z (b - a)))%Q).
      { rewrite inject_Z_mult. unfold Z.sub. rewrite !inject_Z_plus, inject_Z_opp, Ea, Eb, Ec.
        split; intros; lra. }
      rewrite Eq, <- Zlt_Qlt. lia.
  - intros k Hk. rewrite (Hnth k Hk), Ea, Ec, inject_Z_plus, inject_Z_mult. reflexivity.
Qed.
Print Assumptions C46_integer_steps_partial.

(** For any positive step (after conversion to single precision) the values
    are those below b+1 - not below b - when the end is included. *)
Theorem C46_general_steps_characterised : forall incl sa sb sc a b s qa qb qs,
  read_decimal sa = Some a -> read_decimal sb = Some b -> read_decimal sc = Some s ->
  string_to_numeric sa = Ok qa -> string_to_numeric sb = Ok qb -> string_to_numeric sc = Ok qs ->
  (0 < qs)%Q ->
  exists l, parse_text incl (sa ++ ":" ++ sb ++ ":" ++ sc) = Ok (l, true) /\
    (forall k, (k < List.length l)%nat <->
       (qa + inject_Z (Z.of_nat k) * qs < (if opt_or true incl then qb + 1 else qb))%Q) /\
    forall k, (k < List.length l)%nat -> (nth k l 0%Q == qa + inject_Z (Z.of_nat k) * qs)%Q.
Proof.
  intros incl sa sb sc a b s qa qb qs Ha Hb Hc Na Nb Nc Hs.
  rewrite (parse_three incl _ _ _ _ _ _ _ _ _ Ha Hb Hc Na Nb Nc).
  destruct (arange_spec qa (if opt_or true incl then qb + 1 else qb)%Q qs) as (l & E & Hlen & Hnth); [lra|].
  rewrite E. exists l. split; [reflexivity|]. split; [|auto].
  intros k. rewrite Hlen, div_lt_pos by auto. split; intros; lra.
Qed.
Print Assumptions C46_general_steps_characterised.

(** So a fractional step overshoots: 0:1:0.5 contains 3/2. *)
Theorem C46_overshoot_refuted : exists l x, parse_text None "0:1:0.5" = Ok (l, true) /\
  In x l /\ (x > 1)%Q.
Proof. eexists. eexists. split; [vm_compute; reflexivity|]. split; [right; right; right; left; reflexivity|reflexivity]. Qed.
Print Assumptions C46_overshoot_refuted.

(** A descending range loses its end: 3:1:-1 stops at 2... *)
Theorem C46_descending_refuted : exists l, parse_text None "3:1:-1" = Ok (l, true) /\
  forall x, In x l -> ~ (x == 1)%Q.
Proof.
  eexists. split; [vm_compute; reflexivity|]. intros x [<-|[]] H; discriminate H.
Qed.
Print Assumptions C46_descending_refuted.

(** Integers beyond 2^24 change: the range 16777217:16777217 holds 16777216. *)
Theorem C46_large_integer_refuted :
  parse_text None (decimal_text 16777217 ++ ":" ++ decimal_text 16777217) = Ok ([inject_Z 16777216], true).
Proof. vm_compute. reflexivity. Qed.
Print Assumptions C46_large_integer_refuted.

(** A text that is neither a range nor a repetition ends the program. *)
Theorem C46_plain_text_refuted : forall incl s, count_char ":" s = 0%nat ->
  substring_of "repeat" s = false -> parse_text incl s = Raise EType.
Proof. intros incl s H1 H2. unfold parse_text. now rewrite H1, H2. Qed.
Print Assumptions C46_plain_text_refuted.

(** repeat(x,n) is n copies of x. *)
Theorem C46_repeat : forall incl sx sn x n,
  read_decimal sx = Some (inject_Z x) -> read_decimal sn = Some (inject_Z n) ->
  Z.abs x <= 2 ^ 24 -> 0 <= n <= 2 ^ 24 ->
  exists l, parse_text incl ("repeat(" ++ sx ++ "," ++ sn ++ ")") = Ok (l, true) /\
    List.length l = Z.to_nat n /\ Forall (fun q => (q == inject_Z x)%Q) l.
Proof.
  intros incl sx sn x n Hx Hn Lx Ln.
  destruct (string_to_numeric_int _ _ Hx Lx) as (qx & Nx & Ex).
  destruct (string_to_numeric_int _ _ Hn ltac:(lia)) as (qn & Nn & En).
  assert (C : forall c, number_char c = false -> count_char c sx = 0%nat /\ count_char c sn = 0%nat).
  { intros c Hc. split; eapply read_decimal_chars; eauto. }
  unfold parse_text.
  assert (E0 : count_char ":" ("repeat(" ++ sx ++ "," ++ sn ++ ")") = 0%nat).
  { rewrite !count_char_app. destruct (C ":"%char eq_refl) as [-> ->]. reflexivity. }
  rewrite E0. cbn [Nat.ltb Nat.leb].
  assert (E1 : substring_of "repeat" ("repeat(" ++ sx ++ "," ++ sn ++ ")") = true).
  { cbn. destruct (sx ++ String "," (sn ++ ")"))%string; reflexivity. }
  rewrite E1.
  change ("repeat(" ++ sx ++ "," ++ sn ++ ")")%string
    with ("repeat" ++ String "(" (sx ++ String "," (sn ++ String ")" EmptyString)))%string.
  rewrite split_on_app by reflexivity.
  assert (E2 : split_on "(" (sx ++ String "," (sn ++ String ")" EmptyString)) =
    [(sx ++ String "," (sn ++ String ")" EmptyString))%string]).
  { apply split_on_none. rewrite count_char_app. cbn [count_char]. rewrite count_char_app.
    destruct (C "("%char eq_refl) as [-> ->]. reflexivity. }
  rewrite E2. cbn [last].
  assert (E3 : split_on ")" (sx ++ String "," (sn ++ String ")" EmptyString)) =
    [(sx ++ String "," sn)%string; EmptyString]).
  { assert (Ea : (sx ++ String "," (sn ++ String ")" EmptyString) = (sx ++ String "," sn) ++ String ")" EmptyString)%string).
    { clear. induction sx as [|c s IH]; cbn; [reflexivity|now rewrite IH]. }
    rewrite Ea, split_on_app; [reflexivity|]. rewrite count_char_app. cbn [count_char].
    destruct (C ")"%char eq_refl) as [-> ->]. reflexivity. }
  rewrite E3. cbn [hd].
  rewrite split_on_app, split_on_none by (apply (C ","%char eq_refl)).
  rewrite Nx, Nn. cbn [rbind].
  assert (Efl : Qfloor qn = n) by (rewrite (Qfloor_comp _ _ En); apply Qfloor_Z).
  rewrite Efl. assert (E4 : Qeq_bool qn (inject_Z n) = true) by (now apply Qeq_bool_iff). rewrite E4.
  assert (E5 : Qle_bool 0 qn = true).
  { apply Qle_bool_iff. rewrite En. change 0%Q with (inject_Z 0). rewrite <- Zle_Qle. lia. }
  rewrite E5. eexists. split; [reflexivity|]. split; [apply repeat_length|].
  apply Forall_forall. intros q Hq. apply repeat_spec in Hq. now subst q.
Qed.
Print Assumptions C46_repeat.

(** A list of numbers and range texts expands to the concatenation of the
    expansions, in order; one failing text fails the whole list. *)
Theorem C46_list_concatenates : forall incl l,
  (forall d, In d l -> exists xs, parse_datum incl d = Ok (xs, true)) ->
  exists xss, Forall2 (fun d xs => parse_datum incl d = Ok (xs, true)) l xss /\
    parse_list incl l = Ok (List.concat xss, true).
Proof.
  intros incl l. unfold parse_list. induction l as [|d l IH]; intros H.
  - exists []. split; [constructor|reflexivity].
  - destruct (H d (or_introl eq_refl)) as [xs Ed].
    destruct IH as (xss & HF & E); [intros; apply H; right; auto|].
    destruct (mapr (parse_datum incl) l) as [rs|] eqn:Er; cbn [rbind] in E; [|discriminate].
    exists (xs :: xss). split; [constructor; auto|].
    cbn [mapr]. rewrite Ed, Er. cbn [rbind map fst snd List.concat forallb andb].
    injection E as -> ->. reflexivity.
Qed.
Print Assumptions C46_list_concatenates.

Example C46_nonvacuous :
  read_decimal (decimal_text (-3)) = Some (inject_Z (-3)) /\
  (exists l, parse_text None (decimal_text (-3) ++ ":" ++ decimal_text 2) = Ok (l, true) /\
     Forall2 Qeq l [inject_Z (-3); inject_Z (-2); inject_Z (-1); 0; 1; inject_Z 2]%Q) /\
  (exists l, parse_text (Some false) "1:10:3" = Ok (l, true) /\
     Forall2 Qeq l [1; inject_Z 4; inject_Z 7]%Q).
Proof.
  split; [apply decimal_text_read|].
  split; (eexists; split; [vm_compute; reflexivity|repeat constructor]).
Qed.

(** * C78: file checks *)
(** With both extension keys present a file is accepted exactly when it exists
    (if that is demanded) and its name ends in a dot and the extension. *)
Lemma append_length : forall a b, String.length (a ++ b) = (String.length a + String.length b)%nat.
Proof. intros a b. induction a as [|x a IH]; cbn; [reflexivity|now rewrite IH]. Qed.

Lemma substring_app : forall a b, substring (String.length a) (String.length b) (a ++ b) = b.
Proof.
  intros a b. induction a as [|x a IH]; cbn; [|exact IH].
  induction b as [|y b IH]; cbn; [reflexivity|now rewrite IH].
Qed.

Lemma substring_split : forall s n, (n <= String.length s)%nat ->
  (substring 0 n s ++ substring n (String.length s - n) s = s)%string.
Proof.
  induction s as [|c s IH]; intros [|n] H; cbn in *; try reflexivity; try lia.
  - f_equal. clear. induction s as [|d s IH]; cbn; [reflexivity|now rewrite IH].
  - f_equal. apply IH. lia.
Qed.

Lemma ends_with_spec : forall s t, ends_with s t = true <-> exists r, s = (r ++ t)%string.
Proof.
  intros s t. unfold ends_with. rewrite andb_true_iff, Nat.leb_le, String.eqb_eq. split.
  - intros [Hl E]. exists (substring 0 (String.length s - String.length t) s).
    pose proof (substring_split s (String.length s - String.length t) ltac:(lia)) as Hsp.
    replace (String.length s - (String.length s - String.length t))%nat with (String.length t) in Hsp by lia.
    rewrite E in Hsp. symmetry. exact Hsp.
  - intros [r ->]. rewrite append_length. split; [lia|].
    replace (String.length r + String.length t - String.length t)%nat with (String.length r) by lia.
    apply substring_app.
Qed.

Theorem C78_file_check_partial : forall exists_ is_file d must ext e,
  check_file exists_ is_file d {| p_exists := must; p_extension := Some ext; p_file_extension := Some e |} = Ok tt <->
  (must = true -> exists_ d = true) /\ exists r, d = (r ++ "." ++ e)%string.
Proof.
  intros exists_ is_file d must ext e. unfold check_file, check_path_exists, check_extension.
  cbn [p_exists p_extension p_file_extension rbind].
  pose proof (ends_with_spec d (String "." e)) as Hs.
  change ("." ++ e)%string with (String "." e).
  destruct must, (exists_ d); cbn [rbind]; destruct (ends_with d (String "." e)); split; intros H;
    try discriminate; try reflexivity.
  all: try (destruct H as [H1 H2]; try (specialize (H1 eq_refl); discriminate); apply Hs in H2; discriminate).
  all: split; auto; apply Hs; reflexivity.
Qed.
Print Assumptions C78_file_check_partial.

(** With [file-extension] alone, as every file of the shipped schema is
    declared, or with [extension] alone, any file name is accepted. *)
Theorem C78_extension_never_checked_refuted : forall exists_ is_file d e,
  check_file exists_ is_file d {| p_exists := false; p_extension := None; p_file_extension := Some e |} = Ok tt /\
  check_file exists_ is_file d {| p_exists := false; p_extension := Some e; p_file_extension := None |} = Ok tt.
Proof. intros; split; reflexivity. Qed.
Print Assumptions C78_extension_never_checked_refuted.

(** A directory setting pointing to a regular file, and a file setting
    pointing to a directory, are accepted. *)
Theorem C78_kind_not_checked_refuted : forall exists_ d s, exists_ d = true ->
  (forall is_dir, check_directory exists_ is_dir d s = Ok tt) /\
  (forall is_file, p_extension s = None -> check_file exists_ is_file d s = Ok tt).
Proof.
  intros exists_ d s H. unfold check_directory, check_file, check_path_exists, check_extension. rewrite H.
  split; [intros; destruct (p_exists s); reflexivity|].
  intros is_file E. rewrite E. destruct (p_exists s); reflexivity.
Qed.
Print Assumptions C78_kind_not_checked_refuted.

Example C78_nonvacuous :
  check_file (fun d => String.eqb d "a.txt") (fun _ => true) "a.txt"
    {| p_exists := true; p_extension := Some "txt"; p_file_extension := Some "txt" |}%string = Ok tt /\
  check_file (fun _ => true) (fun _ => true) "a.npy"
    {| p_exists := true; p_extension := Some "txt"; p_file_extension := Some "txt" |}%string = Raise EExn /\
  check_file (fun _ => true) (fun _ => true) "a.npy"
    {| p_exists := true; p_extension := None; p_file_extension := Some "txt" |}%string = Ok tt.
Proof. repeat split; reflexivity. Qed.

(** * C79: entry checks *)
Lemma seq_ok : forall (a b : res unit), rbind a (fun _ => b) = Ok tt <-> a = Ok tt /\ b = Ok tt.
Proof. intros [[]|e] b; cbn; split; [auto|tauto|discriminate|intros [H _]; discriminate]. Qed.

(** Number entries without [allow-nan]: accepted exactly when the value has
    the declared type, is finite if that is demanded or a range is given, is
    in the range (ends included) and is one of the listed values. *)
Theorem C79_number_check_partial : forall v t s,
  t = TInt \/ t = TFloat -> opt_or false (allow_nan s) = false -> opt_or true (inclusive s) = true ->
  contains s = [] ->
  (check_primitive v t s = Ok tt <->
   isinstance v t = true /\
   (is_infinite s = Some false -> exists q, finite_of v = Some q) /\
   (forall lo hi, valid_range s = Some (lo, hi) -> exists q, finite_of v = Some q /\ within lo hi q) /\
   (is_any_of s = [] \/ exists x, In x (is_any_of s) /\ py_eq v x = true)).
Proof.
  intros v t s Ht Hnan Hinc Hcon.
  assert (E : check_primitive v t s =
    (check_type v t s ;; check_finiteness v s ;; check_range v s ;; check_scope v s)%Z)
    by (destruct Ht as [-> | ->]; reflexivity).
  rewrite E, !seq_ok. clear E.
  assert (H1 : check_type v t s = Ok tt <-> isinstance v t = true).
  { unfold check_type. rewrite Hnan, orb_false_r. destruct (isinstance v t); split; congruence. }
  assert (H2 : check_finiteness v s = Ok tt <-> (is_infinite s = Some false -> exists q, finite_of v = Some q)).
  { unfold check_finiteness. destruct (is_infinite s) as [[]|]; cbn [opt_or].
    - split; [discriminate|reflexivity].
    - destruct (finite_of v); split; eauto; try discriminate. intros H. destruct (H eq_refl); discriminate.
    - split; [discriminate|reflexivity]. }
  assert (H3 : isinstance v t = true -> (check_range v s = Ok tt <->
    (forall lo hi, valid_range s = Some (lo, hi) -> exists q, finite_of v = Some q /\ within lo hi q))).
  { intros Hi. unfold check_range. destruct (valid_range s) as [[lo hi]|].
    - rewrite Hnan, Hinc. destruct (finite_of v) as [q|] eqn:Ev.
      + destruct (in_range_inclusive v q lo hi false Ev) as (b & Eb & Hb). rewrite Eb.
        destruct b; split; intros H; try reflexivity; try discriminate.
        * intros lo' hi' El. injection El as <- <-. exists q. split; [reflexivity|now apply Hb].
        * destruct (H lo hi eq_refl) as (q' & Eq & Hw). injection Eq as <-. apply Hb in Hw. discriminate.
      + assert (Er : in_range v lo hi false true <> Ok true) by (destruct v; cbn in *; congruence).
        split; intros H.
        * destruct (in_range v lo hi false true) as [[]|]; congruence.
        * destruct (H lo hi eq_refl) as (q & Eq & _). discriminate.
    - split; [discriminate|reflexivity]. }
  assert (H4 : check_scope v s = Ok tt <-> (is_any_of s = [] \/ exists x, In x (is_any_of s) /\ py_eq v x = true)).
  { unfold check_scope. rewrite Hcon, seq_ok. destruct (is_any_of s) as [|x l].
    - split; auto.
    - destruct (existsb (py_eq v) (x :: l)) eqn:Ee.
      + apply existsb_exists in Ee. split; auto.
      + split; [intros [H _]; discriminate|]. intros [H|H]; [discriminate|].
        apply existsb_exists in H. congruence. }
  rewrite H1, H2, H4. split.
  - intros (A & B & C & D). pose proof (proj1 (H3 A) C). auto.
  - intros (A & B & C & D). pose proof (proj2 (H3 A) C). auto.
Qed.
Print Assumptions C79_number_check_partial.

(** With [allow-nan] and no range the type is not checked at all: any value is
    accepted for a number. *)
Theorem C79_allow_nan_accepts_anything_refuted : forall v t s,
  allow_nan s = Some true -> valid_range s = None -> is_infinite s = None ->
  is_any_of s = [] -> contains s = [] -> check_primitive v t s = Ok tt.
Proof.
  intros v t s H1 H2 H3 H4 H5. unfold check_primitive, check_type, check_finiteness, check_range, check_scope.
  rewrite H1, H2, H3, H4, H5. cbn [opt_or]. rewrite orb_true_r. destruct t; reflexivity.
Qed.
Print Assumptions C79_allow_nan_accepts_anything_refuted.

(** Boolean entries are never checked. *)
Theorem C79_bool_unchecked_refuted : forall v s, check_primitive v TBool s = Ok tt.
Proof. reflexivity. Qed.
Print Assumptions C79_bool_unchecked_refuted.

(** Text entries (without [allow-nan] and [contains]) are exact. *)
Theorem C79_text_check_partial : forall v s,
  opt_or false (allow_nan s) = false -> contains s = [] ->
  (check_primitive v TStr s = Ok tt <->
   exists t, v = VStr t /\ (is_any_of s = [] \/ exists x, In x (is_any_of s) /\ x = VStr t)).
Proof.
  intros v s Hnan Hcon. unfold check_primitive, check_type, check_scope.
  rewrite Hnan, Hcon, orb_false_r, !seq_ok.
  destruct v; cbn [isinstance]; try (split; [intros [H _]; discriminate|intros (t & H & _); discriminate]).
  destruct (is_any_of s) as [|x l] eqn:El; [split; eauto|].
  destruct (existsb (py_eq (VStr s0)) (x :: l)) eqn:Ee.
  - split; [|auto]. intros _. exists s0. split; [reflexivity|right].
    apply existsb_exists in Ee as (y & Hy & E). exists y. split; auto.
    destruct y; cbn in E; try discriminate. apply String.eqb_eq in E. now subst.
  - split; [intros [_ [H _]]; discriminate|].
    intros (t & E & [H|(y & Hy & ->)]); [discriminate|]. injection E as <-.
    exfalso. assert (existsb (py_eq (VStr s0)) (x :: l) = true); [|congruence].
    apply existsb_exists. exists (VStr s0). split; auto. cbn. apply String.eqb_refl.
Qed.
Print Assumptions C79_text_check_partial.

Definition plain_schema : schema :=
  {| valid_range := Some (Some 0%Q, None); inclusive := None; allow_nan := None;
     is_infinite := None; is_any_of := []; contains := [] |}.

Example C79_nonvacuous :
  check_primitive (VInt 3) TInt plain_schema = Ok tt /\
  check_primitive (VInt (-3)) TInt plain_schema = Raise EExn /\
  check_primitive (VStr "3") TInt plain_schema = Raise EExn /\
  check_primitive (VStr "yes") TBool plain_schema = Ok tt.
Proof. repeat split; reflexivity. Qed.

(** * C80: lists *)
Lemma has_dup_false : forall l, has_dup l = false <-> NoDup l.
Proof.
  assert (Hm : forall x l, mem x l = true <-> In x l).
  { intros x l. induction l as [|y l IH]; cbn; [intuition discriminate|].
    rewrite orb_true_iff, String.eqb_eq, IH. intuition congruence. }
  induction l as [|x l IH]; cbn; [split; [constructor|reflexivity]|].
  rewrite orb_false_iff, IH. split.
  - intros [H1 H2]. constructor; auto. rewrite <- Hm. congruence.
  - intros H. inversion H; subst. split; auto. destruct (mem x l) eqn:E; auto. apply Hm in E. tauto.
Qed.

Lemma check_element_list : forall s items,
  check_element (EList s items) = Ok tt <-> Forall (fun e => check_element e = Ok tt) items.
Proof.
  intros s items. induction items as [|e items IH].
  - cbn. split; [constructor|reflexivity].
  - change (check_element (EList s (e :: items))) with
      (rbind (check_element e) (fun _ => check_element (EList s items))).
    rewrite seq_ok, IH. split; [intros []; constructor; auto|intros H; inversion H; auto].
Qed.

(** A list of the permitted length. *)
Definition length_ok (n : nat) (s : list_schema) : Prop :=
  match l_length s with
  | None => True
  | Some (LenRange lo hi) => within lo hi (inject_Z (Z.of_nat n))
  | Some (LenExact m) => Z.of_nat n = m
  end.

Lemma check_length_ok : forall n s, check_length n s = Ok tt <-> length_ok n s.
Proof.
  intros n s. unfold check_length, length_ok. destruct (l_length s) as [[lo hi|m]|]; [| |tauto].
  - destruct (in_range_inclusive (VInt (Z.of_nat n)) (inject_Z (Z.of_nat n)) lo hi false eq_refl) as (b & E & Hb).
    rewrite E. destruct b; split; intros H; try reflexivity; try discriminate; try (now apply Hb).
    apply Hb in H. discriminate.
  - destruct (Z.eqb_spec (Z.of_nat n) m); split; congruence.
Qed.

(** C80 for lists of primitive values: accepted exactly when the length is
    permitted, the printed values differ (if uniqueness is demanded) and every
    value passes its own check. *)
Theorem C80_flat_list_exact_partial : forall show s vs,
  check_list show s (map (fun x => Prim (fst (fst x)) (snd (fst x)) (snd x)) vs) = Ok tt <->
  length_ok (List.length vs) s /\
  (l_unique s = true -> NoDup (map (fun x => show (Prim (fst (fst x)) (snd (fst x)) (snd x))) vs)) /\
  forall v t sc, In (v, t, sc) vs -> check_primitive v t sc = Ok tt.
Proof.
  intros show s vs. unfold check_list. rewrite !seq_ok, check_length_ok, map_length, check_element_list.
  assert (Hu : check_uniqueness show (map (fun x => Prim (fst (fst x)) (snd (fst x)) (snd x)) vs) s = Ok tt <->
    (l_unique s = true -> NoDup (map (fun x => show (Prim (fst (fst x)) (snd (fst x)) (snd x))) vs))).
  { unfold check_uniqueness. rewrite map_map. destruct (l_unique s); [|split; [discriminate|reflexivity]].
    rewrite <- has_dup_false. destruct (has_dup _); split; try congruence. intros H. specialize (H eq_refl). discriminate. }
  rewrite Hu, Forall_forall. split; intros (A & B & C); repeat split; auto.
  - intros v t sc Hin. apply (C (Prim v t sc)). apply in_map_iff. exists (v, t, sc). auto.
  - intros e He. apply in_map_iff in He as ([[v t] sc] & <- & Hin). apply C; auto.
Qed.
Print Assumptions C80_flat_list_exact_partial.

(** The length and uniqueness demanded of an inner list are never checked:
    whatever they are, the outer check gives the same answer. *)
Theorem C80_nested_lists_unchecked_refuted : forall show s inner_schema1 inner_schema2 items,
  l_unique s = false ->
  check_list show s [EList inner_schema1 items] = check_list show s [EList inner_schema2 items].
Proof. intros show s i1 i2 items H. unfold check_list, check_uniqueness. now rewrite H. Qed.
Print Assumptions C80_nested_lists_unchecked_refuted.

(** Different values that print alike (1 and the text "1") are refused as
    duplicates. *)
Theorem C80_printing_alike_refused_refuted : forall show s a b sa sb,
  l_unique s = true -> show (Prim a TInt sa) = show (Prim b TStr sb) ->
  check_list show s [Prim a TInt sa; Prim b TStr sb] = Raise EExn.
Proof.
  intros show s a b sa sb Hu Hs. unfold check_list, check_uniqueness. rewrite Hu. cbn [map has_dup mem].
  rewrite Hs, String.eqb_refl. cbn. unfold check_length.
  destruct (l_length s) as [[lo hi|m]|]; try reflexivity.
  - destruct (in_range _ _ _ _ _) as [[]|]; reflexivity.
  - match goal with |- context [if ?x then _ else _] => destruct x end; reflexivity.
Qed.
Print Assumptions C80_printing_alike_refused_refuted.

Example C80_nonvacuous :
  let show e := match e with Prim (VInt z) _ _ => decimal_text z | Prim (VStr t) _ _ => t | _ => EmptyString end in
  let s := {| l_length := Some (LenRange (Some 1%Q) (Some (inject_Z 3))); l_unique := true |} in
  check_list show s [Prim (VInt 1) TInt plain_schema; Prim (VInt 2) TInt plain_schema] = Ok tt /\
  check_list show s [Prim (VInt 1) TInt plain_schema; Prim (VInt 1) TInt plain_schema] = Raise EExn /\
  check_list show s [] = Raise EExn /\
  check_list show s [Prim (VInt 1) TInt plain_schema; Prim (VStr "1") TStr plain_schema] = Raise EExn.
Proof. repeat split; reflexivity. Qed.
