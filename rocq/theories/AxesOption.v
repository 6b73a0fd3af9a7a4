(** The --axes option: utils/click_parsers.py 186-198 (PythonLiteralOption),
    main.py 129-132, for texts that denote lists of integers; what eval makes of
    any other Python expression is not modelled and counts as a failure of
    eval.  Theorem C206. *)
From Coq Require Import List ZArith Lia Bool Arith String Ascii.
From Verif Require Import Base PyMonad Schema SchemaProps TextCodec TextCodecProps CommandLine CommandLineProps.
Import ListNotations.
Local Open Scope string_scope.

(** The items between the brackets: none for a blank, a comma after the last one
    allowed, spaces around each ignored. *)
Definition items (inner : string) : list string :=
  let ps := map strip (split_on "," inner) in
  match rev ps with
  | "" :: r => rev r
  | _ => ps
  end.

(** eval of one item, click_parsers.py 195: a list literal of integers; anything
    else fails here with something that is not a ValueError (SyntaxError,
    NameError, ...).  Simplified: an item with leading zeros is accepted here and
    refused by Python. *)
Definition eval_list (s : string) : res (list Z) :=
  match strip s with
  | String c r =>
      if Ascii.eqb c "[" then
        match split_on "]" r with
        | [inner; ""] => match all_ints (items inner) with Ok l => Ok l | Raise _ => Raise EExn end
        | _ => Raise EExn
        end
      else Raise EExn
  | "" => Raise EExn
  end.

(** type_cast_value, click_parsers.py 188-198, for multiple = True: None without
    the option, else one value per occurrence (188: the comparison of the tuple
    with '[]' is always false); a ValueError becomes click's usage error
    (EValue), other failures of eval pass through. *)
Fixpoint eval_all (l : list string) : res (list (list Z)) :=
  match l with
  | [] => Ok []
  | s :: r => rbind (eval_list s) (fun a => rbind (eval_all r) (fun b => Ok (a :: b)))
  end.
Definition axes_option (value : option (list string)) : res (option (list (list Z))) :=
  match value with
  | None => Ok None
  | Some l => rbind (eval_all l) (fun r => Ok (Some r))
  end.

(** ** Specification: a list of axes as a user writes it, with any number of
    spaces before the bracket and after the commas, and with or without a comma
    after the last one. *)
Fixpoint spaces (n : nat) : string := match n with O => "" | S m => String " " (spaces m) end.
Fixpoint comma_separated (after : nat) (l : list Z) : string :=
  match l with
  | [] => ""
  | [z] => decimal_text z
  | z :: r => decimal_text z ++ "," ++ spaces after ++ comma_separated after r
  end.
Definition last_comma (trailing : bool) (l : list Z) : string :=
  match l with [] => "" | _ => if trailing then "," else "" end.
Definition as_typed (before after : nat) (trailing : bool) (l : list Z) : string :=
  spaces before ++ "[" ++ (comma_separated after l ++ last_comma trailing l) ++ "]".

Lemma lstrip_spaces : forall n s, lstrip (spaces n ++ s) = lstrip s.
Proof. induction n as [|n IH]; intros s; cbn; auto. Qed.
Lemma rstrip_spaces : forall n s, (exists t c, s = t ++ String c "" /\ c <> " "%char) -> rstrip (spaces n ++ s) = spaces n ++ s.
Proof.
  intros n s (t & c & -> & Hc).
  assert (G : forall u, rstrip (u ++ String c "") = u ++ String c "").
  { induction u as [|d u IH]; cbn.
    - destruct (Ascii.eqb_spec c " "); [contradiction|reflexivity].
    - rewrite IH. destruct u; reflexivity. }
  assert (A : forall a b d, (a ++ b) ++ d = a ++ b ++ d) by (induction a; intros; cbn; [|rewrite IHa]; reflexivity).
  rewrite <- A. apply G.
Qed.

Lemma count_app : forall c a b, count_char c (a ++ b) = (count_char c a + count_char c b)%nat.
Proof. induction a as [|x a IH]; intros b; cbn; auto. rewrite IH. lia. Qed.
Lemma count_spaces : forall c n, c <> " "%char -> count_char c (spaces n) = 0%nat.
Proof. intros c n H. induction n; auto. cbn [spaces count_char]. rewrite IHn. destruct (Ascii.eqb_spec " " c); [congruence|reflexivity]. Qed.
Lemma count_csv : forall c k l, number_char c = false -> c <> ","%char -> c <> " "%char -> count_char c (comma_separated k l) = 0%nat.
Proof.
  intros c k l H H1 H2. induction l as [|z l IH]; auto. destruct l as [|y l].
  - now apply text_char.
  - change (comma_separated k (z :: y :: l)) with (decimal_text z ++ "," ++ spaces k ++ comma_separated k (y :: l)).
    rewrite !count_app, IH, text_char, count_spaces by assumption. cbn [count_char].
    destruct (Ascii.eqb_spec "," c); [congruence|reflexivity].
Qed.

Lemma split_csv : forall k z l, split_on "," (comma_separated k (z :: l)) =
  decimal_text z :: map (fun y => spaces k ++ decimal_text y) l.
Proof.
  intros k z l. revert z. induction l as [|y l IH]; intros z.
  - cbn [comma_separated map]. apply split_on_none. now apply text_char.
  - change (comma_separated k (z :: y :: l)) with (decimal_text z ++ String "," (spaces k ++ comma_separated k (y :: l))).
    rewrite split_on_app by now apply text_char. cbn [map]. f_equal.
    assert (G : forall n s a r, split_on "," s = a :: r -> split_on "," (spaces n ++ s) = (spaces n ++ a) :: r).
    { induction n as [|n IHn]; intros s a r H; cbn; auto. rewrite (IHn s a r H). reflexivity. }
    apply G. apply IH.
Qed.

Lemma text_no_spaces : forall z, no_outer_spaces (decimal_text z).
Proof.
  intros z. assert (H : count_char " " (decimal_text z) = 0%nat) by now apply text_char.
  split; intros t E; rewrite E, count_app in H; cbn in H; lia.
Qed.
Lemma text_last : forall z, exists t c, decimal_text z = t ++ String c "" /\ c <> " "%char.
Proof.
  intros z. assert (H : count_char " " (decimal_text z) = 0%nat) by now apply text_char.
  assert (N : decimal_text z <> "").
  { intros E. pose proof (py_int_text z) as HP. rewrite E in HP. discriminate. }
  revert H N. generalize (decimal_text z). intros s. induction s as [|d s IH]; intros H N; [congruence|].
  cbn in H. destruct s as [|d2 s].
  - exists "", d. split; [reflexivity|]. intros ->. discriminate.
  - destruct IH as (t & c & E & Hc); [lia|discriminate|]. exists (String d t), c. cbn. rewrite <- E. now split.
Qed.
Lemma strip_text : forall k z, strip (spaces k ++ decimal_text z) = decimal_text z.
Proof.
  intros k z. unfold strip. rewrite rstrip_spaces by apply text_last. rewrite lstrip_spaces.
  apply lstrip_id. apply (text_no_spaces z).
Qed.

Lemma items_csv : forall k l, items (comma_separated k l) = map decimal_text l.
Proof.
  intros k [|z l]; [reflexivity|]. unfold items. rewrite split_csv. cbn [map]. rewrite map_map.
  rewrite (map_ext _ decimal_text) by (intros; apply strip_text).
  pose proof (strip_text 0 z) as H0. cbn [spaces append] in H0. rewrite H0.
  change (decimal_text z :: map decimal_text l) with (map decimal_text (z :: l)).
  destruct (rev (map decimal_text (z :: l))) as [|s r] eqn:E; [reflexivity|].
  destruct s as [|c s]; [|reflexivity]. exfalso.
  assert (Hin : In "" (map decimal_text (z :: l))) by (apply in_rev; rewrite E; now left).
  apply in_map_iff in Hin. destruct Hin as [y [Hy _]]. pose proof (py_int_text y) as HP. rewrite Hy in HP. discriminate.
Qed.

Lemma split_trailing : forall c s, split_on c (s ++ String c "") = (split_on c s ++ [""])%list.
Proof.
  intros c s. induction s as [|d s IH]; cbn [append split_on].
  - now rewrite Ascii.eqb_refl.
  - destruct (Ascii.eqb d c); [now rewrite IH|]. rewrite IH.
    destruct (split_on c s) eqn:ES; [|reflexivity]. exfalso. clear -ES.
    destruct s as [|e s]; cbn [split_on] in ES; [discriminate|]. destruct (Ascii.eqb e c); [discriminate|].
    destruct (split_on c s); discriminate.
Qed.
Lemma items_typed : forall k t l, items (comma_separated k l ++ last_comma t l) = map decimal_text l.
Proof.
  intros k t l. assert (E0 : forall s, s ++ "" = s) by (induction s; cbn; congruence).
  destruct l as [|z l]; [reflexivity|]. destruct t; cbn [last_comma]; [|rewrite E0; apply items_csv].
  unfold items. rewrite split_trailing, split_csv, map_app. cbn [map]. rewrite map_map.
  rewrite (map_ext _ decimal_text) by (intros; apply strip_text).
  pose proof (strip_text 0 z) as H0. cbn [spaces append] in H0. rewrite H0.
  rewrite rev_unit. change (strip "") with "". cbv iota. apply rev_involutive.
Qed.

Lemma eval_typed : forall b k t l, eval_list (as_typed b k t l) = Ok l.
Proof.
  intros b k t l. unfold eval_list, as_typed.
  set (u := comma_separated k l ++ last_comma t l).
  assert (HS : strip (spaces b ++ "[" ++ u ++ "]") = "[" ++ u ++ "]").
  { unfold strip. rewrite rstrip_spaces.
    - rewrite lstrip_spaces. reflexivity.
    - exists ("[" ++ u), "]"%char. split; [reflexivity|discriminate]. }
  rewrite HS. cbn [append Ascii.eqb Bool.eqb].
  rewrite (split_on_app "]" u "").
  - cbn [split_on]. unfold u. rewrite items_typed, all_ints_texts. reflexivity.
  - unfold u. rewrite count_app, count_csv by (reflexivity || discriminate).
    destruct l; [reflexivity|]. destruct t; reflexivity.
Qed.

(** Every list of axis lists given by repeating the option is received as it is
    meant, in order; without the option nothing is overwritten. *)
Theorem C206_axes_as_written_partial : forall typed : list (nat * nat * bool * list Z),
  axes_option (Some (map (fun p => match p with (before, after, trailing, axes) => as_typed before after trailing axes end) typed))
    = Ok (Some (map snd typed)) /\
  axes_option None = Ok None.
Proof.
  intros typed. split; [|reflexivity]. unfold axes_option.
  assert (H : eval_all (map (fun p => match p with (before, after, trailing, axes) => as_typed before after trailing axes end) typed) = Ok (map snd typed)).
  { induction typed as [|[[[b k] t] l] r IH]; [reflexivity|]. cbn [map snd eval_all]. rewrite eval_typed. cbn [rbind].
    rewrite IH. reflexivity. }
  now rewrite H.
Qed.
Print Assumptions C206_axes_as_written_partial.

(** An item that is not a number is never read as something else: whatever else
    is typed before and after, the option is refused. *)
Theorem C206_no_misreading : forall (before after : list string) (word : string),
  count_char "," word = 0%nat -> count_char "]" word = 0%nat -> strip word <> "" ->
  py_int (strip word) = Raise EValue ->
  axes_option (Some (before ++ ("[" ++ word ++ "]")%string :: after)%list) = Raise EExn.
Proof.
  intros before after word H1 H2 H3 H4. unfold axes_option.
  assert (E : eval_list ("[" ++ word ++ "]") = Raise EExn).
  { unfold eval_list.
    assert (HS : strip ("[" ++ word ++ "]") = "[" ++ word ++ "]").
    { assert (R : rstrip ("[" ++ word ++ "]") = "[" ++ word ++ "]"); [|unfold strip; rewrite R; reflexivity].
      apply (rstrip_spaces 0). exists ("[" ++ word), "]"%char. split; [reflexivity|discriminate]. }
    rewrite HS. cbn [append Ascii.eqb Bool.eqb]. rewrite (split_on_app "]" word "") by assumption. cbn [split_on].
    unfold items. rewrite split_on_none by assumption. cbn [map rev app].
    destruct (strip word) eqn:ES; [congruence|]. cbn [all_ints]. rewrite H4. reflexivity. }
  assert (F : forall s, (exists l, eval_list s = Ok l) \/ eval_list s = Raise EExn).
  { intros s. unfold eval_list. repeat (match goal with |- context [match ?x with _ => _ end] => destruct x end; eauto). }
  assert (G : eval_all (before ++ ("[" ++ word ++ "]")%string :: after)%list = Raise EExn).
  { induction before as [|s r IH]; cbn [app eval_all].
    - rewrite E. reflexivity.
    - cbn [app] in IH. destruct (F s) as [[l ->]| ->]; [|reflexivity]. cbn [rbind]. now rewrite IH. }
  now rewrite G.
Qed.
Print Assumptions C206_no_misreading.

(** A text that is no list, such as a missing bracket, is not reported as a usage
    error: the failure of eval passes through. *)
Theorem C206_bad_text_refuted :
  axes_option (Some ["[0"]) = Raise EExn /\ axes_option (Some ["rows"]) = Raise EExn.
Proof. split; reflexivity. Qed.
Print Assumptions C206_bad_text_refuted.

Example C206_nonvacuous :
  axes_option (Some ["[0]"; " [0, 1]"; "[]"; "[0,1,]"]) = Ok (Some [[0]; [0; 1]; []; [0; 1]]%Z) /\
  as_typed 1 1 true [0; 1]%Z = " [0, 1,]" /\
  py_int (strip " rows") = Raise EValue /\ count_char "," " rows" = 0%nat.
Proof. repeat split; reflexivity. Qed.
