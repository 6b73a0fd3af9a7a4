(** Model of how a command line is split into options and arguments: click
    8.1's parser loop (OptionParser._process_args_for_options) with the eat-all
    option of utils/click_parsers.py 225-267, used for --margins (main.py
    120-121) and the mutually exclusive options of click_parsers.py 200-223
    (main.py 559-561).  Simplified: options are whole tokens (neither clusters of
    one-letter options nor --name=value), and the "--" terminator is not
    modelled. *)
From Coq Require Import List ZArith Lia Bool Arith String Ascii.
From Verif Require Import Base PyMonad.
Import ListNotations.
Local Open Scope string_scope.

(** What an option consumes: a number of values, or everything up to the next
    option (save_other_options = True, click_parsers.py 228, 243-249). *)
Inductive kind := KArgs (n : nat) | KEat.

(** [state.rargs[0].startswith(prefix)] for the prefixes of the option, which
    always include "-" (click_parsers.py 245-247). *)
Definition dashed (s : string) : bool := match s with String c _ => Ascii.eqb c "-"%char | EmptyString => false end.
(** An option token for the parser loop: a dash and something after it. *)
Definition option_like (s : string) : bool := dashed s && negb (String.eqb s "-").

Fixpoint take_n (n : nat) (l : list string) : option (list string * list string) :=
  match n with
  | O => Some ([], l)
  | S m => match l with
           | [] => None
           | x :: r => match take_n m r with Some (a, b) => Some (x :: a, b) | None => None end
           end
  end.
(** The while loop of parser_process, click_parsers.py 243-249. *)
Fixpoint eat (l : list string) : list string * list string :=
  match l with
  | [] => ([], [])
  | x :: r => if dashed x then ([], l) else let '(a, b) := eat r in (x :: a, b)
  end.

(** The option's process with its own first value popped by click's parser, which
    does not look at what that value is; a missing value is a usage error. *)
Definition consume (k : kind) (rest : list string) : res (list string * list string) :=
  match k with
  | KArgs n => match take_n n rest with Some p => Ok p | None => Raise EExn end
  | KEat => match rest with
            | [] => Raise EExn
            | v :: r => let '(a, b) := eat r in Ok (v :: a, b)
            end
  end.

(** The parser loop; [fuel] is the number of tokens left. *)
Fixpoint parse_loop (known : string -> option kind) (fuel : nat) (toks : list string)
  : res (list (string * list string) * list string) :=
  match fuel with
  | O => Ok ([], [])
  | S fuel' =>
      match toks with
      | [] => Ok ([], [])
      | t :: rest =>
          if option_like t then
            match known t with
            | None => Raise EExn
            | Some k =>
                rbind (consume k rest) (fun p =>
                rbind (parse_loop known fuel' (snd p)) (fun q =>
                Ok ((t, fst p) :: fst q, snd q)))
            end
          else rbind (parse_loop known fuel' rest) (fun q => Ok (fst q, t :: snd q))
      end
  end.
Definition parse (known : string -> option kind) (toks : list string) :=
  parse_loop known (List.length toks) toks.

(** NotRequiredIf.handle_parse_result, click_parsers.py 208-221: called with all
    parsed options, so a usage error if both are there. *)
Definition not_required_if (me other : string) (opts : list (string * list string)) : res unit :=
  let present n := existsb (fun o => String.eqb n (fst o)) opts in
  if present other && present me then Raise EExn else Ok tt.

(** The value of --margins after type conversion: click.STRING turns the tuple of
    click_parsers.py 253 into its text (values without quotes and backslashes). *)
Definition tuple_text (l : list string) : string :=
  match l with
  | [x] => "('" ++ x ++ "',)"
  | _ => "(" ++ String.concat ", " (map (fun x => "'" ++ x ++ "'") l) ++ ")"
  end.

(** ** Specification: a command line as written. *)
Inductive item := Arg (s : string) | Opt (name : string) (vals : list string).
Definition write_item (i : item) : list string :=
  match i with Arg s => [s] | Opt n vs => n :: vs end.
Definition written (l : list item) : list string := flat_map write_item l.
Definition opts_of (l : list item) : list (string * list string) :=
  flat_map (fun i => match i with Opt n vs => [(n, vs)] | Arg _ => [] end) l.
Definition args_of (l : list item) : list string :=
  flat_map (fun i => match i with Arg s => [s] | Opt _ _ => [] end) l.
(** Each option has its values; an eat-all option has at least one, none but the
    first starting with a dash, and an option or nothing comes next. *)
Definition starts_with_dash (s : string) : Prop := exists r, s = String "-"%char r.
Fixpoint proper (known : string -> option kind) (l : list item) : Prop :=
  match l with
  | [] => True
  | Arg s :: r => (s = "-" \/ ~ starts_with_dash s) /\ proper known r
  | Opt n vs :: r =>
      (starts_with_dash n /\ n <> "-") /\
      (match known n with
       | Some (KArgs k) => List.length vs = k
       | Some KEat => vs <> [] /\ Forall (fun v => ~ starts_with_dash v) (tl vs) /\
                      match r with Arg _ :: _ => False | _ => True end
       | None => False
       end) /\ proper known r
  end.

Lemma dashed_iff : forall s, dashed s = true <-> starts_with_dash s.
Proof.
  intros [|c s]; cbn; split; try discriminate.
  - intros [r H]. discriminate.
  - intros H. apply Ascii.eqb_eq in H. subst. now exists s.
  - intros [r H]. injection H as -> _. reflexivity.
Qed.
Lemma dashed_no : forall s, dashed s = false <-> ~ starts_with_dash s.
Proof. intros s. rewrite <- dashed_iff. destruct (dashed s); split; congruence. Qed.
Lemma option_like_yes : forall s, starts_with_dash s /\ s <> "-" -> option_like s = true.
Proof.
  intros s [H1 H2]. unfold option_like. rewrite (proj2 (dashed_iff s) H1). cbn. 
  destruct (String.eqb_spec s "-"); [contradiction|reflexivity].
Qed.
Lemma option_like_no : forall s, s = "-" \/ ~ starts_with_dash s -> option_like s = false.
Proof.
  intros s [->|H]; [reflexivity|]. unfold option_like. now rewrite (proj2 (dashed_no s) H).
Qed.

Lemma take_n_app : forall vs r, take_n (List.length vs) (vs ++ r) = Some (vs, r).
Proof. induction vs as [|v vs IH]; intros r; cbn; [reflexivity|]. now rewrite IH. Qed.
Lemma eat_app : forall vs r, Forall (fun v => dashed v = false) vs ->
  match r with x :: _ => dashed x = true | [] => True end -> eat (vs ++ r) = (vs, r).
Proof.
  induction vs as [|v vs IH]; intros r HF Hr; cbn.
  - destruct r as [|x r]; cbn; [reflexivity|]. now rewrite Hr.
  - inversion HF as [|? ? Hv HF']; subst. now rewrite Hv, (IH r HF' Hr).
Qed.

Lemma written_head : forall known r, proper known r -> match r with Arg _ :: _ => False | _ => True end ->
  match written r with x :: _ => dashed x = true | [] => True end.
Proof.
  intros known [|[s|n vs] r] HP H; cbn; [exact I|contradiction|].
  cbn in HP. destruct HP as [[H1 _] _]. now apply dashed_iff.
Qed.

(** Every option gets exactly the values written after it and every argument is
    kept, in order. *)
Theorem C204_as_written_partial : forall known l,
  proper known l -> parse known (written l) = Ok (opts_of l, args_of l).
Proof.
  intros known l HP. unfold parse.
  assert (G : forall l fuel, proper known l -> (List.length (written l) <= fuel)%nat ->
             parse_loop known fuel (written l) = Ok (opts_of l, args_of l)).
  { clear. induction l as [|i l IH]; intros fuel HP HF.
    - destruct fuel; reflexivity.
    - destruct i as [s|n vs]; cbn [proper] in HP; cbn [written flat_map write_item] in *; fold (written l) in *.
      + destruct HP as [Hs HP]. apply option_like_no in Hs. cbn [app List.length] in HF. destruct fuel as [|fuel]; [lia|].
        cbn [app parse_loop]. rewrite Hs, IH by (assumption || lia). reflexivity.
      + destruct HP as (Hn & Hk & HP). apply option_like_yes in Hn. cbn [app List.length] in HF. rewrite app_length in HF.
        destruct fuel as [|fuel]; [lia|]. cbn [app parse_loop]. rewrite Hn.
        destruct (known n) as [[k|]|]; [| |contradiction].
        * subst k. cbn [consume]. rewrite take_n_app. cbn [rbind fst snd].
          rewrite IH by (assumption || lia). reflexivity.
        * destruct Hk as (Hne & Hd & Hr). destruct vs as [|v vs]; [congruence|]. cbn [tl] in Hd.
          assert (Hd2 : Forall (fun v => dashed v = false) vs) by (revert Hd; apply Forall_impl; intros; now apply dashed_no).
          cbn [app consume]. rewrite eat_app; [|exact Hd2|now apply (written_head known)].
          cbn [rbind fst snd]. cbn [List.length] in HF. rewrite IH by (assumption || lia). reflexivity. }
  now apply G.
Qed.
Print Assumptions C204_as_written_partial.

(** The exclusive options are refused together wherever they stand, and never
    otherwise. *)
Theorem C204_exclusive : forall known l me other,
  proper known l ->
  exists o, parse known (written l) = Ok o /\
    (not_required_if me other (fst o) = Raise EExn <->
     (exists vs, In (Opt me vs) l) /\ (exists vs, In (Opt other vs) l)) /\
    (not_required_if me other (fst o) <> Raise EExn -> not_required_if me other (fst o) = Ok tt).
Proof.
  intros known l me other HP. eexists. split; [apply C204_as_written_partial; exact HP|]. cbn [fst].
  assert (G : forall n, existsb (fun o => String.eqb n (fst o)) (opts_of l) = true <-> exists vs, In (Opt n vs) l).
  { intros n. rewrite existsb_exists. unfold opts_of. split.
    - intros [[m vs] [H E]]. cbn in E. apply String.eqb_eq in E. subst. apply in_flat_map in H.
      destruct H as [[s|m' vs'] [H1 H2]]; cbn in H2; [destruct H2|]. destruct H2 as [H2|[]]. injection H2 as -> ->. eauto.
    - intros [vs H]. exists (n, vs). split; [|apply String.eqb_refl]. apply in_flat_map. exists (Opt n vs). split; [exact H|now left]. }
  unfold not_required_if. split.
  - rewrite <- !G. destruct (existsb _ (opts_of l)) eqn:E1; cbn [andb].
    + destruct (existsb (fun o => String.eqb me (fst o)) (opts_of l)) eqn:E2; split; intros H; try tauto; try discriminate; destruct H; discriminate.
    + split; [discriminate|intros [_ H]; discriminate].
  - intros H. destruct (_ && _); [congruence|reflexivity].
Qed.
Print Assumptions C204_exclusive.

(** What cannot be read is refused wherever it stands: an unknown option, an
    eat-all option or one with values at the end without any. *)
Theorem C204_refused : forall known l n more,
  proper known l -> starts_with_dash n -> n <> "-" ->
  (known n = None \/ (more = [] /\ (known n = Some KEat \/ exists k, known n = Some (KArgs (S k))))) ->
  parse known (written l ++ n :: more) = Raise EExn.
Proof.
  intros known l n more HP Hd Hn Hk. unfold parse.
  assert (R : forall fuel, (1 <= fuel)%nat -> parse_loop known fuel (n :: more) = Raise EExn).
  { intros [|fuel] HF; [lia|]. cbn [parse_loop]. rewrite option_like_yes by tauto.
    destruct Hk as [->|[-> [->|[k ->]]]]; reflexivity. }
  assert (G : forall l fuel, proper known l -> (S (List.length (written l)) <= fuel)%nat ->
             parse_loop known fuel (written l ++ n :: more) = Raise EExn).
  { clear HP l. induction l as [|i l IH]; intros fuel HP HF.
    - apply R. exact HF.
    - destruct i as [s|m vs]; cbn [proper] in HP; cbn [written flat_map write_item] in *; fold (written l) in *.
      + destruct HP as [Hs HP]. apply option_like_no in Hs. cbn [app List.length] in HF. destruct fuel as [|fuel]; [lia|].
        cbn [app parse_loop]. rewrite Hs, IH by (assumption || lia). reflexivity.
      + destruct HP as (Hm & Hkm & HP). apply option_like_yes in Hm. cbn [app List.length] in HF. rewrite app_length in HF.
        destruct fuel as [|fuel]; [lia|]. cbn [app parse_loop]. rewrite Hm.
        destruct (known m) as [[k|]|]; [| |contradiction].
        * subst k. cbn [consume]. rewrite <- app_assoc, take_n_app. cbn [rbind fst snd].
          rewrite IH by (assumption || lia). reflexivity.
        * destruct Hkm as (Hne & Hdv & Hr). destruct vs as [|v vs]; [congruence|]. cbn [tl] in Hdv.
          assert (Hd2 : Forall (fun v => dashed v = false) vs) by (revert Hdv; apply Forall_impl; intros; now apply dashed_no).
          cbn [app consume]. rewrite <- app_assoc, eat_app; [|exact Hd2|].
          -- cbn [rbind fst snd]. cbn [List.length] in HF. rewrite IH by (assumption || lia). reflexivity.
          -- pose proof (written_head known l HP Hr) as HW. destruct (written l); cbn [app]; [now apply dashed_iff|exact HW]. }
  apply G; [exact HP|]. rewrite app_length. cbn [List.length]. lia.
Qed.
Print Assumptions C204_refused.

Definition ex_known (s : string) : option kind :=
  if String.eqb s "--margins" then Some KEat
  else if String.eqb s "--seed" then Some (KArgs 1)
  else if String.eqb s "--sparse_margins" then Some (KArgs 0)
  else None.

(** An argument after the margins is swallowed by them; an option right after
    --margins is taken for a file name; and what the program receives is one text,
    not the list of file names. *)
Theorem C204_margins_refuted :
  (exists l, args_of l = ["config.toml"] /\ opts_of l = [("--margins", ["rows.txt"; "cols.txt"])] /\
     parse ex_known (written l) = Ok ([("--margins", ["rows.txt"; "cols.txt"; "config.toml"])], [])) /\
  (parse ex_known ["--margins"; "--seed"; "1"] = Ok ([("--margins", ["--seed"; "1"])], [])) /\
  tuple_text ["rows.txt"; "cols.txt"] = "('rows.txt', 'cols.txt')".
Proof.
  split; [|split; reflexivity].
  exists [Opt "--margins" ["rows.txt"; "cols.txt"]; Arg "config.toml"].
  split; [reflexivity|split; reflexivity].
Qed.
Print Assumptions C204_margins_refuted.

(** The text never is the list: it differs from every one of the names. *)
Theorem C204_text_is_no_file : forall l x, In x l -> tuple_text l <> x.
Proof.
  assert (LA : forall a b, String.length (a ++ b) = (String.length a + String.length b)%nat).
  { induction a as [|c a IH]; intros b; cbn; [reflexivity|]. now rewrite IH. }
  assert (CC : forall l x, In x l ->
     (String.length x < String.length (String.concat ", " (map (fun x => "'" ++ x ++ "'") l)))%nat).
  { induction l as [|y l IH]; intros x Hx; [destruct Hx|]. destruct l as [|z l].
    - destruct Hx as [->|[]]. cbn [map String.concat]. rewrite !LA. cbn [String.length]. lia.
    - change (String.concat ", " (map (fun x => "'" ++ x ++ "'") (y :: z :: l)))
        with (("'" ++ y ++ "'") ++ ", " ++ String.concat ", " (map (fun x => "'" ++ x ++ "'") (z :: l))).
      rewrite !LA. destruct Hx as [->|Hx]; [cbn [String.length]; lia|]. specialize (IH x Hx). lia. }
  intros l x Hx E. apply (f_equal String.length) in E.
  destruct l as [|y [|z l]]; [destruct Hx| |].
  - destruct Hx as [->|[]]. unfold tuple_text in E. rewrite !LA in E. cbn [String.length] in E. lia.
  - specialize (CC (y :: z :: l) x Hx). unfold tuple_text in E. rewrite !LA in E. lia.
Qed.
Print Assumptions C204_text_is_no_file.

Example C204_nonvacuous :
  let l := [Arg "config.toml"; Opt "--sparse_margins" []; Opt "--margins" ["a"; "b"; "c"]; Opt "--seed" ["-3"]] in
  proper ex_known l /\
  parse ex_known (written l) =
    Ok ([("--sparse_margins", []); ("--margins", ["a"; "b"; "c"]); ("--seed", ["-3"])], ["config.toml"]) /\
  not_required_if "--seed" "--margins" (opts_of l) = Raise EExn /\
  not_required_if "--seed" "--title" (opts_of l) = Ok tt.
Proof.
  cbn zeta. split; [|split; [reflexivity|split; reflexivity]].
  cbn [proper tl ex_known String.eqb Ascii.eqb Bool.eqb List.length].
  assert (N : forall s, dashed s = false -> ~ starts_with_dash s) by (intros; now apply dashed_no).
  assert (Y : forall s, dashed s = true -> starts_with_dash s) by (intros; now apply dashed_iff).
  repeat split; try discriminate; try (right; now apply N); try (now apply Y);
    repeat constructor; now apply N.
Qed.
