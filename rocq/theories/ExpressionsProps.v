(** Property C156: the objects an expression uses are there when it is evaluated. *)
From Coq Require Import List String Ascii Bool Arith Lia.
From Verif Require Import Base PyMonad Inputs InputsProps OutputSearch OutputSearchProps Summarise Expressions.
Import ListNotations.
Open Scope string_scope.
Open Scope nat_scope.
Open Scope list_scope.

(** * Specification *)

(** [c] is a letter, digit or underscore. *)
Definition word_char (c : ascii) : bool :=
  existsb (Ascii.eqb c) (list_ascii_of_string "ABCDEFGHIJKLMNOPQRSTUVWXYZabcdefghijklmnopqrstuvwxyz0123456789_").
(** The expression mentions an attribute of outputs: [pre], then the word
    outputs with a dot, then [rest]. *)
Definition mentions (expr pre rest : text) : Prop :=
  expr = pre ++ tx "outputs." ++ rest /\
  (pre = [] \/ exists p c, pre = p ++ [c] /\ word_char c = false).
(** [rest] starts with the name [x] followed by a dot, x not being outputs
    itself. *)
Definition names (x rest : text) : Prop :=
  x <> [] /\ x <> tx "outputs" /\ forallb word_char x = true /\ exists post, rest = x ++ dot :: post.
(** Every mention is of that form. *)
Definition plain (expr : text) : Prop := forall pre rest, mentions expr pre rest -> exists x, names x rest.

(** * Lemmas *)

Lemma word_char_word : forall c, word_char c = word c.
Proof. intros c. destruct c as [[] [] [] [] [] [] [] []]; vm_compute; reflexivity. Qed.

Lemma app_split : forall (a b c d : text), a ++ b = c ++ d ->
  (exists l, a = c ++ l /\ d = l ++ b) \/ (exists l, c = a ++ l /\ b = l ++ d).
Proof.
  induction a as [|x a IH]; intros b c d E.
  - right. exists c. auto.
  - destruct c as [|y c].
    + left. exists (x :: a). cbn in *. auto.
    + cbn in E. inversion E; subst. destruct (IH _ _ _ H1) as [(l & A & B)|(l & A & B)]; subst.
      * left. exists l. auto.
      * right. exists l. auto.
Qed.

(** A boundary in front of the word outputs. *)
Lemma boundary_outputs : forall before rest, boundary before (tx "outputs." ++ rest)
  = negb (match before with c :: _ => word c | [] => false end).
Proof. intros. unfold boundary. cbn [tx list_ascii_of_string app]. now rewrite xorb_true_r. Qed.

Lemma skip_word : forall W t pre rest before, forallb word W = true ->
  W ++ dot :: t = pre ++ tx "outputs." ++ rest -> boundary (rev pre ++ before) (tx "outputs." ++ rest) = true ->
  (pre = [] /\ W = tx "outputs" /\ t = rest) \/
  (exists pre', pre = W ++ dot :: pre' /\ t = pre' ++ tx "outputs." ++ rest).
Proof.
  intros W t pre rest before HW E B. rewrite boundary_outputs in B.
  destruct (app_split _ _ _ _ E) as [(l & EW & D)|(l & EP & D)].
  - (* the mention starts inside W *)
    destruct l as [|c l].
    + exfalso. cbn [app] in D. change (tx "outputs." ++ rest) with ("o"%char :: tx "utputs." ++ rest) in D. inversion D.
    + destruct pre as [|p0 pre _] using rev_ind.
      * left. split; auto. cbn [app] in EW. rewrite <- EW in D.
        change (tx "outputs." ++ rest) with (tx "outputs" ++ dot :: rest) in D.
        assert (Q : forall A C a b, forallb word A = true -> forallb word C = true -> A ++ dot :: a = C ++ dot :: b -> A = C /\ a = b).
        { clear. induction A as [|x A IH]; intros [|y C] a b HA HC Q; cbn [app] in Q.
          - inversion Q; auto.
          - exfalso. inversion Q; subst. cbn in HC. discriminate.
          - exfalso. inversion Q; subst. cbn in HA. discriminate.
          - inversion Q; subst. cbn [forallb] in HA, HC. apply andb_true_iff in HA as [_ HA]. apply andb_true_iff in HC as [_ HC].
            destruct (IH C a b HA HC H1) as [-> ->]. auto. }
        destruct (Q (tx "outputs") W rest t) as [Q1 Q2]; auto.
      * exfalso. rewrite rev_app_distr in B. cbn [rev app] in B.
        rewrite EW in HW. rewrite !forallb_app in HW. cbn [forallb] in HW.
        destruct (word p0); [discriminate B|]. rewrite andb_false_r in HW. discriminate.
  - destruct l as [|c l].
    + exfalso. cbn [app] in D. change (tx "outputs." ++ rest) with ("o"%char :: tx "utputs." ++ rest) in D. inversion D.
    + right. cbn [app] in D. inversion D; subst. exists l. auto.
Qed.

Lemma run_to_dot_word : forall x post, forallb word x = true -> run_to_dot (x ++ dot :: post) = (x, dot :: post).
Proof.
  induction x as [|c x IH]; intros post H; cbn [app run_to_dot].
  - now rewrite Ascii.eqb_refl.
  - cbn [forallb] in H. apply andb_true_iff in H as [H1 H2].
    destruct (Ascii.eqb_spec c dot) as [->|N]; [discriminate|]. rewrite IH by auto. reflexivity.
Qed.
Lemma back_off_word : forall x post, x <> [] -> forallb word x = true -> back_off (rev x) (dot :: post) = Some (x, dot :: post).
Proof.
  intros x post N H. destruct x as [|c x _] using rev_ind; [congruence|].
  rewrite rev_app_distr. cbn [rev app back_off].
  rewrite forallb_app in H. cbn [forallb] in H. apply andb_true_iff in H as [_ H]. rewrite andb_true_r in H.
  unfold boundary. cbn [app]. rewrite H. change (word dot) with false. cbn [xorb].
  change (rev (c :: rev x)) with (rev (rev x) ++ [c]). now rewrite rev_involutive.
Qed.
Lemma drop_prefix_app : forall p l, drop_prefix p (p ++ l) = Some l.
Proof. induction p as [|c p IH]; intros; cbn; auto. now rewrite Ascii.eqb_refl. Qed.
Lemma drop_prefix_inv : forall p l r, drop_prefix p l = Some r -> l = p ++ r.
Proof.
  induction p as [|c p IH]; intros l r H; cbn in H; [now inversion H|].
  destruct l as [|d l]; [discriminate|]. destruct (Ascii.eqb_spec c d) as [->|]; [|discriminate].
  cbn. f_equal. auto.
Qed.

Definition sound_at (before l : text) : Prop :=
  forall pre rest, l = pre ++ tx "outputs." ++ rest -> boundary (rev pre ++ before) (tx "outputs." ++ rest) = true ->
  exists x, x <> [] /\ x <> tx "outputs" /\ forallb word x = true /\ exists post, rest = x ++ dot :: post.

Lemma find_calls_complete : forall fuel before l, List.length l < fuel -> sound_at before l ->
  forall pre x post, l = pre ++ tx "outputs." ++ x ++ dot :: post ->
  boundary (rev pre ++ before) (tx "outputs." ++ x ++ dot :: post) = true ->
  x <> [] -> forallb word x = true -> In x (find_calls fuel (tx "outputs") before l).
Proof.
  induction fuel as [|n IH]; intros before l F P pre x post E B NX WX; [lia|].
  cbn [find_calls].
  destruct (match_here (tx "outputs") before l) as [[call rest]|] eqn:M.
  - unfold match_here in M.
    destruct (drop_prefix (tx "outputs" ++ [dot]) l) as [after|] eqn:D; [|discriminate].
    apply drop_prefix_inv in D.
    assert (D' : l = [] ++ tx "outputs." ++ after) by exact D.
    destruct (boundary before l) eqn:BL; [|discriminate].
    destruct (P [] after D') as (y & NY & OY & WY & post' & ->).
    { cbn [rev app]. change (tx "outputs." ++ after) with ((tx "outputs" ++ [dot]) ++ after). rewrite <- D. exact BL. }
    rewrite run_to_dot_word in M by auto. cbv zeta in M. cbn [fst snd] in M. rewrite back_off_word in M by auto.
    inversion M; subst call rest; clear M.
    assert (T : tx "outputs" ++ dot :: (y ++ dot :: post') = pre ++ tx "outputs." ++ (x ++ dot :: post)).
    { rewrite <- E, D. reflexivity. }
    assert (WO : forallb word (tx "outputs") = true) by reflexivity.
    destruct (skip_word (tx "outputs") _ _ _ before WO T B) as [(-> & _ & Q)|(pre1 & -> & Q)].
    + left. assert (R := run_to_dot_word y post' WY). rewrite Q, run_to_dot_word in R by auto. now inversion R.
    + right.
      assert (B1 : boundary (rev pre1 ++ (rev (tx "outputs.") ++ before)) (tx "outputs." ++ x ++ dot :: post) = true).
      { etransitivity; [|exact B]. rewrite app_assoc.
        change (tx "outputs" ++ dot :: pre1) with (tx "outputs." ++ pre1). rewrite (rev_app_distr (tx "outputs.") pre1). reflexivity. }
      destruct (skip_word _ _ _ _ (rev (tx "outputs.") ++ before) WY Q B1) as [(-> & OY' & _)|(pre2 & -> & Q2)]; [congruence|].
      apply IH with (pre := dot :: pre2) (post := post); auto.
      * rewrite D in F. change (tx "outputs" ++ [dot]) with (tx "outputs.") in F. rewrite !app_length in F. cbn in F |- *. lia.
      * (* inherited *)
        intros p r Er Br. apply (P (tx "outputs." ++ y ++ p) r).
        -- rewrite D. change (tx "outputs" ++ [dot]) with (tx "outputs."). rewrite Er. now rewrite <- !app_assoc.
        -- etransitivity; [|exact Br]. f_equal.
           change (tx "outputs" ++ dot :: y) with (tx "outputs." ++ y). rewrite !rev_app_distr. now rewrite <- !app_assoc.
      * cbn [app]. now rewrite Q2.
      * etransitivity; [|exact B1]. f_equal.
        change (tx "outputs" ++ dot :: y) with (tx "outputs." ++ y).
        change (dot :: pre2) with ([dot] ++ pre2). change (y ++ [dot] ++ pre2) with (y ++ ([dot] ++ pre2)).
        rewrite !rev_app_distr. now rewrite <- !app_assoc.
  - destruct pre as [|c pre].
    + exfalso. unfold match_here in M. cbn [app] in E.
      rewrite E in M. change (tx "outputs." ++ x ++ dot :: post) with ((tx "outputs" ++ [dot]) ++ (x ++ dot :: post)) in M at 1.
      rewrite drop_prefix_app in M. cbn [rev app] in B. rewrite B in M.
      rewrite run_to_dot_word in M by auto. cbv zeta in M. cbn [fst snd] in M. rewrite back_off_word in M by auto. discriminate.
    + rewrite E. cbn [app]. apply IH with (pre := pre) (post := post); auto.
      * rewrite E in F. cbn [app List.length] in F. exact (proj2 (Nat.succ_lt_mono _ _) F).
      * intros p r Er Br. apply (P (c :: p) r).
        -- rewrite E. cbn [app]. now rewrite Er.
        -- etransitivity; [|exact Br]. f_equal. cbn [rev]. now rewrite <- app_assoc.
      * etransitivity; [|exact B]. f_equal. cbn [rev]. now rewrite <- app_assoc.
Qed.

Lemma mention_boundary : forall pre rest, (pre = [] \/ exists p c, pre = p ++ [c] /\ word_char c = false) <->
  boundary (rev pre ++ []) (tx "outputs." ++ rest) = true.
Proof.
  intros pre rest. rewrite boundary_outputs, app_nil_r. split.
  - intros [->|(p & c & -> & W)]; [reflexivity|]. rewrite rev_app_distr. cbn. rewrite <- word_char_word, W. reflexivity.
  - intros H. destruct pre as [|c p _] using rev_ind; [now left|]. right. exists p, c. split; auto.
    rewrite rev_app_distr in H. cbn in H. rewrite word_char_word. now destruct (word c).
Qed.
Lemma forallb_word : forall x, forallb word_char x = forallb word x.
Proof. induction x as [|c x IH]; cbn [forallb]; auto. now rewrite word_char_word, IH. Qed.

Lemma plain_found : forall expr pre rest x, plain expr -> mentions expr pre rest -> names x rest ->
  In x (calls (tx "outputs") expr).
Proof.
  intros expr pre rest x P [E B] (NX & OX & WX & post & ->).
  unfold calls. apply find_calls_complete with (pre := pre) (post := post); auto.
  - intros p r Er Br. destruct (P p r) as (y & NY & OY & WY & post' & ->).
    + split; auto. now apply (mention_boundary p r).
    + exists y. rewrite <- forallb_word. repeat split; auto. eauto.
  - now apply mention_boundary.
  - now rewrite <- forallb_word.
Qed.

Lemma teqb_refl : forall a, teqb a a = true.
Proof. induction a as [|c a IH]; cbn; auto. now rewrite Ascii.eqb_refl. Qed.
Lemma teqb_eq : forall a b, teqb a b = true -> a = b.
Proof.
  induction a as [|c a IH]; intros [|d b] H; cbn in H; try discriminate; auto.
  apply andb_true_iff in H as [H1 H2]. apply Ascii.eqb_eq in H1. subst. f_equal; auto.
Qed.

Lemma build_table_incl : forall b have have', build_table b have = Ok have' -> have' = "ct" :: have.
Proof.
  intros b have have' H. unfold build_table, need_data in H.
  destruct (memb "config" have && memb "inputs" have); cbn [rbind] in H; [|discriminate].
  destruct (b_table b); inversion H; reflexivity.
Qed.
Lemma one_incl : forall b have call have', instantiate_one b have call = Ok have' -> incl have have'.
Proof.
  intros b have call have' H. unfold instantiate_one in H.
  repeat match type of H with
         | (if ?c then _ else _) = _ => destruct c eqn:?; try discriminate
         | rbind (need_data have) _ = _ => destruct (need_data have); cbn [rbind] in H; try discriminate
         end; try (inversion H; subst; apply incl_refl).
  - apply build_table_incl in H as ->. apply incl_tl, incl_refl.
  - apply rbind_Ok_inv in H as (h1 & H1 & H2). destruct (b_sampler b); inversion H2; subst.
    apply incl_tl. destruct (memb "ct" have); [inversion H1; subst; apply incl_refl|].
    apply build_table_incl in H1 as ->. apply incl_tl, incl_refl.
Qed.
Lemma fold_incl : forall b l have have', foldM (instantiate_one b) l have = Ok have' -> incl have have'.
Proof.
  intros b l. induction l as [|c l IH]; intros have have' H; cbn [foldM] in H; [inversion H; apply incl_refl|].
  apply rbind_Ok_inv in H as (h1 & H1 & H2). eapply incl_tran; [eapply one_incl; eauto | eauto].
Qed.
Lemma fold_reaches : forall b l have have' c, foldM (instantiate_one b) l have = Ok have' -> In c l ->
  exists h1 h2, instantiate_one b h1 c = Ok h2 /\ incl have h1 /\ incl h2 have'.
Proof.
  intros b l. induction l as [|d l IH]; intros have have' c H I; [destruct I|].
  cbn [foldM] in H. apply rbind_Ok_inv in H as (h1 & H1 & H2). destruct I as [->|I].
  - exists have, h1. repeat split; auto; [apply incl_refl | eapply fold_incl; eauto].
  - destruct (IH _ _ _ H2 I) as (a & b' & A & B & C). exists a, b'. repeat split; auto.
    eapply incl_tran; [eapply one_incl; eauto | auto].
Qed.
Lemma fold_raises : forall b l have c, In c l -> (forall h, exists e, instantiate_one b h c = Raise e) ->
  exists e, foldM (instantiate_one b) l have = Raise e.
Proof.
  intros b l have c I R. destruct (foldM (instantiate_one b) l have) as [h|e] eqn:F; [|eauto].
  destruct (fold_reaches _ _ _ _ _ F I) as (h1 & h2 & A & _). destruct (R h1) as [e E]. congruence.
Qed.

(** * C156 *)

(** When every mention of outputs is a name followed by a dot: if nothing is
    raised, whatever was there is still there, the table and the sampler are
    built whenever they are mentioned, and config and inputs exist when they
    are. *)
Theorem C156_objects_partial : forall b have expr have', plain expr ->
  instantiate b have expr = Ok have' ->
  incl have have' /\
  forall pre rest x, mentions expr pre rest -> In x ["config"; "inputs"; "ct"; "ct_mcmc"] ->
    names (tx x) rest -> In x have'.
Proof.
  intros b have expr have' P H. split; [eapply fold_incl; eauto|].
  intros pre rest x M X N. assert (I := plain_found _ _ _ _ P M N).
  destruct (fold_reaches _ _ _ _ _ H I) as (h1 & h2 & A & _ & C). apply C. clear - X A.
  assert (MI : forall y l, memb y l = true -> In y l).
  { intros y l Q. unfold memb in Q. apply existsb_exists in Q as (z & Z & Q). apply String.eqb_eq in Q. now subst. }
  unfold instantiate_one, is in A.
  destruct X as [<- |[<- |[<- |[<- |[]]]]]; cbn in A.
  - destruct (memb "config" h1) eqn:Q; inversion A; subst; auto.
  - destruct (memb "inputs" h1) eqn:Q; inversion A; subst; auto.
  - apply build_table_incl in A as ->. now left.
  - apply rbind_Ok_inv in A as (h3 & H1 & H2). destruct (b_sampler b); inversion H2; subst. now left.
Qed.
Print Assumptions C156_objects_partial.

(** The models themselves can never be had: mentioning one always raises. *)
Theorem C156_models_refuted : forall b have expr pre rest x, plain expr -> mentions expr pre rest ->
  In x ["intensity_model"; "physics_model"; "neural_network"; "learning_model"] -> names (tx x) rest ->
  exists e, instantiate b have expr = Raise e.
Proof.
  intros b have expr pre rest x P M X N. assert (I := plain_found _ _ _ _ P M N).
  apply fold_raises with (tx x); auto. intros h.
  destruct X as [<- |[<- |[<- |[<- |[]]]]]; unfold instantiate_one, is; cbn [teqb tx list_ascii_of_string Ascii.eqb Bool.eqb andb];
    try (unfold need_data; destruct (memb "config" h && memb "inputs" h); cbn; eauto; fail).
  - destruct (memb "config" h), (memb "intensity_model" h); eauto.
  - destruct (memb "config" h); eauto. destruct (memb "neural_network" h).
    + destruct (memb "physics_model" h), (memb "intensity_model" h); eauto.
    + unfold need_data. destruct (memb "config" h && memb "inputs" h); cbn; eauto.
Qed.
Print Assumptions C156_models_refuted.

(** A table handed to a function, or mentioned after another attribute without
    a dot behind it, is not noticed: nothing is built and nothing raised. *)
Theorem C156_unnoticed_refuted : forall b have,
  instantiate b have (tx "f(outputs.ct, x)") = Ok have /\
  instantiate b have (tx "outputs.table + outputs.ct.table") = Ok have.
Proof. intros. split; vm_compute; reflexivity. Qed.
Print Assumptions C156_unnoticed_refuted.

Definition demo_expr : text := tx "f(outputs.ct_mcmc.table(outputs.inputs.data))".
Example C156_nonvacuous : plain demo_expr /\
  instantiate (mkbuilders true true) ["config"; "inputs"] demo_expr = Ok ["ct_mcmc"; "ct"; "config"; "inputs"] /\
  mentions demo_expr (tx "f(") (tx "ct_mcmc.table(outputs.inputs.data))") /\
  names (tx "ct_mcmc") (tx "ct_mcmc.table(outputs.inputs.data))").
Proof.
  split; [|split; [vm_compute; reflexivity|split]].
  - intros pre rest [E _].
    assert (S : forall p r, demo_expr = p ++ tx "outputs." ++ r ->
                r = tx "ct_mcmc.table(outputs.inputs.data))" \/ r = tx "inputs.data))").
    { intros p r Q. unfold demo_expr, tx in Q. cbn [list_ascii_of_string] in Q.
      repeat (destruct p as [|? p]; cbn [app list_ascii_of_string] in Q;
              [solve [discriminate Q | inversion Q; auto] | injection Q as _ Q]).
      destruct p; discriminate Q. }
    destruct (S _ _ E) as [-> | ->].
    + exists (tx "ct_mcmc"). repeat split; try discriminate. now exists (tx "table(outputs.inputs.data))").
    + exists (tx "inputs"). repeat split; try discriminate. now exists (tx "data))").
  - split; [reflexivity|]. right. exists (tx "f"), "("%char. split; reflexivity.
  - repeat split; try discriminate. now exists (tx "table(outputs.inputs.data))").
Qed.
