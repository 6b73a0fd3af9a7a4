(** Theorems about operations on nested dictionaries: C53, C86-C90. *)
From Coq Require Import List ZArith Lia Bool Arith String.
From Verif Require Import Base PyMonad ConfigTree ConfigSpec ConfigProps ConfigFind DictUtils.
Import ListNotations.
Local Open Scope string_scope.
Local Open Scope nat_scope.
Local Open Scope list_scope.

Lemma reaches_app : forall p s q w, reaches s (p ++ q) w <-> exists m, reaches s p m /\ reaches m q w.
Proof.
  induction p as [|k p IH]; intros s q w; cbn [app].
  - split; [intro H; exists s; split; [constructor|auto]|]. intros (m & H1 & H2). inversion H1; subst; auto.
  - rewrite reaches_items. split.
    + intros (c & Hin & Hr). apply IH in Hr as (m & H1 & H2). exists m. split; auto. apply reaches_items. eauto.
    + intros (m & H1 & H2). apply reaches_items in H1 as (c & Hin & Hr). exists c. split; auto. apply IH. eauto.
Qed.

Lemma reaches_nil : forall s w, reaches s [] w <-> w = s.
Proof. intros s w. split; [inversion 1; auto|intros ->; constructor]. Qed.

(** * deep_merge *)

(** What a merged dictionary holds under a key. *)
Definition merged (a b : option node) : option node :=
  match a, b with
  | Some (LList x), Some (LList y) => Some (LList (x ++ y))
  | Some x, Some y => Some (LList [x; y])
  | Some x, None => Some x
  | None, y => y
  end.

Lemma merge_result : forall d2 r d1 k, NoDup (map fst d2) ->
  dget k (fst (merge_loop d2 r d1)) = merged (dget k r) (dget k d2).
Proof.
  induction d2 as [|[k0 v] d2 IH]; intros r d1 k Hnd.
  - cbn. destruct (dget k r) as [[]|]; auto.
  - inversion Hnd as [|? ? Hni Hnd']; subst. cbn [merge_loop].
    assert (E : exists nv d1', merge_loop ((k0, v) :: d2) r d1 = merge_loop d2 (dset k0 nv r) d1' /\
                 Some nv = merged (dget k0 r) (Some v)).
    { cbn [merge_loop]. destruct (dget k0 r) as [[lf|x|x]|]; [..|eexists _, _; split; reflexivity].
      - eexists _, _; split; reflexivity.
      - eexists _, _; split; reflexivity.
      - destruct v; eexists _, _; split; reflexivity. }
    destruct E as (nv & d1' & E & Hnv). cbn [merge_loop] in E. rewrite E, IH by auto.
    cbn [dget]. destruct (key_eqb_spec k k0) as [->|Hne].
    + rewrite dget_dset_same, Hnv. apply dget_None in Hni. rewrite Hni.
      destruct (dget k0 r) as [[]|]; destruct v; reflexivity.
    + rewrite dget_dset_other by auto. reflexivity.
Qed.

(** C53, merging: every key of both dictionaries is kept; two lists are
    concatenated, two other values are put in a list of two. *)
Theorem C53_merge : forall d1 d2 k, NoDup (map fst d2) ->
  dget k (fst (deep_merge d1 d2)) =
  match dget k d1, dget k d2 with
  | Some (LList x), Some (LList y) => Some (LList (x ++ y))
  | Some x, Some y => Some (LList [x; y])
  | Some x, None => Some x
  | None, y => y
  end.
Proof. intros d1 d2 k H. apply (merge_result d2 d1 d1 k H). Qed.
Print Assumptions C53_merge.

Lemma merge_first : forall d2 r d1 k, NoDup (map fst d2) ->
  (forall k, dget k d2 <> None -> dget k r = dget k d1) ->
  dget k (snd (merge_loop d2 r d1)) =
  match dget k d1, dget k d2 with
  | Some (LList x), Some (LList y) => Some (LList (x ++ y))
  | o, _ => o
  end.
Proof.
  induction d2 as [|[k0 v] d2 IH]; intros r d1 k Hnd Hs.
  - cbn. destruct (dget k d1) as [[]|]; auto.
  - inversion Hnd as [|? ? Hni Hnd']; subst. cbn [merge_loop].
    assert (H0 : dget k0 r = dget k0 d1).
    { apply Hs. cbn [dget]. rewrite key_eqb_refl. discriminate. }
    assert (Hk : forall k', dget k' d2 <> None -> k' <> k0 /\ dget k' r = dget k' d1).
    { intros k' H. assert (k' <> k0).
      { intros ->. apply dget_None in Hni. congruence. }
      split; auto. apply Hs. cbn [dget]. rewrite key_eqb_neq; auto. }
    assert (E : exists nv d1', merge_loop ((k0, v) :: d2) r d1 = merge_loop d2 (dset k0 nv r) d1' /\
       (d1' = d1 /\ (forall x y, dget k0 d1 = Some (LList x) -> v <> LList y) \/
        exists x y, dget k0 d1 = Some (LList x) /\ v = LList y /\ d1' = dset k0 (LList (x ++ y)) d1)).
    { cbn [merge_loop]. rewrite H0. destruct (dget k0 d1) as [[lf|x|x]|].
      - eexists _, _; split; [reflexivity|]. left. split; auto. intros; congruence.
      - eexists _, _; split; [reflexivity|]. left. split; auto. intros; congruence.
      - destruct v; eexists _, _; (split; [reflexivity|]).
        + left. split; auto. intros; congruence.
        + left. split; auto. intros; congruence.
        + right. eexists _, _. repeat split; reflexivity.
      - eexists _, _; split; [reflexivity|]. left. split; auto. intros; congruence. }
    destruct E as (nv & d1' & E & Hd). cbn [merge_loop] in E. rewrite E.
    assert (Hother : forall k', k' <> k0 -> dget k' d1' = dget k' d1).
    { intros k' H. destruct Hd as [[-> _]|(x & y & _ & _ & ->)]; auto. apply dget_dset_other; auto. }
    rewrite IH; auto.
    + cbn [dget]. destruct (key_eqb_spec k k0) as [->|Hne].
      * apply dget_None in Hni. rewrite Hni.
        destruct Hd as [[-> Hd]|(x & y & Hx & -> & ->)].
        -- destruct (dget k0 d1) as [[]|] eqn:E1; auto. destruct v; auto. exfalso. eapply Hd; eauto.
        -- rewrite dget_dset_same, Hx. reflexivity.
      * rewrite Hother by auto. reflexivity.
    + intros k' H. destruct (Hk k' H) as [H1 H2]. rewrite dget_dset_other, Hother; auto.
Qed.

(** C53 as stated is false: merging alters its first argument, extending its
    lists. *)
Theorem C53_merge_alters_argument_refuted :
  exists d1 d2 k, NoDup (map fst d2) /\ NoDup (map fst d1) /\
    dget k (snd (deep_merge d1 d2)) <> dget k d1.
Proof.
  exists [(KS "a", LList [Leaf (LNum 1)])], [(KS "a", LList [Leaf (LNum 2)])], (KS "a").
  repeat split; try (repeat constructor; cbn; tauto). cbn. discriminate.
Qed.
Print Assumptions C53_merge_alters_argument_refuted.

(** The part that holds: exactly the lists that meet a list are altered; without
    such a pair the first argument is left as it was. *)
Theorem C53_merge_argument_partial : forall d1 d2, NoDup (map fst d2) ->
  (forall k x y, dget k d1 = Some (LList x) -> dget k d2 <> Some (LList y)) ->
  forall k, dget k (snd (deep_merge d1 d2)) = dget k d1.
Proof.
  intros d1 d2 Hnd Hno k. unfold deep_merge. rewrite merge_first by auto.
  destruct (dget k d1) as [[]|] eqn:E; auto. destruct (dget k d2) as [[]|] eqn:E2; auto.
  exfalso. eapply Hno; eauto.
Qed.
Print Assumptions C53_merge_argument_partial.

(** * deep_update *)

(** No list is an element of a list. *)
Definition flat_lists (s : node) : Prop :=
  forall p l, reaches s p (LList l) -> forall l', ~ In (LList l') l.

Section Update.
  Variable name : string.
  Variable val : node.
  Let ky := KS name.

  (** A value of a dictionary whose key does not match, after the call. *)
  Definition upd (v : node) : node :=
    match v with
    | LList vs => LList (map (fun v => match v with Dict _ => deep_update true ky val v | _ => v end) vs)
    | _ => deep_update true ky val v
    end.

  Lemma deep_update_dict : forall l,
    deep_update true ky val (Dict l) =
    Dict (map (fun kv => (fst kv, if key_eqb (fst kv) ky then val else upd (snd kv))) l).
  Proof.
    intro l. cbn [deep_update]. f_equal. apply map_ext. intros [k v]. cbn [fst snd]. rewrite andb_true_r.
    destruct (key_eqb k ky); auto. destruct v; reflexivity.
  Qed.

  Definition elem (v : node) := match v with Dict _ => deep_update true ky val v | _ => v end.

  (** Below the updated tree, along paths that avoid the key. *)
  Lemma upd_down : forall p s x, ~ In ky p -> reaches (upd s) p x ->
    exists w, reaches s p w /\ (x = w \/ x = upd w).
  Proof.
    induction p as [|k p IH]; intros s x Hp Hr.
    - apply reaches_nil in Hr as ->. exists s. split; [constructor|auto].
    - destruct s as [lf|l|l].
      + inversion Hr.
      + cbn [upd] in Hr. rewrite deep_update_dict in Hr.
        inversion Hr as [|? ? c ? ? Hin Hr'|]; subst.
        apply in_map_iff in Hin as ([k0 c0] & E & Hin). cbn [fst snd] in E. injection E as -> <-.
        destruct (key_eqb_spec k ky) as [->|Hne]; [exfalso; apply Hp; cbn; auto|].
        destruct (IH c0 x) as (w & Hw & Hx); auto; [cbn in Hp; tauto|].
        exists w. split; auto. eapply r_dict; eauto.
      + cbn [upd] in Hr. inversion Hr as [| |? n c ? ? Hn Hr']; subst.
        rewrite nth_error_map in Hn. destruct (nth_error l n) as [c0|] eqn:E; [|discriminate].
        cbn in Hn. injection Hn as <-.
        destruct c0 as [lf|l0|l0].
        * exists x. split; [|auto]. eapply r_list; eauto.
        * destruct (IH (Dict l0) x) as (w & Hw & Hx); auto; [cbn in Hp; tauto|].
          exists w. split; auto. eapply r_list; eauto.
        * exists x. split; [|auto]. eapply r_list; eauto.
  Qed.

  Lemma upd_up : forall p s w, ~ In ky p -> reaches s p w ->
    exists x, reaches (upd s) p x /\ (x = w \/ x = upd w).
  Proof.
    induction p as [|k p IH]; intros s w Hp Hr.
    - apply reaches_nil in Hr as ->. exists (upd s). split; [constructor|auto].
    - destruct s as [lf|l|l].
      + inversion Hr.
      + inversion Hr as [|? ? c ? ? Hin Hr'|]; subst.
        destruct (IH c w) as (x & Hx & Hw); auto; [cbn in Hp; tauto|].
        exists x. split; auto. cbn [upd]. rewrite deep_update_dict. eapply r_dict; [|exact Hx].
        apply in_map_iff. exists (k, c). split; auto. cbn [fst snd].
        rewrite key_eqb_neq; auto. intros ->. apply Hp; cbn; auto.
      + inversion Hr as [| |? n c ? ? Hn Hr']; subst. cbn [upd].
        destruct c as [lf|l0|l0].
        * exists w. split; [|auto]. eapply r_list; [rewrite nth_error_map, Hn; reflexivity|exact Hr'].
        * destruct (IH (Dict l0) w) as (x & Hx & Hw); auto; [cbn in Hp; tauto|].
          exists x. split; auto. eapply r_list; [rewrite nth_error_map, Hn; reflexivity|exact Hx].
        * exists w. split; [|auto]. eapply r_list; [rewrite nth_error_map, Hn; reflexivity|exact Hr'].
  Qed.

  Lemma flat_sub : forall s k c, flat_lists s -> In (k, c) (items s) -> flat_lists c.
  Proof. intros s k c H Hin p l Hr. apply (H (k :: p)). apply reaches_items. eauto. Qed.

  Lemma flat_list_elem : forall l n c, flat_lists (LList l) -> nth_error l n = Some c -> elem c = upd c.
  Proof.
    intros l n c H Hn. destruct c; auto. exfalso. refine (H [] l _ l0 _); [constructor|].
    eapply nth_error_In; eauto.
  Qed.

  (** With flat lists every part of the tree is updated. *)
  Lemma upd_flat : forall p s x, flat_lists s -> ~ In ky p ->
    (reaches (upd s) p x <-> exists w, reaches s p w /\ x = upd w).
  Proof.
    induction p as [|k p IH]; intros s x Hf Hp.
    - rewrite reaches_nil. split; [intros ->; exists s; split; [constructor|auto]|].
      intros (w & Hw & ->). apply reaches_nil in Hw as ->. auto.
    - assert (Hp' : ~ In ky p) by (cbn in Hp; tauto).
      assert (Hk : k <> ky) by (intros ->; apply Hp; cbn; auto).
      destruct s as [lf|l|l].
      + split; [intro H; inversion H|intros (w & H & _); inversion H].
      + cbn [upd]. rewrite deep_update_dict. split.
        * intro Hr. inversion Hr as [|? ? c ? ? Hin Hr'|]; subst.
          apply in_map_iff in Hin as ([k0 c0] & E & Hin). cbn [fst snd] in E. injection E as -> <-.
          rewrite key_eqb_neq in Hr' by auto. apply IH in Hr' as (w & Hw & ->); auto.
          -- exists w. split; auto. eapply r_dict; eauto.
          -- apply (flat_sub (Dict l) k c0 Hf); exact Hin.
        * intros (w & Hr & ->). inversion Hr as [|? ? c ? ? Hin Hr'|]; subst.
          apply (r_dict _ k (upd c)).
          -- apply in_map_iff. exists (k, c). cbn [fst snd]. rewrite key_eqb_neq by auto. auto.
          -- apply IH; auto; [apply (flat_sub (Dict l) k c Hf); exact Hin|eauto].
      + split.
        * cbn [upd]. intro Hr. inversion Hr as [| |? n c ? ? Hn Hr']; subst.
          rewrite nth_error_map in Hn. destruct (nth_error l n) as [c0|] eqn:E; [|discriminate].
          cbn [option_map] in Hn. fold (elem c0) in Hn. rewrite (flat_list_elem l n c0 Hf E) in Hn.
          injection Hn as <-. apply IH in Hr' as (w & Hw & ->); auto.
          -- exists w. split; auto. eapply r_list; eauto.
          -- apply (flat_sub (LList l) (KI n) c0 Hf). apply combine_seq_In. exists n. auto.
        * intros (w & Hr & ->). inversion Hr as [| |? n c ? ? Hn Hr']; subst. cbn [upd].
          apply (r_list _ n (upd c)).
          -- rewrite nth_error_map, Hn. cbn [option_map]. fold (elem c). rewrite (flat_list_elem l n c Hf Hn). auto.
          -- apply IH; auto; [|eauto].
             apply (flat_sub (LList l) (KI n) c Hf). apply combine_seq_In. exists n. auto.
  Qed.

  Lemma upd_key : forall w r x, reaches (upd w) (ky :: r) x <->
    (exists v, reaches w [ky] v) /\ reaches val r x.
  Proof.
    intros w r x. destruct w as [lf|l|l].
    - split; [intro H; inversion H|intros ((v & H) & _); inversion H].
    - cbn [upd]. rewrite deep_update_dict. split.
      + intro Hr. inversion Hr as [|? ? c ? ? Hin Hr'|]; subst.
        apply in_map_iff in Hin as ([k0 c0] & E & Hin). cbn [fst snd] in E. injection E as -> <-.
        rewrite key_eqb_refl in Hr'. split; auto. exists c0. eapply r_dict; [exact Hin|constructor].
      + intros ((v & Hv) & Hr). inversion Hv as [|? ? c ? ? Hin Hr'|]; subst.
        apply (r_dict _ ky val); auto. apply in_map_iff. exists (ky, c). cbn [fst snd]. rewrite key_eqb_refl. auto.
    - split; [intro H; inversion H|intros ((v & H) & _); inversion H].
  Qed.
End Update.

Lemma upd_is_dict : forall name val l, deep_update true (KS name) val (Dict l) = upd name val (Dict l).
Proof. reflexivity. Qed.

(** C53, updating: nothing but what lies at or below the key changes - every
    setting reached by a path that avoids the key is as before, for every tree. *)
Theorem C53_update_nothing_else : forall name val l p x, ~ In (KS name) p ->
  (reaches (deep_update true (KS name) val (Dict l)) p (Leaf x) <-> reaches (Dict l) p (Leaf x)).
Proof.
  intros name val l p x Hp. rewrite upd_is_dict. split; intro H.
  - apply upd_down in H as (w & Hw & [<-|E]); auto. destruct w; try discriminate. cbn in E. congruence.
  - apply (upd_up name val) in H as (w & Hw & [->|E]); auto. cbn in E. subst; auto.
Qed.
Print Assumptions C53_update_nothing_else.

(** C53, updating: in a tree without lists of lists every (outermost) occurrence of
    the key is given the new value, and what is found at and below it is exactly
    the new value. *)
Theorem C53_update_every_occurrence_partial : forall name val l q r x,
  flat_lists (Dict l) -> ~ In (KS name) q ->
  (reaches (deep_update true (KS name) val (Dict l)) (q ++ KS name :: r) x <->
   (exists v, reaches (Dict l) (q ++ [KS name]) v) /\ reaches val r x).
Proof.
  intros name val l q r x Hf Hq. rewrite upd_is_dict. rewrite reaches_app. split.
  - intros (m & Hm & Hr). apply upd_flat in Hm as (w & Hw & ->); auto.
    apply upd_key in Hr as ((v & Hv) & Hr). split; auto. exists v. apply reaches_app. eauto.
  - intros ((v & Hv) & Hr). apply reaches_app in Hv as (w & Hw & Hv).
    exists (upd name val w). split; [apply upd_flat; eauto|]. apply upd_key. eauto.
Qed.
Print Assumptions C53_update_every_occurrence_partial.

(** As stated ("every occurrence") C53 is false: a dictionary in a list inside a
    list is not reached. *)
Theorem C53_update_nested_list_refuted :
  exists name val l q v, reaches (Dict l) (q ++ [KS name]) v /\ ~ In (KS name) q /\ wf (Dict l) /\
    ~ reaches (deep_update true (KS name) val (Dict l)) (q ++ [KS name]) val.
Proof.
  set (inner := Dict [(KS "a", Leaf (LNum 1))]).
  exists "a", (Leaf (LNum 2)), [(KS "x", LList [LList [inner]])], [KS "x"; KI 0; KI 0], (Leaf (LNum 1)).
  assert (W : wf (Dict [(KS "x", LList [LList [inner]])])).
  { repeat (constructor; intros; cbn in *; repeat match goal with H : _ \/ _ |- _ => destruct H | H : False |- _ => destruct H | H : (_, _) = _ |- _ => injection H as <- <- | H : _ = ?x |- _ => subst x end; auto). }
  split; [apply lookup_reaches; [exact W|reflexivity]|]. split; [cbn; intuition discriminate|]. split; [exact W|].
  intro H. apply lookup_reaches in H; [discriminate|exact W].
Qed.
Print Assumptions C53_update_nested_list_refuted.

(** Induction that also reaches the elements of lists. *)
Lemma node_deep_ind : forall P : node -> Prop,
  (forall s, (forall k c, In (k, c) (items s) -> P c) ->
             (forall k c k2 c2, In (k, c) (items s) -> In (k2, c2) (items c) -> P c2) -> P s) ->
  forall s, P s.
Proof.
  intros P H s. induction s as [s IH] using (Wf_nat.induction_ltof1 node nsize).
  apply H.
  - intros k c Hin. apply IH. unfold Wf_nat.ltof. eapply items_size; eauto.
  - intros k c k2 c2 H1 H2. apply IH. unfold Wf_nat.ltof.
    apply items_size in H1. apply items_size in H2. lia.
Qed.

Lemma items_list : forall l c, In c l -> exists k, In (k, c) (items (LList l)).
Proof. intros l c H. apply In_nth_error in H as (n & Hn). exists (KI n). apply combine_seq_In. exists n. auto. Qed.

(** Without leave to overwrite nothing changes at all. *)
Theorem C53_update_no_overwrite : forall k val s, deep_update false k val s = s.
Proof.
  intros k val s. induction s as [s IH IH2] using node_deep_ind. destruct s as [lf|l|l]; auto.
  cbn [deep_update]. f_equal. rewrite <- (map_id l) at 2. apply map_ext_in. intros [k0 v] Hin. cbn [fst snd].
  rewrite andb_false_r. f_equal. destruct v as [lf|l0|l0]; auto.
  - apply (IH k0). exact Hin.
  - f_equal. rewrite <- (map_id l0) at 2. apply map_ext_in. intros v Hv. destruct v; auto.
    destruct (items_list _ _ Hv) as (k2 & H2). eapply IH2; eauto.
Qed.
Print Assumptions C53_update_no_overwrite.

(** * update_recursively *)

(** The settings of an update: the paths of non-dictionary values. *)
Definition is_dict (s : node) : Prop := match s with Dict _ => True | _ => False end.

Definition or_else (o : option node) (d : node) : node := match o with Some x => x | None => d end.

Fixpoint upd_go (overwrite : bool) (ul : list (key * node)) (d : node) : res node :=
  match ul with
  | [] => Ok d
  | (k, v) :: t =>
    match v with
    | Dict _ =>
      match d with
      | Dict l => do d1 <- update_recursively overwrite v (or_else (dget k l) (Dict [])) ;
                  upd_go overwrite t (Dict (dset k d1 l))
      | _ => Raise EAttr
      end
    | _ =>
      if overwrite then do d1 <- set_item d k v ; upd_go overwrite t d1
      else match d with
           | Dict l => upd_go overwrite t (Dict (match dget k l with Some _ => l | None => dset k v l end))
           | _ => Raise EAttr
           end
    end
  end.

Lemma update_recursively_go : forall ow ul d, update_recursively ow (Dict ul) d = upd_go ow ul d.
Proof.
  intros ow ul. cbn [update_recursively]. induction ul as [|[k v] t IH]; intro d; auto.
  cbn [upd_go]. destruct v as [lf|lv|lv].
  - destruct ow; [|destruct d; auto]. destruct (set_item d k (Leaf lf)); cbn [rbind]; auto.
  - destruct d; auto. unfold or_else.
    destruct (update_recursively ow (Dict lv) match dget k l with Some x => x | None => Dict [] end); cbn [rbind]; auto.
  - destruct ow; [|destruct d; auto]. destruct (set_item d k (LList lv)); cbn [rbind]; auto.
Qed.

(** One level of a recursive update. *)
Lemma update_recursively_level : forall ow ul l d', NoDup (map fst ul) ->
  update_recursively ow (Dict ul) (Dict l) = Ok d' ->
  exists l', d' = Dict l' /\ forall k,
    match dget k ul with
    | None => dget k l' = dget k l
    | Some (Dict u') => exists x, dget k l' = Some x /\
        update_recursively ow (Dict u') (or_else (dget k l) (Dict [])) = Ok x
    | Some v => dget k l' = Some (if ow then v else or_else (dget k l) v)
    end.
Proof.
  intros ow ul l d' Hnd. rewrite update_recursively_go. revert l d'.
  induction ul as [|[k0 v] t IH]; intros l d' H.
  - cbn in H. injection H as <-. exists l. split; [reflexivity|intro k; reflexivity].
  - inversion Hnd as [|? ? Hni Hnd']; subst. apply dget_None in Hni.
    assert (S : exists x, upd_go ow t (Dict (dset k0 x l)) = Ok d' /\ dget k0 (dset k0 x l) = Some x /\
      match v with
      | Dict u' => update_recursively ow (Dict u') (or_else (dget k0 l) (Dict [])) = Ok x
      | _ => x = if ow then v else or_else (dget k0 l) v
      end).
    { cbn [upd_go] in H. destruct v as [lf|lv|lv].
      - destruct ow; [cbn [set_item rbind] in H; eexists; split; [exact H|split; [apply dget_dset_same|auto]]|].
        unfold or_else. destruct (dget k0 l) as [y|] eqn:E.
        + exists y. rewrite dset_id by auto. auto.
        + eexists; split; [exact H|split; [apply dget_dset_same|auto]].
      - destruct (update_recursively ow (Dict lv) (or_else (dget k0 l) (Dict []))) as [d1|] eqn:E; [|discriminate].
        cbn [rbind] in H. exists d1. split; [exact H|]. split; [apply dget_dset_same|auto].
      - destruct ow; [cbn [set_item rbind] in H; eexists; split; [exact H|split; [apply dget_dset_same|auto]]|].
        unfold or_else. destruct (dget k0 l) as [y|] eqn:E.
        + exists y. rewrite dset_id by auto. auto.
        + eexists; split; [exact H|split; [apply dget_dset_same|auto]]. }
    destruct S as (x & Hx & Hget & Hv). destruct (IH Hnd' _ _ Hx) as (l' & -> & Hl').
    exists l'. split; auto. intro k. cbn [dget]. destruct (key_eqb_spec k k0) as [->|Hne].
    + specialize (Hl' k0). rewrite Hni, Hget in Hl'. destruct v; rewrite Hl'; try (f_equal; assumption).
      exists x. auto.
    + specialize (Hl' k). rewrite dget_dset_other in Hl' by auto. exact Hl'.
Qed.

(** What is found by following dictionary keys only. *)
Fixpoint dlook (s : node) (p : list key) : option node :=
  match p with
  | [] => Some s
  | k :: r => match s with
              | Dict l => match dget k l with Some c => dlook c r | None => None end
              | _ => None
              end
  end.

(** Every dictionary key is a text (true of every TOML or JSON file). *)
Definition text_keys (s : node) : Prop :=
  forall q k, In k q -> dlook s q <> None -> exists t, k = KS t.

(** C53, recursive update: when it succeeds, every setting of the update is found
    in the result at its own path - or, without leave to overwrite, the value that
    was already there. *)
Theorem C53_update_recursively : forall ow p u d d' v,
  wf u -> text_keys u -> is_dict d -> update_recursively ow u d = Ok d' ->
  dlook u p = Some v -> ~ is_dict v ->
  dlook d' p = Some (if ow then v else match dlook d p with Some x => x | None => v end).
Proof.
  intros ow. induction p as [|k p IH]; intros u d d' v Hwf Htk Hd H Hu Hv.
  - cbn in Hu. injection Hu as ->. destruct v; try discriminate. exfalso. apply Hv. exact I.
  - destruct u as [lf|ul|ul]; try discriminate. destruct d as [|l|]; try destruct Hd.
    inversion Hwf as [|? Hnd Hc|]; subst.
    destruct (update_recursively_level ow ul l d' Hnd H) as (l' & -> & Hl').
    specialize (Hl' k). cbn [dlook] in *. destruct (dget k ul) as [c|] eqn:Ec; [|discriminate].
    assert (Hwc : wf c) by (apply (Hc k); apply dget_In; auto).
    destruct c as [lf|u'|u'].
    + rewrite Hl'. destruct p as [|k2 p]; [|discriminate]. cbn in Hu |- *. injection Hu as <-.
      destruct ow; auto. destruct (dget k l); auto.
    + destruct Hl' as (x & -> & Hx). destruct p as [|k2 p].
      { cbn in Hu. injection Hu as <-. exfalso. apply Hv. exact I. }
      assert (Hdx : is_dict (or_else (dget k l) (Dict []))).
      { rewrite update_recursively_go in Hx.
        destruct u' as [|[k3 v3] u']; [cbn in Hu; discriminate|].
        destruct (Htk [k; k3] k3) as (t3 & ->); [cbn; auto| |].
        { cbn [dlook]. rewrite Ec. cbn [dget]. rewrite key_eqb_refl. discriminate. }
        destruct (or_else (dget k l) (Dict [])) eqn:Eo; cbn [is_dict]; auto;
        cbn [upd_go] in Hx; destruct v3; try discriminate; destruct ow; discriminate. }
      assert (Htk' : text_keys (Dict u')).
      { intros q k3 Hq Hl3. apply (Htk (k :: q)); [cbn; auto|]. cbn [dlook]. rewrite Ec. exact Hl3. }
      rewrite (IH (Dict u') (or_else (dget k l) (Dict [])) x v Hwc Htk' Hdx Hx Hu Hv).
      destruct ow; auto. destruct (dget k l); auto.
    + rewrite Hl'. destruct p as [|k2 p]; [|discriminate]. cbn in Hu |- *. injection Hu as <-.
      destruct ow; auto. destruct (dget k l); auto.
Qed.
Print Assumptions C53_update_recursively.

(** A concrete configuration: two experiments, of which the first exports its
    samples and the second does not. *)
Definition two_experiments : node :=
  Dict [(KS "datetime", Leaf (LStr "01_01_2024"));
        (KS "inputs", Dict [(KS "seed", Leaf (LNum 1)); (KS "n_workers", Leaf (LNum 2))]);
        (KS "experiments", LList [Dict [(KS "seed", Leaf (LNum 5)); (KS "export_samples", Leaf (LBool true))];
                                  Dict [(KS "export_samples", Leaf (LBool false))]])].

Lemma flat_lists_b : forall s, (fix f (s : node) : bool :=
    match s with
    | Leaf _ => true
    | Dict l => forallb (fun kv => f (snd kv)) l
    | LList l => forallb (fun c => match c with LList _ => false | _ => f c end) l
    end) s = true -> flat_lists s.
Proof.
  intro s. induction s as [s IH] using node_items_ind. intros H p l Hr l' Hin.
  destruct p as [|k p].
  - inversion Hr; subst. cbn in H. rewrite forallb_forall in H. specialize (H _ Hin). discriminate.
  - apply reaches_items in Hr as (c & Hc & Hr). refine (IH k c Hc _ p l Hr l' Hin).
    destruct s as [lf|ll|ll]; [destruct Hc| |]; cbn [items] in Hc.
    + rewrite forallb_forall in H. apply (H (k, c) Hc).
    + apply combine_seq_In in Hc as (n & _ & Hn). apply nth_error_In in Hn.
      rewrite forallb_forall in H. specialize (H c Hn). destruct c; auto; discriminate.
Qed.

Lemma two_experiments_flat : flat_lists two_experiments.
Proof. apply flat_lists_b. reflexivity. Qed.

Lemma two_experiments_wf : wf two_experiments.
Proof.
  repeat (constructor; intros; cbn in *;
    repeat match goal with
    | H : _ \/ _ |- _ => destruct H
    | H : False |- _ => destruct H
    | H : (_, _) = _ |- _ => injection H as <- <-
    | H : _ = ?x |- _ => subst x
    end; auto); intuition discriminate.
Qed.

Example C53_nonvacuous :
  flat_lists two_experiments /\
  (exists v, reaches two_experiments ([KS "experiments"; KI 0] ++ [KS "seed"]) v) /\
  deep_get (KS "seed") (deep_update true (KS "seed") (Leaf (LNum 9)) two_experiments)
    = [Leaf (LNum 9); Leaf (LNum 9)] /\
  fst (deep_merge [(KS "a", LList [Leaf (LNum 1)]); (KS "b", Leaf (LNum 2))]
                  [(KS "b", Leaf (LNum 3)); (KS "a", LList [Leaf (LNum 4)]); (KS "c", Leaf LNone)])
    = [(KS "a", LList [Leaf (LNum 1); Leaf (LNum 4)]); (KS "b", LList [Leaf (LNum 2); Leaf (LNum 3)]);
       (KS "c", Leaf LNone)] /\
  update_recursively false (Dict [(KS "inputs", Dict [(KS "seed", Leaf (LNum 9)); (KS "new", Leaf (LNum 3))])])
      (Dict [(KS "inputs", Dict [(KS "seed", Leaf (LNum 1))])])
    = Ok (Dict [(KS "inputs", Dict [(KS "seed", Leaf (LNum 1)); (KS "new", Leaf (LNum 3))])]).
Proof.
  split; [apply two_experiments_flat|]. split.
  - eexists. apply lookup_reaches; [apply two_experiments_wf|reflexivity].
  - repeat split; reflexivity.
Qed.

(** * deep_get *)

Lemma deep_get_items : forall key s, deep_get key s =
  flat_map (fun kv => if key_eqb (fst kv) key then [snd kv] else deep_get key (snd kv)) (items s).
Proof.
  intros key [lf|l|l]; [reflexivity|reflexivity|]. cbn [deep_get items].
  generalize 0. induction l as [|v l IH]; intros i; [reflexivity|].
  cbn [List.length seq map combine flat_map fst snd]. now rewrite <- IH.
Qed.

(** C86: looking a key up finds exactly the values of its outermost occurrences,
    wherever they lie. *)
Theorem C86_deep_get : forall key s v,
  In v (deep_get key s) <-> exists q, ~ In key q /\ reaches s (q ++ [key]) v.
Proof.
  intros key s. induction s as [s IH] using node_items_ind. intro v.
  rewrite deep_get_items, in_flat_map. split.
  - intros ([k c] & Hin & Hv). cbn [fst snd] in Hv. destruct (key_eqb_spec k key) as [->|Hne].
    + destruct Hv as [<-|[]]. exists []. split; auto. apply reaches_items. exists c. split; auto. constructor.
    + apply (IH k c Hin) in Hv as (q & Hq & Hr). exists (k :: q). split; [cbn; intuition congruence|].
      cbn [app]. apply reaches_items. eauto.
  - intros (q & Hq & Hr). destruct q as [|k q]; cbn [app] in Hr; apply reaches_items in Hr as (c & Hin & Hr).
    + apply reaches_nil in Hr as ->. exists (key, c). split; auto. cbn [fst snd]. rewrite key_eqb_refl. cbn; auto.
    + exists (k, c). split; auto. cbn [fst snd].
      rewrite key_eqb_neq by (intros ->; apply Hq; cbn; auto).
      apply (IH k c Hin). exists q. split; auto. cbn in Hq; tauto.
Qed.
Print Assumptions C86_deep_get.

(** Nothing is found exactly when the key occurs nowhere, at any depth. *)
Theorem C86_deep_get_empty : forall key s,
  deep_get key s = [] <-> forall q v, ~ reaches s (q ++ [key]) v.
Proof.
  intros key s. split.
  - intros E q v Hr.
    assert (G : forall n q v, List.length q <= n -> reaches s (q ++ [key]) v -> False); [|eauto].
    induction n as [|n IH]; intros q' v' Hl Hr'.
    + destruct q'; [|cbn in Hl; lia]. assert (H : In v' (deep_get key s)) by (apply C86_deep_get; exists []; auto).
      rewrite E in H. destruct H.
    + destruct (in_dec (fun a b => Bool.reflect_dec _ _ (key_eqb_spec a b)) key q') as [Hin|Hni].
      * apply in_split in Hin as (q1 & q2 & ->). rewrite <- app_assoc in Hr'. cbn [app] in Hr'.
        change (key :: q2 ++ [key]) with ([key] ++ q2 ++ [key]) in Hr'. rewrite app_assoc in Hr'.
        apply reaches_app in Hr' as (m & Hm & _). apply (IH q1 m); auto.
        rewrite app_length in Hl. cbn in Hl. lia.
      * assert (H : In v' (deep_get key s)) by (apply C86_deep_get; eauto). rewrite E in H. destruct H.
  - intros H. destruct (deep_get key s) as [|v t] eqn:E; auto. exfalso.
    assert (Hv : In v (deep_get key s)) by (rewrite E; cbn; auto).
    apply C86_deep_get in Hv as (q & _ & Hr). eapply H; eauto.
Qed.
Print Assumptions C86_deep_get_empty.

Example C86_nonvacuous :
  deep_get (KS "seed") two_experiments = [Leaf (LNum 1); Leaf (LNum 5)] /\
  deep_get (KS "sigma") two_experiments = [].
Proof. split; reflexivity. Qed.

(** * Settings from the command line *)

(** A scalar, or a list of scalars. *)
Definition plain (v : node) : Prop :=
  match v with
  | Leaf _ => True
  | LList l => forall c, In c l -> exists x, c = Leaf x
  | Dict _ => False
  end.

Lemma plain_upd : forall name val v, plain v -> upd name val v = v.
Proof.
  intros name val [x|l|l] H; cbn in H; [reflexivity|tauto|].
  cbn [upd]. f_equal. rewrite <- (map_id l) at 2. apply map_ext_in. intros c Hc.
  destruct (H c Hc) as (x & ->). reflexivity.
Qed.

Lemma plain_no_text_key : forall v q t x, plain v -> ~ reaches v (q ++ [KS t]) x.
Proof.
  intros v q t x Hp Hr. destruct v as [y|l|l]; cbn in Hp; [|tauto|].
  - destruct q; inversion Hr.
  - destruct q as [|k q]; [inversion Hr|]. cbn [app] in Hr. inversion Hr as [| |? n c ? ? Hn Hr']; subst.
    apply nth_error_In in Hn. destruct (Hp c Hn) as (y & ->). destruct q; inversion Hr'.
Qed.

Lemma plain_flat : forall v, plain v -> flat_lists v.
Proof.
  intros v Hp p l Hr l' Hin. destruct v as [y|l0|l0]; cbn in Hp; [inversion Hr|tauto|].
  destruct p as [|k p].
  - inversion Hr; subst. destruct (Hp _ Hin) as (x & E). discriminate.
  - inversion Hr as [| |? n c ? ? Hn Hr']; subst. apply nth_error_In in Hn. destruct (Hp c Hn) as (y & ->). inversion Hr'.
Qed.

Lemma update_flat : forall name val l, flat_lists val -> flat_lists (Dict l) ->
  flat_lists (deep_update true (KS name) val (Dict l)).
Proof.
  intros name val l Hv Hf p ls Hr l' Hin.
  destruct (in_dec (fun a b => Bool.reflect_dec _ _ (key_eqb_spec a b)) (KS name) p) as [Hk|Hk].
  - apply in_split in Hk as (p1 & p2 & ->).
    assert (exists q r, p1 ++ KS name :: p2 = q ++ KS name :: r /\ ~ In (KS name) q) as (q & r & E & Hq).
    { clear. induction p1 as [|k p1 IH].
      - exists [], p2. auto.
      - destruct IH as (q & r & E & Hq). destruct (key_eqb_spec k (KS name)) as [->|Hne].
        + exists [], (p1 ++ KS name :: p2). auto.
        + exists (k :: q), r. cbn [app]. rewrite E. split; auto. cbn. intuition congruence. }
    rewrite E in Hr. apply C53_update_every_occurrence_partial in Hr as [_ Hr]; auto. eapply Hv; eauto.
  - rewrite upd_is_dict in Hr. apply upd_flat in Hr as (w & Hw & E); auto.
    destruct w as [x|x|x]; try discriminate. cbn [upd] in E. injection E as ->.
    apply in_map_iff in Hin as (c & Ec & Hc). destruct c; try discriminate. eapply Hf; eauto.
Qed.

Lemma first_split : forall (k : key) p, In k p -> exists q r, p = q ++ k :: r /\ ~ In k q.
Proof.
  intros k p. induction p as [|a p IH]; intro H; [destruct H|].
  destruct (key_eqb_spec a k) as [->|Hne].
  - exists [], p. auto.
  - destruct H as [H|H]; [congruence|]. destruct (IH H) as (q & r & -> & Hq).
    exists (a :: q), r. split; auto. cbn. intuition congruence.
Qed.

(** Settings: text keys, all different, with scalar (or list of scalars) values. *)
Definition settings_ok (us : list (key * node)) : Prop :=
  NoDup (map fst us) /\ forall k v, In (k, v) us -> plain v /\ exists t, k = KS t.

Lemma apply_settings_inv : forall us l (done : list (key * node)),
  (forall k v, In (k, v) us -> plain v /\ exists t, k = KS t) ->
  (forall k v, In (k, v) done -> plain v /\ exists t, k = KS t) ->
  NoDup (map fst (done ++ us)) -> flat_lists (Dict l) ->
  (forall k v, In (k, v) done -> forall q x, ~ In k q -> reaches (Dict l) (q ++ [k]) x -> x = v) ->
  exists l', apply_settings (Dict l) us = Dict l' /\ flat_lists (Dict l') /\
    forall k v, In (k, v) (done ++ us) -> forall q x, ~ In k q -> reaches (Dict l') (q ++ [k]) x -> x = v.
Proof.
  induction us as [|[k0 v0] us IH]; intros l done Hus Hdone Hnd Hf Hinv.
  - exists l. rewrite app_nil_r. split; [reflexivity|auto].
  - destruct (Hus k0 v0 (or_introl eq_refl)) as (Hp0 & t0 & ->).
    cbn [apply_settings deep_updates fold_left fst snd]. unfold apply_settings, deep_updates in IH |- *. cbn [fold_left fst snd].
    rewrite deep_update_dict. rewrite <- deep_update_dict.
    assert (Hf' : flat_lists (deep_update true (KS t0) v0 (Dict l))) by (apply update_flat; auto using plain_flat).
    rewrite deep_update_dict in Hf' |- *.
    lazymatch type of Hf' with flat_lists (Dict ?m) =>
      specialize (IH m (done ++ [(KS t0, v0)]) (fun k v H => Hus k v (or_intror H))) end.
    rewrite <- !app_assoc in IH. cbn [app] in IH.
    apply IH; auto.
    + intros k v H. apply in_app_or in H as [H|[E|[]]]; [auto|]. injection E as <- <-. eauto.
    + intros k v H q x Hq Hr. rewrite <- deep_update_dict in Hr.
      apply in_app_or in H as [H|[E|[]]].
      * assert (Hne : k <> KS t0).
        { intros ->. rewrite map_app in Hnd. cbn [map fst] in Hnd. apply NoDup_remove_2 in Hnd.
          apply Hnd. apply in_or_app. left. change (KS t0) with (fst (KS t0, v)). apply in_map; auto. }
        destruct (Hdone k v H) as (Hpv & t & ->).
        destruct (in_dec (fun a b => Bool.reflect_dec _ _ (key_eqb_spec a b)) (KS t0) q) as [Hk|Hk].
        -- apply first_split in Hk as (q1 & q2 & -> & Hq1). rewrite <- app_assoc in Hr. cbn [app] in Hr.
           apply C53_update_every_occurrence_partial in Hr as [_ Hr]; auto.
           exfalso. exact (plain_no_text_key _ _ _ _ Hp0 Hr).
        -- rewrite upd_is_dict in Hr. apply upd_flat in Hr as (w & Hw & ->); auto.
           ++ specialize (Hinv _ _ H q w Hq Hw). subst w. apply plain_upd; auto.
           ++ rewrite in_app_iff. cbn. intuition congruence.
      * injection E as <- <-. apply C53_update_every_occurrence_partial in Hr as [_ Hr]; auto.
        apply reaches_nil in Hr. auto.
Qed.

(** C87: in a configuration without lists of lists every value found afterwards
    under the name of a setting given on the command line is the value given. *)
Theorem C87_settings_effective_partial : forall l us k v,
  flat_lists (Dict l) -> settings_ok us -> In (k, v) us ->
  forall x, In x (deep_get k (apply_settings (Dict l) us)) -> x = v.
Proof.
  intros l us k v Hf [Hnd Hus] Hin x Hx.
  destruct (apply_settings_inv us l [] Hus ltac:(intros ? ? []) Hnd Hf ltac:(intros ? ? [])) as (l' & E & _ & H).
  rewrite E in Hx. apply C86_deep_get in Hx as (q & Hq & Hr). eapply H; eauto.
Qed.
Print Assumptions C87_settings_effective_partial.

(** C87: a setting whose name occurs in the configuration, below none of the names
    given, is found afterwards with the value given. *)
Theorem C87_settings_found_partial : forall l us k v q v0,
  flat_lists (Dict l) -> settings_ok us -> In (k, v) us ->
  reaches (Dict l) (q ++ [k]) v0 -> (forall k', In k' q -> ~ In k' (map fst us)) ->
  In v (deep_get k (apply_settings (Dict l) us)).
Proof.
  intros l us k v q v0 Hf Hok Hin Hr Hq.
  assert (Hkq : ~ In k q).
  { intro H. apply (Hq k H). change k with (fst (k, v)). apply in_map; auto. }
  assert (Hkt : exists t, k = KS t) by (destruct Hok as [_ H]; apply (H k v Hin)).
  assert (G : forall us l v0, (forall k v, In (k, v) us -> plain v /\ exists t, k = KS t) ->
    (forall k', In k' q -> ~ In k' (map fst us)) -> flat_lists (Dict l) -> reaches (Dict l) (q ++ [k]) v0 ->
    exists x, reaches (apply_settings (Dict l) us) (q ++ [k]) x).
  { clear - Hkq Hkt. induction us as [|[k1 v1] us IH]; intros l v0 Hus Hq Hf Hr; [exists v0; auto|].
    destruct (Hus k1 v1 (or_introl eq_refl)) as (Hp1 & t1 & ->).
    assert (E : exists x, reaches (deep_update true (KS t1) v1 (Dict l)) (q ++ [k]) x).
    { destruct (key_eqb_spec k (KS t1)) as [->|Hne].
      - exists v1. apply C53_update_every_occurrence_partial; auto. split; [eauto|constructor].
      - exists (upd t1 v1 v0). rewrite upd_is_dict. apply upd_flat; auto; [|eauto].
        rewrite in_app_iff. cbn. intros [H|[H|[]]]; [|congruence]. apply (Hq _ H). cbn; auto. }
    destruct E as (x & Hx).
    assert (Hf' : flat_lists (deep_update true (KS t1) v1 (Dict l))) by (apply update_flat; auto using plain_flat).
    unfold apply_settings, deep_updates in *. cbn [fold_left fst snd]. rewrite deep_update_dict in *.
    eapply IH; eauto.
    - intros k' v' H. apply (Hus k' v'). cbn; auto.
    - intros k' H Hin. apply (Hq k' H). cbn; auto. }
  destruct Hok as [Hnd Hus]. destruct (G us l v0 Hus Hq Hf Hr) as (x & Hx).
  assert (Hget : In x (deep_get k (apply_settings (Dict l) us))) by (apply C86_deep_get; eauto).
  rewrite <- (C87_settings_effective_partial l us k v Hf (conj Hnd Hus) Hin x Hget). exact Hget.
Qed.
Print Assumptions C87_settings_found_partial.

(** C87: a configuration value whose path meets none of the names given is left
    alone. *)
Theorem C87_settings_nothing_else : forall us l p x,
  (forall k v, In (k, v) us -> exists t, k = KS t) ->
  (forall k, In k p -> ~ In k (map fst us)) ->
  (reaches (apply_settings (Dict l) us) p (Leaf x) <-> reaches (Dict l) p (Leaf x)).
Proof.
  induction us as [|[k0 v0] us IH]; intros l p x Hus Hp; [reflexivity|].
  destruct (Hus k0 v0 (or_introl eq_refl)) as (t & ->).
  unfold apply_settings, deep_updates in *. cbn [fold_left fst snd].
  rewrite deep_update_dict. rewrite IH.
  - rewrite <- deep_update_dict. apply C53_update_nothing_else. intro H. apply (Hp _ H). cbn; auto.
  - intros k v H. apply (Hus k v). cbn; auto.
  - intros k H Hin. apply (Hp k H). cbn; auto.
Qed.
Print Assumptions C87_settings_nothing_else.

(** C87 as stated ("every setting given takes effect") is false: a setting whose
    name is not yet in the configuration is dropped. *)
Theorem C87_settings_dropped_refuted :
  exists l us k v, flat_lists (Dict l) /\ settings_ok us /\ In (k, v) us /\
    deep_get k (apply_settings (Dict l) us) = [].
Proof.
  exists (match two_experiments with Dict l => l | _ => [] end), [(KS "n_threads", Leaf (LNum 4))], (KS "n_threads"), (Leaf (LNum 4)).
  split; [exact two_experiments_flat|]. split; [|split; [cbn; auto|reflexivity]].
  split; [repeat constructor; cbn; tauto|]. intros k v [E|[]]. injection E as <- <-. cbn; eauto.
Qed.
Print Assumptions C87_settings_dropped_refuted.

Example C87_nonvacuous :
  settings_ok [(KS "n_workers", Leaf (LNum 8)); (KS "seed", LList [Leaf (LNum 3)])] /\
  flat_lists two_experiments /\
  deep_get (KS "seed") (apply_settings two_experiments [(KS "n_workers", Leaf (LNum 8)); (KS "seed", LList [Leaf (LNum 3)])])
    = [LList [Leaf (LNum 3)]; LList [Leaf (LNum 3)]].
Proof.
  split; [|split; [apply two_experiments_flat|reflexivity]].
  split; [repeat constructor; cbn; intuition discriminate|].
  intros k v [E|[E|[]]]; injection E as <- <-; cbn; split; eauto. intros c [<-|[]]. eauto.
Qed.

(** * Settings switched off for a while *)

Lemma update_twice : forall name v1 v2 s,
  deep_update true (KS name) v2 (deep_update true (KS name) v1 s) = deep_update true (KS name) v2 s.
Proof.
  intros name v1 v2 s. induction s as [s IH IH2] using node_deep_ind. destruct s as [lf|l|l]; auto.
  cbn [deep_update]. f_equal. rewrite map_map. apply map_ext_in. intros [k v] Hin. cbn [fst snd].
  rewrite !andb_true_r. f_equal. destruct (key_eqb k (KS name)); auto.
  destruct v as [lf|l0|l0]; auto.
  - specialize (IH k (Dict l0) Hin). cbn [deep_update] in *. exact IH.
  - f_equal. rewrite map_map. apply map_ext_in. intros c Hc. destruct c as [|lc|]; auto.
    destruct (items_list _ _ Hc) as (k2 & H2).
    specialize (IH2 k (LList l0) k2 (Dict lc) Hin H2). cbn [deep_update] in *. exact IH2.
Qed.

Lemma update_same : forall name v s,
  (forall q x, ~ In (KS name) q -> reaches s (q ++ [KS name]) x -> x = v) ->
  deep_update true (KS name) v s = s.
Proof.
  intros name v s. induction s as [s IH IH2] using node_deep_ind. intro H. destruct s as [lf|l|l]; auto.
  cbn [deep_update]. f_equal. rewrite <- (map_id l) at 2. apply map_ext_in. intros [k c] Hin. cbn [fst snd].
  rewrite andb_true_r. f_equal. destruct (key_eqb_spec k (KS name)) as [->|Hne].
  - symmetry. apply (H [] c); auto. cbn [app]. eapply r_dict; [exact Hin|constructor].
  - assert (Hc : forall q x, ~ In (KS name) q -> reaches c (q ++ [KS name]) x -> x = v).
    { intros q x Hq Hr. apply (H (k :: q) x); [cbn; intuition congruence|]. cbn [app]. eapply r_dict; eauto. }
    destruct c as [lf|l0|l0]; auto.
    + apply (IH k); auto.
    + f_equal. rewrite <- (map_id l0) at 2. apply map_ext_in. intros c Hcin. destruct c as [|lc|]; auto.
      destruct (items_list _ _ Hcin) as (k2 & H2). apply (IH2 k (LList l0) k2); auto.
      intros q x Hq Hr. cbn [items] in H2. apply combine_seq_In in H2 as (n & -> & Hn).
      apply (Hc (KI (0 + n) :: q) x); [cbn; intuition discriminate|]. cbn [app]. eapply r_list; eauto.
Qed.

(** C88, first half: while it is switched off every value found under the key is
    [False]. *)
Theorem C88_switched_off_partial : forall name l x, flat_lists (Dict l) ->
  In x (deep_get (KS name) (disable_setting (KS name) (Dict l))) -> x = Leaf (LBool false).
Proof.
  intros name l x Hf Hx. apply C86_deep_get in Hx as (q & Hq & Hr). unfold disable_setting in Hr.
  apply C53_update_every_occurrence_partial in Hr as [_ Hr]; auto. apply reaches_nil in Hr. auto.
Qed.
Print Assumptions C88_switched_off_partial.

(** C88, second half: when all occurrences of the key agree with the remembered
    value, switching off and restoring gives the configuration back unchanged. *)
Theorem C88_restored_partial : forall name first s,
  (forall x, In x (deep_get (KS name) s) -> x = first) ->
  restore_setting (KS name) first (disable_setting (KS name) s) = s.
Proof.
  intros name first s H. unfold restore_setting, deep_updates, disable_setting. cbn [fold_left fst snd].
  rewrite update_twice. apply update_same. intros q x Hq Hr. apply H. apply C86_deep_get. eauto.
Qed.
Print Assumptions C88_restored_partial.

(** C88 as stated is false: with two experiments of which only the first exports
    its samples, the second exports its samples afterwards as well. *)
Theorem C88_restored_refuted :
  exists s first, flat_lists s /\
    reaches s ([KS "experiments"; KI 0] ++ [KS "export_samples"]) first /\
    reaches s [KS "experiments"; KI 1; KS "export_samples"] (Leaf (LBool false)) /\
    reaches (restore_setting (KS "export_samples") first (disable_setting (KS "export_samples") s))
            [KS "experiments"; KI 1; KS "export_samples"] (Leaf (LBool true)).
Proof.
  exists two_experiments, (Leaf (LBool true)). split; [apply two_experiments_flat|].
  split; [apply lookup_reaches; [apply two_experiments_wf|reflexivity]|].
  split; [apply lookup_reaches; [apply two_experiments_wf|reflexivity]|].
  cbn. eapply r_dict; [cbn; eauto|]. eapply r_list; [reflexivity|]. eapply r_dict; [cbn; eauto|constructor].
Qed.
Print Assumptions C88_restored_refuted.

Example C88_nonvacuous :
  (forall x, In x (deep_get (KS "n_workers") two_experiments) -> x = Leaf (LNum 2)) /\
  deep_get (KS "n_workers") two_experiments <> [] /\
  deep_get (KS "n_workers") (disable_setting (KS "n_workers") two_experiments) = [Leaf (LBool false)].
Proof. split; [intros x [<-|[]]; auto|]. split; [discriminate|reflexivity]. Qed.

(** * Resuming an experiment *)

(** C89 as stated is false: a new configuration that leaves one of the hardware
    settings out cannot resume anything. *)
Theorem C89_resume_missing_refuted :
  exists new loaded, flat_lists new /\ flat_lists loaded /\ resume_config new loaded = Raise EIndex.
Proof. exists two_experiments, two_experiments. split; [|split]; auto using two_experiments_flat. Qed.
Print Assumptions C89_resume_missing_refuted.

Lemma deep_update_is_dict : forall k v l, exists l', deep_update true k v (Dict l) = Dict l'.
Proof. intros. cbn. eauto. Qed.

Lemma take_settings_spec : forall keys new loaded,
  (forall k, In k keys -> exists v, In v (deep_get k new)) ->
  exists us, take_settings keys new loaded = Ok (deep_updates true loaded us) /\ map fst us = keys /\
    forall k v, In (k, v) us -> exists t, deep_get k new = v :: t.
Proof.
  induction keys as [|k keys IH]; intros new loaded H.
  - exists []. split; [reflexivity|]. split; [reflexivity|intros ? ? []].
  - destruct (H k (or_introl eq_refl)) as (v & Hv). cbn [take_settings].
    destruct (deep_get k new) as [|v1 t] eqn:E; [destruct Hv|].
    destruct (IH new (deep_update true k v1 loaded)) as (us & E1 & Hk & Hus).
    + intros k' H'. apply H. cbn; auto.
    + exists ((k, v1) :: us). cbn [map fst]. rewrite Hk. split; auto. split; auto.
      intros k' v' [E2|H2]; [injection E2 as <- <-; eauto|auto].
Qed.

(** C89, the part that holds: when the new configuration has all four hardware
    settings (scalars), resuming succeeds, every value of such a setting found in
    the resumed configuration is the first one of the new configuration, and every
    setting whose path has none of the four names is that of the loaded one. *)
Theorem C89_resume_partial : forall new l,
  flat_lists (Dict l) ->
  (forall k, In k hardware_keys -> exists v, In v (deep_get k new)) ->
  (forall k v, In k hardware_keys -> In v (deep_get k new) -> plain v) ->
  exists r, resume_config new (Dict l) = Ok r /\
    (forall k x, In k hardware_keys -> In x (deep_get k r) -> hd_error (deep_get k new) = Some x) /\
    (forall p x, (forall k, In k p -> ~ In k hardware_keys) ->
       (reaches r p (Leaf x) <-> reaches (Dict l) p (Leaf x))).
Proof.
  intros new l Hf Hex Hpl.
  destruct (take_settings_spec hardware_keys new (Dict l) Hex) as (us & E & Hk & Hus).
  exists (apply_settings (Dict l) us). split; [exact E|].
  assert (Htext : forall k, In k hardware_keys -> exists t, k = KS t).
  { intros k H. cbn in H. destruct H as [<-|[<-|[<-|[<-|[]]]]]; eauto. }
  assert (Hin : forall k v, In (k, v) us -> In k hardware_keys).
  { intros k v H. rewrite <- Hk. change k with (fst (k, v)). apply in_map; auto. }
  assert (Hok : settings_ok us).
  { split.
    - rewrite Hk. unfold hardware_keys. repeat constructor; cbn; intuition discriminate.
    - intros k v H. split; [|eauto]. destruct (Hus k v H) as (t & Et). apply (Hpl k); eauto. rewrite Et. cbn; auto. }
  split.
  - intros k x Hkk Hx. rewrite <- Hk in Hkk. apply in_map_iff in Hkk as ([k' v] & <- & Hv). cbn [fst] in *.
    rewrite (C87_settings_effective_partial l us k' v Hf Hok Hv x Hx).
    destruct (Hus k' v Hv) as (t & ->). reflexivity.
  - intros p x Hp. apply C87_settings_nothing_else.
    + intros k v H. eauto.
    + rewrite Hk. exact Hp.
Qed.
Print Assumptions C89_resume_partial.

Definition new_hardware : node :=
  Dict [(KS "inputs", Dict [(KS "n_workers", Leaf (LNum 6)); (KS "n_threads", LList [Leaf (LNum 1)]); (KS "device", Leaf (LStr "cpu"))]);
        (KS "log_level", Leaf (LStr "info"))].
Example C89_nonvacuous :
  (forall k, In k hardware_keys -> exists v, In v (deep_get k new_hardware)) /\
  (forall k v, In k hardware_keys -> In v (deep_get k new_hardware) -> plain v) /\
  exists r, resume_config new_hardware two_experiments = Ok r /\ deep_get (KS "n_workers") r = [Leaf (LNum 6)] /\
    deep_get (KS "seed") r = [Leaf (LNum 1); Leaf (LNum 5)].
Proof.
  split; [|split].
  - intros k [<-|[<-|[<-|[<-|[]]]]]; eexists; cbn; eauto.
  - intros k v [<-|[<-|[<-|[<-|[]]]]] [<-|[]]; cbn; auto. intros c [<-|[]]; eauto.
  - eexists. split; [reflexivity|]. split; reflexivity.
Qed.

(** * Time stamps *)

(** C90: constructing an experiment keeps the time stamp of a configuration that has
    one (anywhere), adds one otherwise, and changes nothing else. *)
Theorem C90_time_stamp : forall now l,
  (deep_get (KS "datetime") (Dict l) <> [] -> stamp_config now (Dict l) = Dict l) /\
  (deep_get (KS "datetime") (Dict l) = [] ->
     exists l', stamp_config now (Dict l) = Dict l' /\ dget (KS "datetime") l' = Some now /\
       forall k, k <> KS "datetime" -> dget k l' = dget k l).
Proof.
  intros now l. unfold stamp_config. split.
  - intro H. destruct (deep_get (KS "datetime") (Dict l)); [congruence|]. apply C53_update_no_overwrite.
  - intros ->. eexists. split; [reflexivity|]. split; [apply dget_dset_same|].
    intros k Hk. apply dget_dset_other; auto.
Qed.
Print Assumptions C90_time_stamp.

Example C90_nonvacuous :
  deep_get (KS "datetime") two_experiments <> [] /\ deep_get (KS "datetime") new_hardware = [].
Proof. split; [discriminate|reflexivity]. Qed.

(** * deep_apply *)

(** C91: applying a function to a configuration keeps its shape: following
    dictionary keys leads to the image of what was there (a list counts as one
    value), and the function is applied to nothing else. *)
Theorem C91_deep_apply : forall f p l, wf (Dict l) ->
  exists l', deep_apply f (Dict l) = Ok (Dict l') /\ map fst l' = map fst l /\
    forall v, ~ is_dict v -> dlook (Dict l) p = Some v -> dlook (Dict l') p = Some (f v).
Proof.
  intros f p l Hwf.
  assert (G : forall s, wf s -> is_dict s -> exists l l', s = Dict l /\ deep_apply f s = Ok (Dict l') /\
    map fst l' = map fst l /\
    forall p v, ~ is_dict v -> dlook s p = Some v -> dlook (Dict l') p = Some (f v)).
  { clear. intro s. induction s as [s IH] using node_items_ind. intros Hwf Hd.
    destruct s as [|l|]; try destruct Hd. exists l. inversion Hwf as [|? Hnd Hc|]; subst.
    cbn [items] in IH.
    set (go := fix go (l : list (key * node)) : res (list (key * node)) :=
                match l with
                | [] => Ok []
                | (k, v) :: t =>
                  do v' <- match v with Dict _ => deep_apply f v | _ => Ok (f v) end ;
                  do t' <- go t ; Ok ((k, v') :: t')
                end).
    assert (Hgo : forall ll, (forall k c, In (k, c) ll -> In (k, c) l) -> NoDup (map fst ll) ->
      exists l', go ll = Ok l' /\ map fst l' = map fst ll /\
        forall k c, dget k ll = Some c -> exists c', dget k l' = Some c' /\
          match c with Dict _ => forall p v, ~ is_dict v -> dlook c p = Some v -> dlook c' p = Some (f v) | _ => c' = f c end).
    { induction ll as [|[k c] ll IHl]; intros Hsub Hn.
      - exists []. split; [reflexivity|]. split; auto. intros k c H. discriminate.
      - inversion Hn; subst. destruct IHl as (l' & E & Hk & Hl'); auto.
        { intros k0 c0 H. apply Hsub. cbn; auto. }
        assert (Ec : exists c', match c with Dict _ => deep_apply f c | _ => Ok (f c) end = Ok c' /\
          match c with Dict _ => forall p v, ~ is_dict v -> dlook c p = Some v -> dlook c' p = Some (f v) | _ => c' = f c end).
        { destruct c as [|lc|]; [eauto| |eauto].
          destruct (IH k (Dict lc)) as (l0 & l1 & E0 & E1 & _ & H); [apply Hsub; cbn; auto| |exact I|].
          - apply (Hc k). apply Hsub. cbn; auto.
          - exists (Dict l1). auto. }
        destruct Ec as (c' & Ec & Hc'). exists ((k, c') :: l'). cbn [go]. rewrite Ec. cbn [rbind].
        fold go. rewrite E. cbn [rbind map fst]. rewrite Hk. split; auto. split; auto.
        intros k0 c0 H. cbn [dget] in *. destruct (key_eqb k0 k); auto.
        injection H as <-. eauto. }
    destruct (Hgo l (fun k c H => H) Hnd) as (l' & E & Hk & Hl'). exists l'. split; auto.
    split; [cbn [deep_apply]; fold go; rewrite E; reflexivity|]. split; auto.
    intros p v Hv Hp. destruct p as [|k p].
    - cbn in Hp. injection Hp as <-. exfalso. apply Hv. exact I.
    - cbn [dlook] in *. destruct (dget k l) as [c|] eqn:Eg; [|discriminate].
      destruct (Hl' k c Eg) as (c' & -> & Hc'). destruct c.
      + subst c'. destruct p; [cbn in *; congruence|discriminate].
      + apply Hc'; auto.
      + subst c'. destruct p; [cbn in *; congruence|discriminate]. }
  destruct (G (Dict l) Hwf I) as (l0 & l' & E & E1 & Hk & H). injection E as <-. exists l'. auto.
Qed.
Print Assumptions C91_deep_apply.

Example C91_nonvacuous :
  wf two_experiments /\
  exists r, deep_apply (fun _ => Leaf LNone) two_experiments = Ok r /\
    dlook r [KS "inputs"; KS "seed"] = Some (Leaf LNone) /\ dlook r [KS "experiments"] = Some (Leaf LNone).
Proof. split; [apply two_experiments_wf|]. eexists. split; [reflexivity|]. split; reflexivity. Qed.
