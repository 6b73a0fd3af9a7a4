(** Property C40 (key search) of the configuration tree. *)
From Coq Require Import List ZArith Lia Bool Arith String Ascii Permutation Wf_nat.
From Verif Require Import Base ConfigTree ConfigSpec ConfigProps.
Import ListNotations.
Local Open Scope nat_scope.

(** * Items, induction *)
Fixpoint nsize (s : node) : nat :=
  match s with
  | Leaf _ => 1
  | Dict l => S (list_sum (map (fun kv => nsize (snd kv)) l))
  | LList l => S (list_sum (map nsize l))
  end.

Lemma list_sum_in : forall l x, In x l -> x <= list_sum l.
Proof.
  induction l as [|y l IH]; intros x H; cbn in *; [tauto|].
  destruct H as [->|H]; [lia|]. apply IH in H. unfold list_sum in H. lia.
Qed.

Lemma combine_seq_In : forall (l : list node) i k c,
  In (k, c) (combine (map KI (seq i (List.length l))) l) <->
  exists n, k = KI (i + n) /\ nth_error l n = Some c.
Proof.
  induction l as [|x l IH]; intros i k c; cbn.
  - split; [tauto|]. intros (n & _ & H). destruct n; discriminate.
  - rewrite IH. split.
    + intros [E|(n & -> & H)].
      * injection E as <- <-. exists 0. split; [f_equal; lia|reflexivity].
      * exists (S n). split; [f_equal; lia|exact H].
    + intros ([|n] & -> & H).
      * left. injection H as ->. f_equal. f_equal. lia.
      * right. exists n. split; [f_equal; lia|exact H].
Qed.

Lemma items_size : forall s k c, In (k, c) (items s) -> nsize c < nsize s.
Proof.
  intros [lf|l|l] k c H; cbn [items] in H.
  - destruct H.
  - cbn. apply (in_map (fun kv => nsize (snd kv))), list_sum_in in H. cbn in H. lia.
  - apply combine_seq_In in H as (n & _ & H). apply nth_error_In in H.
    cbn. apply (in_map nsize), list_sum_in in H. lia.
Qed.

Lemma node_items_ind : forall P : node -> Prop,
  (forall s, (forall k c, In (k, c) (items s) -> P c) -> P s) -> forall s, P s.
Proof.
  intros P H s. induction s as [s IH] using (induction_ltof1 node nsize).
  apply H. intros k c Hin. apply IH. unfold ltof. eapply items_size; eauto.
Qed.

Lemma reaches_items : forall s k p w,
  reaches s (k :: p) w <-> exists c, In (k, c) (items s) /\ reaches c p w.
Proof.
  intros s k p w; split.
  - inversion 1 as [|l k' c p' w' Hin Hr|l n c p' w' Hn Hr]; subst; exists c; split; auto.
    cbn [items]. apply combine_seq_In. exists n. auto.
  - intros (c & Hin & Hr). destruct s as [lf|l|l]; cbn [items] in Hin.
    + destruct Hin.
    + eapply r_dict; eauto.
    + apply combine_seq_In in Hin as (n & -> & Hn). cbn. eapply r_list; eauto.
Qed.

Lemma NoDup_map_KI_seq : forall n i, NoDup (map KI (seq i n)).
Proof.
  intros n i. apply FinFun.Injective_map_NoDup; [intros a b E; congruence|apply seq_NoDup].
Qed.

Lemma map_fst_combine : forall (A B : Type) (a : list A) (b : list B),
  List.length a = List.length b -> map fst (combine a b) = a.
Proof.
  induction a as [|x a IH]; intros [|y b] H; cbn in *; try lia; auto.
  f_equal; apply IH; lia.
Qed.

Lemma wf_items : forall s, wf s -> NoDup (map fst (items s)) /\ forall k c, In (k, c) (items s) -> wf c.
Proof.
  intros s W. destruct W as [lf|l Hnd Hc|l Hc]; cbn [items].
  - split; [constructor|intros k c []].
  - split; eauto.
  - split.
    + rewrite map_fst_combine by (now rewrite map_length, seq_length). apply NoDup_map_KI_seq.
    + intros k c H. apply combine_seq_In in H as (n & _ & H). apply Hc. eapply nth_error_In; eauto.
Qed.

(** * The searches as folds over the items *)
Definition fstep (key : ConfigTree.key) (st : list ConfigTree.key * list (list ConfigTree.key))
    (kv : ConfigTree.key * node) :=
  let cur1 := fst st ++ [fst kv] in
  let acc1 := if key_eqb (fst kv) key then snd st ++ [cur1] else snd st in
  let st2 := if is_container (snd kv) then path_find_st key (snd kv) (cur1, acc1) else (cur1, acc1) in
  (remove_first (fst kv) (fst st2), snd st2).

Lemma path_find_st_fold : forall key s st,
  path_find_st key s st = fold_left (fstep key) (items s) st.
Proof.
  intros key [lf|l|l] st; cbn [items].
  - reflexivity.
  - cbn [path_find_st]. revert st. induction l as [|[k v] l IH]; intros st; [reflexivity|].
    cbn [fold_left]. rewrite <- IH. reflexivity.
  - cbn [path_find_st].
    assert (H : forall l i st,
      (fix go (i : nat) (l : list node) st {struct l} :=
         match l with
         | [] => st
         | v :: t => go (S i) t
             (remove_first (KI i)
                (fst (if is_container v
                      then path_find_st key v
                        (fst st ++ [KI i],
                         if key_eqb (KI i) key then snd st ++ [fst st ++ [KI i]] else snd st)
                      else (fst st ++ [KI i],
                         if key_eqb (KI i) key then snd st ++ [fst st ++ [KI i]] else snd st))),
              snd (if is_container v
                   then path_find_st key v
                     (fst st ++ [KI i],
                      if key_eqb (KI i) key then snd st ++ [fst st ++ [KI i]] else snd st)
                   else (fst st ++ [KI i],
                      if key_eqb (KI i) key then snd st ++ [fst st ++ [KI i]] else snd st)))
         end) i l st
      = fold_left (fstep key) (combine (map KI (seq i (List.length l))) l) st).
    { clear. induction l as [|v l IH]; intros i st; [reflexivity|].
      cbn [List.length seq map combine fold_left]. rewrite <- IH. reflexivity. }
    exact (H l 0 st).
Qed.

Definition estep (key : ConfigTree.key) (found : bool) (kv : ConfigTree.key * node) : bool :=
  if key_eqb (fst kv) key then true
  else if is_container (snd kv) then path_exists key (snd kv) found else found.

Lemma path_exists_fold : forall key s found,
  path_exists key s found = fold_left (estep key) (items s) found.
Proof.
  intros key [lf|l|l] st; cbn [items].
  - reflexivity.
  - cbn [path_exists]. revert st. induction l as [|[k v] l IH]; intros st; [reflexivity|].
    cbn [fold_left]. rewrite <- IH. reflexivity.
  - cbn [path_exists].
    assert (H : forall l i found,
      (fix go (i : nat) (l : list node) (found : bool) {struct l} :=
         match l with
         | [] => found
         | v :: t => go (S i) t
             (if key_eqb (KI i) key then true
              else if is_container v then path_exists key v found else found)
         end) i l found
      = fold_left (estep key) (combine (map KI (seq i (List.length l))) l) found).
    { clear. induction l as [|v l IH]; intros i found; [reflexivity|].
      cbn [List.length seq map combine fold_left]. rewrite <- IH. reflexivity. }
    exact (H l 0 st).
Qed.

(** * path_exists *)
(** There is a path ending in [key]. *)
Definition occurs (key : ConfigTree.key) (s : node) : Prop :=
  exists q w, reaches s (q ++ [key]) w.

Lemma occurs_items : forall key s,
  occurs key s <-> exists k c, In (k, c) (items s) /\ (k = key \/ occurs key c).
Proof.
  intros key s; split.
  - intros ([|k q] & w & H); apply reaches_items in H as (c & Hin & Hr).
    + exists key, c; auto.
    + exists k, c; split; auto. right. exists q, w; auto.
  - intros (k & c & Hin & [->|(q & w & Hr)]).
    + exists [], c. apply reaches_items. exists c; split; auto; constructor.
    + exists (k :: q), w. apply reaches_items. eauto.
Qed.

Lemma path_exists_spec : forall key s found,
  path_exists key s found = true <-> found = true \/ occurs key s.
Proof.
  intros key s. induction s as [s IH] using node_items_ind. intros found.
  rewrite path_exists_fold, occurs_items.
  revert found IH. generalize (items s). clear s.
  induction l as [|[k c] l IHl]; intros found IH; cbn [fold_left].
  - split; [auto|]. intros [|(? & ? & [] & _)]; auto.
  - rewrite IHl by (intros; eapply IH; right; eauto).
    assert (E : estep key found (k, c) = true <-> found = true \/ k = key \/ occurs key c).
    { unfold estep; cbn [fst snd]. destruct (key_eqb_spec k key) as [->|Hne]; [tauto|].
      destruct (is_container c) eqn:Ec.
      - rewrite (IH k c) by (left; reflexivity). tauto.
      - split; [auto|]. intros [H|[H|(q & w & Hr)]]; [exact H|contradiction|].
        destruct c; try discriminate. inversion Hr as [x Hx E2 E3| |]. destruct q; discriminate. }
    rewrite E. clear E. split.
    + intros [[|H]|(k' & c' & Hin & H)]; auto.
      * right. exists k, c; split; [left; auto|auto].
      * right. exists k', c'; split; [right; auto|auto].
    + intros [|(k' & c' & [E|Hin] & H)]; auto.
      * injection E as <- <-. auto.
      * right; eauto.
Qed.

(** The existence test answers true exactly when some path ends in the key. *)
Theorem C40_exists_exact : forall key s,
  path_exists key s false = true <-> exists q w, reaches s (q ++ [key]) w.
Proof.
  intros key s. rewrite path_exists_spec. unfold occurs. intuition congruence.
Qed.
Print Assumptions C40_exists_exact.

(** * path_find *)
(** The occurrences of a key in the order of the walk. *)
Fixpoint occ (key : ConfigTree.key) (s : node) : list (list ConfigTree.key) :=
  match s with
  | Leaf _ => []
  | Dict l =>
      flat_map (fun kv => (if key_eqb (fst kv) key then [[fst kv]] else []) ++
                          map (cons (fst kv)) (occ key (snd kv))) l
  | LList l =>
      (fix go (i : nat) (l : list node) : list (list ConfigTree.key) :=
         match l with
         | [] => []
         | v :: t => ((if key_eqb (KI i) key then [[KI i]] else []) ++ map (cons (KI i)) (occ key v))
                       ++ go (S i) t
         end) 0 l
  end.

Definition occ_item (key : ConfigTree.key) (kv : ConfigTree.key * node) : list (list ConfigTree.key) :=
  (if key_eqb (fst kv) key then [[fst kv]] else []) ++ map (cons (fst kv)) (occ key (snd kv)).

Lemma occ_items : forall key s, occ key s = flat_map (occ_item key) (items s).
Proof.
  intros key [lf|l|l]; [reflexivity|reflexivity|]. cbn [occ items].
  generalize 0. induction l as [|v l IH]; intros i; [reflexivity|].
  cbn [List.length seq map combine flat_map]. now rewrite <- IH.
Qed.

Lemma occ_In : forall key s p,
  In p (occ key s) <-> exists q w, p = q ++ [key] /\ reaches s p w.
Proof.
  intros key s. induction s as [s IH] using node_items_ind. intros p.
  rewrite occ_items, in_flat_map. split.
  - intros ([k c] & Hin & Hp). unfold occ_item in Hp; cbn [fst snd] in Hp.
    apply in_app_or in Hp as [Hp|Hp].
    + destruct (key_eqb_spec k key) as [->|]; [|destruct Hp]. destruct Hp as [<-|[]].
      exists [], c. split; [reflexivity|]. apply reaches_items. exists c; split; auto; constructor.
    + apply in_map_iff in Hp as (p' & <- & Hp'). apply (IH k c Hin) in Hp' as (q & w & -> & Hr).
      exists (k :: q), w. split; [reflexivity|]. apply reaches_items; eauto.
  - intros (q & w & -> & Hr). destruct q as [|k q]; apply reaches_items in Hr as (c & Hin & Hr).
    + exists (key, c). split; auto. unfold occ_item; cbn [fst snd].
      rewrite key_eqb_refl. apply in_or_app; left; left; reflexivity.
    + exists (k, c). split; auto. unfold occ_item; cbn [fst snd]. apply in_or_app; right.
      change ((k :: q) ++ [key]) with (k :: (q ++ [key])). apply in_map. apply (IH k c Hin).
      exists q, w; split; [reflexivity|exact Hr].
Qed.

Lemma NoDup_app_intro : forall (A : Type) (a b : list A),
  NoDup a -> NoDup b -> (forall x, In x a -> ~ In x b) -> NoDup (a ++ b).
Proof.
  induction a as [|x a IH]; intros b Ha Hb H; cbn; auto.
  inversion Ha; subst. constructor.
  - rewrite in_app_iff. intros [|Hx]; auto. apply (H x); [left|]; auto.
  - apply IH; auto. intros y Hy. apply H; right; auto.
Qed.

Lemma occ_NoDup : forall key s, wf s -> NoDup (occ key s).
Proof.
  intros key s. induction s as [s IH] using node_items_ind. intros W.
  rewrite occ_items. destruct (wf_items s W) as [Hnd Hc]. clear W.
  revert IH Hnd Hc. generalize (items s). clear s.
  induction l as [|[k c] l IHl]; intros IH Hnd Hc; cbn; [constructor|].
  cbn in Hnd. apply NoDup_cons_iff in Hnd as [Hni Hnd].
  assert (Hhd : forall k' c' p, In p (occ_item key (k', c')) -> exists p', p = k' :: p').
  { intros k' c' p Hp. unfold occ_item in Hp; cbn in Hp. apply in_app_or in Hp as [Hp|Hp].
    - destruct (key_eqb k' key); [destruct Hp as [<-|[]]; eauto|destruct Hp].
    - apply in_map_iff in Hp as (p' & <- & _); eauto. }
  apply NoDup_app_intro.
  - unfold occ_item; cbn [fst snd]. apply NoDup_app_intro.
    + destruct (key_eqb k key); repeat constructor; cbn; tauto.
    + apply FinFun.Injective_map_NoDup; [intros a b E; congruence|].
      eapply IH; [left; reflexivity|]. apply (Hc k); left; reflexivity.
    + intros x Hx Hx2. destruct (key_eqb k key); [|destruct Hx]. destruct Hx as [<-|[]].
      apply in_map_iff in Hx2 as (p' & E & Hp'). injection E as ->.
      apply occ_In in Hp' as (q & w & E & _). destruct q; discriminate.
  - apply IHl; auto.
    + intros k' c' Hin. apply (IH k'); right; auto.
    + intros k' c' Hin. apply (Hc k'); right; auto.
  - intros x Hx Hx2. apply Hhd in Hx as [p' ->].
    apply in_flat_map in Hx2 as ([k' c'] & Hin & Hp). apply Hhd in Hp as [p2 E].
    injection E as -> _. apply Hni. now apply (in_map fst) in Hin.
Qed.

Lemma remove_first_app : forall k cur, ~ In k cur -> remove_first k (cur ++ [k]) = cur.
Proof.
  induction cur as [|x cur IH]; intros H; cbn.
  - now rewrite key_eqb_refl.
  - rewrite key_eqb_neq by (intros ->; apply H; left; auto).
    f_equal. apply IH. intros Hin; apply H; right; auto.
Qed.

Lemma remove_first_perm : forall k l, In k l -> Permutation l (k :: remove_first k l).
Proof.
  induction l as [|x l IH]; intros H; [destruct H|]. cbn.
  destruct (key_eqb_spec x k) as [->|Hne]; [reflexivity|].
  destruct H as [->|H]; [congruence|]. rewrite (IH H) at 1. apply perm_swap.
Qed.

Lemma path_find_st_clean : forall key s cur acc,
  (forall p w, reaches s p w -> NoDup (cur ++ p)) ->
  path_find_st key s (cur, acc) = (cur, acc ++ map (app cur) (occ key s)).
Proof.
  intros key s. induction s as [s IH] using node_items_ind. intros cur acc Hnd.
  rewrite path_find_st_fold, occ_items.
  assert (Hnd' : forall k c p w, In (k, c) (items s) -> reaches c p w -> NoDup (cur ++ k :: p)).
  { intros k c p w Hin Hr. eapply Hnd. apply reaches_items; eauto. }
  clear Hnd. revert acc IH Hnd'. generalize (items s). clear s.
  induction l as [|[k c] l IHl]; intros acc IH Hnd; cbn [fold_left flat_map].
  - cbn. now rewrite app_nil_r.
  - assert (E : fstep key (cur, acc) (k, c) = (cur, acc ++ map (app cur) (occ_item key (k, c)))).
    { assert (Hk : ~ In k cur).
      { assert (H := Hnd k c [] c (or_introl eq_refl) (r_here c)).
        apply NoDup_remove_2 in H. rewrite app_nil_r in H. exact H. }
      unfold fstep; cbn [fst snd].
      set (acc1 := if key_eqb k key then acc ++ [cur ++ [k]] else acc).
      assert (E2 : (if is_container c then path_find_st key c (cur ++ [k], acc1) else (cur ++ [k], acc1))
                   = (cur ++ [k], acc1 ++ map (app (cur ++ [k])) (occ key c))).
      { destruct (is_container c) eqn:Ec.
        - apply (IH k c); [left; reflexivity|]. intros p w Hr. rewrite <- app_assoc. cbn.
          eapply Hnd; [left; reflexivity|eauto].
        - destruct c; try discriminate. cbn. now rewrite app_nil_r. }
      rewrite E2; cbn [fst snd]. rewrite remove_first_app by exact Hk. f_equal.
      unfold occ_item, acc1; cbn [fst snd]. rewrite map_app, map_map.
      rewrite (map_ext (fun x => cur ++ k :: x) (app (cur ++ [k]))) by (intros x; rewrite <- app_assoc; reflexivity).
      destruct (key_eqb k key); cbn; [now rewrite <- app_assoc|reflexivity]. }
    rewrite E, IHl.
    + now rewrite map_app, app_assoc.
    + intros k' c' Hin. apply (IH k'); right; auto.
    + intros k' c' p w Hin. apply (Hnd k' c'); right; auto.
Qed.

Lemma Forall2_weaken : forall (A B : Type) (P Q : A -> B -> Prop) a b,
  (forall x y, P x y -> Q x y) -> Forall2 P a b -> Forall2 Q a b.
Proof. intros A B P Q a b H F; induction F; constructor; auto. Qed.

(** In general: one path per occurrence, in the same order, each a
    rearrangement of the true path with the searched key in last position. *)
Lemma path_find_st_general : forall key s cur acc,
  exists cur' found, path_find_st key s (cur, acc) = (cur', acc ++ found) /\
    Permutation cur cur' /\
    Forall2 (fun p o => Permutation p (cur ++ o) /\ exists q, p = q ++ [key]) found (occ key s).
Proof.
  intros key s. induction s as [s IH] using node_items_ind. intros cur acc.
  rewrite path_find_st_fold, occ_items.
  revert cur acc IH. generalize (items s). clear s.
  induction l as [|[k c] l IHl]; intros cur acc IH; cbn [fold_left flat_map].
  - exists cur, []. rewrite app_nil_r. split; [reflexivity|split; [reflexivity|constructor]].
  - assert (E : exists cur' found, fstep key (cur, acc) (k, c) = (cur', acc ++ found) /\
        Permutation cur cur' /\
        Forall2 (fun p o => Permutation p (cur ++ o) /\ exists q, p = q ++ [key]) found
          (occ_item key (k, c))).
    { unfold fstep; cbn [fst snd].
      set (acc1 := if key_eqb k key then acc ++ [cur ++ [k]] else acc).
      assert (E2 : exists cur2 found, (if is_container c then path_find_st key c (cur ++ [k], acc1) else (cur ++ [k], acc1))
                   = (cur2, acc1 ++ found) /\ Permutation (cur ++ [k]) cur2 /\
          Forall2 (fun p o => Permutation p ((cur ++ [k]) ++ o) /\ exists q, p = q ++ [key]) found (occ key c)).
      { destruct (is_container c) eqn:Ec.
        - apply (IH k c); left; reflexivity.
        - destruct c; try discriminate. exists (cur ++ [k]), []. rewrite app_nil_r.
          split; [reflexivity|split; [reflexivity|constructor]]. }
      destruct E2 as (cur2 & found & E2 & Hp & Hf). rewrite E2; cbn [fst snd].
      exists (remove_first k cur2), ((if key_eqb k key then [cur ++ [k]] else []) ++ found).
      split; [|split].
      - f_equal. unfold acc1. destruct (key_eqb k key); [now rewrite <- app_assoc|reflexivity].
      - apply (Permutation_cons_inv (a := k)).
        rewrite <- remove_first_perm.
        + rewrite <- Hp. apply Permutation_cons_append.
        + eapply Permutation_in; [exact Hp|]. apply in_or_app; right; left; reflexivity.
      - unfold occ_item; cbn [fst snd]. apply Forall2_app.
        + destruct (key_eqb_spec k key) as [->|]; constructor; [|constructor].
          split; [reflexivity|eauto].
        + revert Hf. generalize (occ key c). clear. induction found as [|p found IHf]; intros os Hf;
            inversion Hf as [|? o ? os' [Hp He] Hf']; subst; cbn; constructor; auto.
          split; [|exact He]. rewrite Hp, <- app_assoc. reflexivity. }
    destruct E as (cur1 & f1 & E & Hp1 & Hf1). rewrite E.
    destruct (IHl cur1 (acc ++ f1)) as (cur2 & f2 & E2 & Hp2 & Hf2).
    { intros k' c' Hin. apply (IH k'); right; auto. }
    exists cur2, (f1 ++ f2). rewrite E2, app_assoc. split; [reflexivity|split].
    + now rewrite Hp1.
    + apply Forall2_app; auto. eapply Forall2_weaken; [|exact Hf2].
      cbn. intros p o [Hp He]; split; auto. now rewrite Hp, Hp1.
Qed.

(** Key search is exact for configurations in which no key (and no list
    index) occurs twice along a path: the result lists exactly the paths
    ending in the key, each once, and each of them can be read. *)
Theorem C40_find_exact_partial : forall key s,
  wf s -> no_repeated_keys s ->
  (forall p, In p (path_find key s) <-> exists q w, p = q ++ [key] /\ reaches s p w) /\
  NoDup (path_find key s) /\
  (forall p w, In p (path_find key s) -> reaches s p w -> w <> Leaf (LStr "not-found") ->
     path_get p s = (Some w, true)).
Proof.
  intros key s W Hnr. unfold path_find.
  rewrite (path_find_st_clean key s [] []) by (intros p w Hr; cbn; eapply Hnr; eauto).
  cbn [snd app]. change (map (app []) (occ key s)) with (map (fun p : list ConfigTree.key => p) (occ key s)).
  rewrite map_id. split; [|split].
  - apply occ_In.
  - now apply occ_NoDup.
  - intros p w Hin Hr Hw. apply C39_get_reads_existing_path; auto.
    apply occ_In in Hin as (q & _ & -> & _). destruct q; discriminate.
Qed.
Print Assumptions C40_find_exact_partial.

(** Without that hypothesis the number of results is right and every result is
    a reordering of a real path that ends in the key. *)
Theorem C40_find_up_to_order : forall key s, wf s ->
  exists true_paths,
    (forall p, In p true_paths <-> exists q w, p = q ++ [key] /\ reaches s p w) /\
    NoDup true_paths /\
    Forall2 (fun found p => Permutation found p /\ exists q, found = q ++ [key])
      (path_find key s) true_paths.
Proof.
  intros key s W. exists (occ key s).
  split; [apply occ_In|split; [now apply occ_NoDup|]].
  unfold path_find. destruct (path_find_st_general key s [] []) as (cur' & found & E & _ & Hf).
  rewrite E. cbn [snd app]. exact Hf.
Qed.
Print Assumptions C40_find_up_to_order.

(** In particular the emptiness test done by callers is right for every
    configuration. *)
Theorem C40_find_nonempty_exact : forall key s, wf s ->
  (path_find key s <> [] <-> exists q w, reaches s (q ++ [key]) w).
Proof.
  intros key s W. destruct (C40_find_up_to_order key s W) as (tp & Hin & _ & Hf).
  split.
  - intros H. inversion Hf as [E1 E2|a b la lb Hab Hl E1 E2].
    + symmetry in E1. contradiction.
    + destruct (proj1 (Hin b)) as (q & w & E & Hr); [rewrite <- E2; left; reflexivity|].
      subst b. eauto.
  - intros (q & w & Hr) E. rewrite E in Hf. inversion Hf; subst.
    apply (proj2 (Hin (q ++ [key]))). eauto.
Qed.
Print Assumptions C40_find_nonempty_exact.

(** The exact statement is false: in a configuration with the two-element list
    [range] before [target_name] inside an experiment (index 0 occurs twice on
    the way to range[0]) the path found for [target_name] has its keys in the
    wrong order and cannot be read. *)
Definition repeated_index_config : node :=
  Dict [(KS "experiments", LList [Dict [(KS "seed", Dict [(KS "range", LList [Leaf (LNum 1); Leaf (LNum 2)]);
                                                         (KS "target_name", Leaf (LStr "dataset"))])]])].

Theorem C40_find_wrong_path_refuted :
  exists s key p, wf s /\ path_find key s = [p] /\ (forall w, ~ reaches s p w) /\
    path_get p s = (None, false) /\
    (exists q w, reaches s (q ++ [key]) w).
Proof.
  exists repeated_index_config, (KS "target_name"),
    [KS "experiments"; KS "seed"; KI 0; KS "target_name"].
  assert (W : wf repeated_index_config).
  { constructor; [repeat constructor; cbn; tauto|].
    intros k c [E|[]]; injection E as <- <-. constructor. intros c [<-|[]].
    constructor; [repeat constructor; cbn; tauto|].
    intros k c [E|[]]; injection E as <- <-.
    constructor; [repeat constructor; cbn; intuition congruence|].
    intros k c [E|[E|[]]]; injection E as <- <-; constructor.
    intros c [<-|[<-|[]]]; constructor. }
  split; [exact W|]. split; [reflexivity|]. split; [|split; [reflexivity|]].
  - intros w Hr. apply lookup_reaches in Hr; auto. discriminate.
  - exists [KS "experiments"; KI 0; KS "seed"], (Leaf (LStr "dataset")).
    apply lookup_reaches; auto.
Qed.
Print Assumptions C40_find_wrong_path_refuted.

(** So a configuration lookup by key misses a value that is present ... *)
Theorem C40_get_misses_present_key_refuted :
  exists s key default w, wf s /\ (exists q, reaches s (q ++ [key]) w) /\
    config_get key default s = Some default /\ w <> default.
Proof.
  exists repeated_index_config, (KS "target_name"), (Leaf LNone), (Leaf (LStr "dataset")).
  assert (W : wf repeated_index_config).
  { constructor; [repeat constructor; cbn; tauto|].
    intros k c [E|[]]; injection E as <- <-. constructor. intros c [<-|[]].
    constructor; [repeat constructor; cbn; tauto|].
    intros k c [E|[]]; injection E as <- <-.
    constructor; [repeat constructor; cbn; intuition congruence|].
    intros k c [E|[E|[]]]; injection E as <- <-; constructor.
    intros c [<-|[<-|[]]]; constructor. }
  split; [exact W|]. split; [|split; [reflexivity|discriminate]].
  exists [KS "experiments"; KI 0; KS "seed"]. apply lookup_reaches; auto.
Qed.
Print Assumptions C40_get_misses_present_key_refuted.

(** ... while without repeated keys the lookup gives the value of an
    occurrence, and the default exactly when there is none. *)
Theorem C40_get_by_key_partial : forall key default s,
  wf s -> no_repeated_keys s ->
  (forall p, In p (path_find key s) -> has_sweep p s = false) ->
  (forall q w, reaches s (q ++ [key]) w -> w <> Leaf (LStr "not-found")) ->
  (exists q w, reaches s (q ++ [key]) w /\ config_get key default s = Some w) \/
  ((forall q w, ~ reaches s (q ++ [key]) w) /\ config_get key default s = Some default).
Proof.
  intros key default s W Hnr Hsw Hnf.
  destruct (C40_find_exact_partial key s W Hnr) as (Hin & _ & Hget).
  unfold config_get. destruct (path_find key s) as [|p ps] eqn:E.
  - right. split; [|reflexivity]. intros q w Hr.
    apply (proj2 (Hin (q ++ [key]))). eauto.
  - left. rewrite Hsw by (left; reflexivity).
    destruct (proj1 (Hin p) (or_introl eq_refl)) as (q & w & -> & Hr).
    exists q, w. split; auto. rewrite (Hget (q ++ [key]) w); auto.
    + left; reflexivity.
    + eapply Hnf; eauto.
Qed.
Print Assumptions C40_get_by_key_partial.

(** The sweep mode test only uses whether such a path exists, so it is exact
    (for a boolean [sweep_mode] setting). *)
Theorem C40_sweep_mode_exact : forall l, wf (Dict l) ->
  (sweep_mode (Dict l) = true <->
   In (KS "sweep_mode", Leaf (LBool true)) l /\
   exists q w, reaches (Dict l) (q ++ [KS "sweep"]) w).
Proof.
  intros l W. inversion W as [|? Hnd Hc|]; subst.
  assert (Hp : existsb (fun p => negb (List.length p =? 0)) (path_find (KS "sweep") (Dict l)) = true
               <-> exists q w, reaches (Dict l) (q ++ [KS "sweep"]) w).
  { rewrite <- C40_find_nonempty_exact by exact W.
    destruct (C40_find_up_to_order (KS "sweep") (Dict l) W) as (tp & _ & _ & Hf).
    destruct (path_find (KS "sweep") (Dict l)) as [|p ps]; [cbn; split; congruence|].
    split; [discriminate|]. intros _. inversion Hf as [|a b la lb [_ [q Hq]] _]; subst.
    cbn [existsb]. destruct q; reflexivity. }
  cbn [sweep_mode]. split.
  - destruct (dget (KS "sweep_mode") l) as [[[|[]| |]| |]|] eqn:E; try discriminate.
    intros H. split; [now apply dget_In|now apply Hp].
  - intros [Hin H]. rewrite (In_dget _ _ _ Hnd Hin). now apply Hp.
Qed.
Print Assumptions C40_sweep_mode_exact.

Example C40_nonvacuous :
  let s := Dict [(KS "inputs", Dict [(KS "seed", Leaf (LNum 1))]); (KS "seed", Leaf (LNum 2))] in
  wf s /\ no_repeated_keys s /\ path_find (KS "seed") s = [[KS "inputs"; KS "seed"]; [KS "seed"]].
Proof.
  intros s. assert (W : wf s).
  { constructor; [repeat constructor; cbn; intuition congruence|].
    intros k c [E|[E|[]]]; injection E as <- <-; [|constructor].
    constructor; [repeat constructor; cbn; tauto|].
    intros k c [E|[]]; injection E as <- <-; constructor. }
  split; [exact W|]. split; [|reflexivity].
  intros p w Hr. destruct p as [|k p]; [constructor|].
  apply reaches_items in Hr as (c & [E|[E|[]]] & Hr); injection E as <- <-.
  - destruct p as [|k p]; [repeat constructor; cbn; tauto|].
    apply reaches_items in Hr as (c & [E|[]] & Hr); injection E as <- <-.
    inversion Hr; subst. repeat constructor; cbn; intuition congruence.
  - inversion Hr; subst. repeat constructor; cbn; tauto.
Qed.
