(** Properties C41 (schema modification) and C74 (deletion) of the
    configuration tree. *)
From Coq Require Import List ZArith Lia Bool Arith String Ascii.
From Coq Require Import DecimalString.
From Verif Require Import Base ConfigTree ConfigSpec ConfigProps.
Import ListNotations.
Local Open Scope nat_scope.

(** Every strict prefix of [p] reaches a dictionary. *)
Definition runs_through_dicts (s : node) (p : list key) : Prop :=
  forall q1 q2, p = q1 ++ q2 -> q2 <> [] -> exists l, reaches s q1 (Dict l).

Lemma path_modify_cons : forall s v k k2 rest,
  path_modify s v (k :: k2 :: rest) =
  rbind (py_in k s) (fun b =>
    if b then
      rbind (get_item s k) (fun c =>
        rbind (path_modify c v (k2 :: rest)) (fun r =>
          rbind (set_item s k (fst r)) (fun s' => Ok (s', true))))
    else Ok (s, false)).
Proof. reflexivity. Qed.

Lemma set_item_id : forall s k c, get_item s k = Ok c -> (exists s', set_item s k c = Ok s') ->
  set_item s k c = Ok s.
Proof.
  intros [lf|l|l] k c Hg [s' Hs]; cbn [set_item get_item] in *; try discriminate.
  - destruct (dget k l) as [v|] eqn:E; [|discriminate]. injection Hg as ->. now rewrite dset_id.
  - destruct k as [t|n]; [discriminate|].
    destruct (nth_error l n) as [v|] eqn:E; [|discriminate]. injection Hg as ->.
    destruct (n <? List.length l); [|discriminate]. now rewrite lset_id.
Qed.

Lemma set_item_lookup : forall s k c s' q, set_item s k c = Ok s' -> lookup s' (k :: q) = lookup c q.
Proof.
  intros [lf|l|l] k c s' q H; cbn [set_item] in H; try discriminate.
  - injection H as <-. cbn [lookup]. now rewrite dget_dset_same.
  - destruct k as [|n]; [discriminate|]. destruct (n <? List.length l) eqn:E; [|discriminate].
    apply Nat.ltb_lt in E. injection H as <-. cbn [lookup]. now rewrite nth_error_lset_same.
Qed.

Lemma set_item_lookup_other : forall s k c s' k2 q, set_item s k c = Ok s' -> k2 <> k ->
  lookup s' (k2 :: q) = lookup s (k2 :: q).
Proof.
  intros [lf|l|l] k c s' k2 q H Hne; cbn [set_item] in H; try discriminate.
  - injection H as <-. cbn [lookup]. now rewrite dget_dset_other.
  - destruct k as [|n]; [discriminate|]. destruct (n <? List.length l) eqn:E; [|discriminate].
    injection H as <-. cbn [lookup]. destruct k2; auto. rewrite nth_error_lset_other; auto; congruence.
Qed.

Lemma set_item_wf : forall s k c s', wf s -> wf c -> set_item s k c = Ok s' -> wf s'.
Proof.
  intros [lf|l|l] k c s' W Wc H; cbn [set_item] in H; try discriminate.
  - injection H as <-. now apply wf_dict_dset.
  - destruct k as [|n]; [discriminate|]. destruct (n <? List.length l) eqn:E; [|discriminate].
    injection H as <-. inversion W; subst. constructor. intros x Hx.
    apply lset_In in Hx as [->|]; auto.
Qed.

Lemma get_item_wf : forall s k c, wf s -> get_item s k = Ok c -> wf c.
Proof.
  intros [lf|l|l] k c W H; cbn in H.
  - destruct lf; try discriminate. destruct k; [discriminate|].
    destruct (String.get n s); [injection H as <-; constructor|discriminate].
  - destruct (dget k l) as [v|] eqn:E; [|discriminate]. injection H as <-.
    inversion W; subst. eauto using dget_In.
  - destruct k as [|n]; [discriminate|]. destruct (nth_error l n) as [v|] eqn:E; [|discriminate].
    injection H as <-. inversion W; subst. eauto using nth_error_In.
Qed.

(** Whatever happens, either the schema is unchanged or the value is stored at
    the path and nothing unrelated changed. *)
Lemma path_modify_effect : forall p s v s' b, wf s -> wf v -> path_modify s v p = Ok (s', b) ->
  wf s' /\
  (s' = s \/ (b = true /\ lookup s' p = Some v /\ forall q, unrelated p q -> lookup s' q = lookup s q)).
Proof.
  induction p as [|k [|k2 p] IH]; intros s v s' b W Wv H.
  - cbn in H. injection H as <- <-. auto.
  - cbn in H. destruct (py_in k s) as [[]|]; cbn in H; try discriminate.
    + destruct (set_item s k v) as [s1|] eqn:E; cbn in H; [|discriminate]. injection H as <- <-.
      split; [exact (set_item_wf _ _ _ _ W Wv E)|]. right. split; [auto|split].
      * rewrite (set_item_lookup _ _ _ _ [] E). reflexivity.
      * intros [|k' q] [H1 H2]; [exfalso; apply H2, prefix_nil|].
        eapply set_item_lookup_other; eauto. intros ->. apply H1. exists q; reflexivity.
    + injection H as <- <-. auto.
  - rewrite path_modify_cons in H.
    destruct (py_in k s) as [[]|]; cbn [rbind] in H; try discriminate; [|injection H as <- <-; auto].
    destruct (get_item s k) as [c|] eqn:Eg; cbn [rbind] in H; [|discriminate].
    destruct (path_modify c v (k2 :: p)) as [[c' b']|] eqn:Em; cbn [rbind fst] in H; [|discriminate].
    destruct (set_item s k c') as [s1|] eqn:Es; cbn [rbind] in H; [|discriminate].
    injection H as <- <-.
    assert (Wc : wf c) by (exact (get_item_wf _ _ _ W Eg)).
    destruct (IH _ _ _ _ Wc Wv Em) as [Wc' Hcase].
    split; [exact (set_item_wf _ _ _ _ W Wc' Es)|].
    destruct Hcase as [->|(-> & Hl & Ho)].
    + left. rewrite set_item_id in Es; eauto. congruence.
    + right. split; [auto|split].
      * rewrite (set_item_lookup _ _ _ _ (k2 :: p) Es). exact Hl.
      * intros [|k' q] Hu; [exfalso; apply (proj2 Hu), prefix_nil|].
        destruct (key_eq_dec k' k) as [->|Hne].
        -- rewrite (set_item_lookup _ _ _ _ q Es). apply unrelated_cons in Hu. rewrite Ho by auto.
           destruct s as [lf|l|l]; cbn in Eg |- *.
           ++ cbn in Es. discriminate.
           ++ destruct (dget k l); congruence.
           ++ destruct k; [discriminate|]. destruct (nth_error l n); congruence.
        -- eapply set_item_lookup_other; eauto.
Qed.

Theorem C41_modify_changes_only_the_path : forall s v p s' b,
  wf s -> wf v -> path_modify s v p = Ok (s', b) ->
  s' = s \/
  (b = true /\ reaches s' p v /\ forall q w, unrelated p q -> (reaches s' q w <-> reaches s q w)).
Proof.
  intros s v p s' b W Wv H. destruct (path_modify_effect p s v s' b W Wv H) as [W' [->|(-> & Hl & Ho)]]; auto.
  right. split; [auto|split].
  - now apply lookup_reaches.
  - intros q w Hu. rewrite <- !lookup_reaches by auto. now rewrite Ho.
Qed.
Print Assumptions C41_modify_changes_only_the_path.

Lemma runs_cons : forall s k p, wf s -> runs_through_dicts s (k :: p) <->
  exists l, s = Dict l /\ (p = [] \/ exists c, dget k l = Some c /\ runs_through_dicts c p).
Proof.
  intros s k p W; split.
  - intros H. destruct (H [] (k :: p) eq_refl ltac:(discriminate)) as [l Hl].
    inversion Hl; subst. exists l; split; auto.
    destruct p as [|k2 p]; [auto|right].
    destruct (H [k] (k2 :: p) eq_refl ltac:(discriminate)) as [l' Hl'].
    apply lookup_reaches in Hl'; auto. cbn in Hl'.
    destruct (dget k l) as [c|] eqn:Ek; [|discriminate]. exists c; split; auto.
    intros q1 q2 E Hne. destruct (H (k :: q1) q2 ltac:(now rewrite E) Hne) as [l2 Hl2].
    exists l2. apply lookup_reaches in Hl2; auto. cbn in Hl2. rewrite Ek in Hl2.
    apply lookup_reaches; auto. inversion W; subst. eauto using dget_In.
  - intros (l & -> & Hcase) q1 q2 E Hne. destruct q1 as [|a q1]; [exists l; constructor|].
    injection E as <- E. destruct Hcase as [->|(c & Ek & Hc)].
    + destruct q1, q2; try discriminate; congruence.
    + destruct (Hc q1 q2 E Hne) as [l2 Hl2]. exists l2. eapply r_dict; eauto using dget_In.
Qed.

Lemma path_modify_dicts : forall p s v, wf s -> wf v -> p <> [] -> runs_through_dicts s p ->
  exists s' b, path_modify s v p = Ok (s', b) /\
    (1 < List.length p -> b = true) /\
    (forall w, lookup s p = Some w -> b = true /\ lookup s' p = Some v) /\
    (lookup s p = None -> s' = s /\ (List.length p = 1 -> b = false)).
Proof.
  induction p as [|k [|k2 p] IH]; intros s v W Wv Hp Hr; [congruence| |].
  - apply runs_cons in Hr as (l & -> & _); auto. cbn.
    destruct (dget k l) as [c|] eqn:Ek; cbn.
    + exists (Dict (dset k v l)), true. split; [auto|split; [lia|split]].
      * intros w _. now rewrite dget_dset_same.
      * discriminate.
    + exists (Dict l), false. split; [auto|split; [lia|split]]; [discriminate|auto].
  - apply runs_cons in Hr as (l & -> & [H|(c & Ek & Hc)]); auto; [discriminate|].
    assert (Wc : wf c) by (inversion W; subst; eauto using dget_In).
    destruct (IH c v Wc Wv ltac:(discriminate) Hc) as (c' & b & E & _ & Hsome & Hnone).
    rewrite path_modify_cons. cbn [py_in rbind get_item]. rewrite Ek. cbn [rbind].
    rewrite E. cbn [rbind fst set_item].
    exists (Dict (dset k c' l)), true. split; [auto|split; [auto|split]].
    + intros w Hw. cbn [lookup] in Hw. rewrite Ek in Hw. destruct (Hsome w Hw) as [_ Hl].
      split; auto. cbn [lookup]. now rewrite dget_dset_same.
    + intros Hw. cbn [lookup] in Hw. rewrite Ek in Hw. destruct (Hnone Hw) as [-> _].
      split; [now rewrite dset_id|cbn; lia].
Qed.

(** C41 for an existing path that runs through dictionaries: success is
    reported, the value is replaced and nothing unrelated changes. *)
Theorem C41_modify_existing_partial : forall s v p w,
  wf s -> wf v -> p <> [] -> runs_through_dicts s p -> reaches s p w ->
  exists s', path_modify s v p = Ok (s', true) /\ reaches s' p v /\
    forall q x, unrelated p q -> (reaches s' q x <-> reaches s q x).
Proof.
  intros s v p w W Wv Hp Hd Hr. apply lookup_reaches in Hr; auto.
  destruct (path_modify_dicts p s v W Wv Hp Hd) as (s' & b & E & _ & Hs & _).
  destruct (Hs w Hr) as [-> Hl]. exists s'. split; [exact E|].
  destruct (path_modify_effect p s v s' true W Wv E) as [W' Hcase].
  split; [now apply lookup_reaches|].
  intros q x Hu. rewrite <- !lookup_reaches by auto. destruct Hcase as [->|(_ & _ & Ho)]; [tauto|].
  now rewrite Ho.
Qed.
Print Assumptions C41_modify_existing_partial.

(** For a single key of a dictionary the report is exact. *)
Theorem C41_single_key_exact : forall l v k, wf (Dict l) -> wf v ->
  exists s' b, path_modify (Dict l) v [k] = Ok (s', b) /\
    (b = true <-> exists w, reaches (Dict l) [k] w) /\
    (b = true -> reaches s' [k] v) /\ (b = false -> s' = Dict l).
Proof.
  intros l v k W Wv.
  assert (Hd : runs_through_dicts (Dict l) [k]) by (apply runs_cons; auto; exists l; auto).
  destruct (path_modify_dicts [k] (Dict l) v W Wv ltac:(discriminate) Hd) as (s' & b & E & _ & Hs & Hn).
  destruct (path_modify_effect [k] _ v s' b W Wv E) as [W' _].
  exists s', b. split; [exact E|]. destruct (lookup (Dict l) [k]) as [w|] eqn:El.
  - destruct (Hs w eq_refl) as [-> Hl]. split; [|split; [|discriminate]].
    + split; auto. intros _. exists w. now apply lookup_reaches.
    + intros _. now apply lookup_reaches.
  - destruct (Hn eq_refl) as [-> Hb]. rewrite (Hb eq_refl). split; [|split; [discriminate|auto]].
    split; [discriminate|]. intros [w Hw]. apply lookup_reaches in Hw; auto. congruence.
Qed.
Print Assumptions C41_single_key_exact.

(** For longer paths it is false of every missing last key: success is
    reported and nothing is changed. *)
Theorem C41_missing_nested_reports_success_refuted : forall s v p,
  wf s -> wf v -> 1 < List.length p -> runs_through_dicts s p -> (forall w, ~ reaches s p w) ->
  path_modify s v p = Ok (s, true).
Proof.
  intros s v p W Wv Hlen Hd Hno.
  destruct (path_modify_dicts p s v W Wv) as (s' & b & E & Hb & _ & Hn); auto.
  { intros ->. cbn in Hlen. lia. }
  destruct (lookup s p) as [w|] eqn:El.
  - exfalso. apply (Hno w). now apply lookup_reaches.
  - destruct (Hn eq_refl) as [-> _]. now rewrite E, (Hb Hlen).
Qed.
Print Assumptions C41_missing_nested_reports_success_refuted.

(** List indices are compared with the list values, so an existing path
    through a list is not modified although success is reported, and the
    read-back check done afterwards (config.py 431-437) does not notice. *)
Theorem C41_list_path_refuted : exists s v p w, wf s /\ wf v /\
  reaches s p w /\ w <> v /\ path_modify s v p = Ok (s, true) /\ path_get p s = (Some w, true).
Proof.
  set (s := Dict [(KS "experiments", LList [Dict [(KS "seed", Leaf (LNum 7))]])]).
  exists s, (Leaf (LNum 1)), [KS "experiments"; KI 0; KS "seed"], (Leaf (LNum 7)).
  assert (W : wf s).
  { constructor; [repeat constructor; cbn; tauto|].
    intros k c [E|[]]; injection E as <- <-. constructor. intros c [<-|[]].
    constructor; [repeat constructor; cbn; tauto|].
    intros k c [E|[]]; injection E as <- <-; constructor. }
  split; [exact W|]. split; [constructor|]. split; [now apply lookup_reaches|].
  split; [discriminate|]. split; reflexivity.
Qed.
Print Assumptions C41_list_path_refuted.

(** config.py 422-437: modification followed by the read-back check. *)
Definition modify_checked (s v : node) (p : list key) : res node :=
  match path_modify s v p with
  | Ok (s', true) => if snd (path_get p s') then Ok s' else Raise EExn
  | Ok (_, false) => Raise EExn
  | Raise e => Raise e
  end.

(** With the read-back check a dictionary path is either set or refused. *)
Theorem C41_checked_modification_exact_partial : forall s v p,
  wf s -> wf v -> p <> [] -> v <> Leaf (LStr "not-found") -> runs_through_dicts s p ->
  ((exists w, reaches s p w) -> exists s', modify_checked s v p = Ok s' /\ reaches s' p v) /\
  ((forall w, ~ reaches s p w) ->
   (forall l, ~ reaches s (removelast p) (Leaf l)) -> modify_checked s v p = Raise EExn).
Proof.
  intros s v p W Wv Hp Hv Hd.
  destruct (path_modify_dicts p s v W Wv Hp Hd) as (s' & b & E & _ & Hs & Hn).
  destruct (path_modify_effect p _ v s' b W Wv E) as [W' _].
  unfold modify_checked. rewrite E. split.
  - intros [w Hw]. apply lookup_reaches in Hw; auto. destruct (Hs w Hw) as [-> Hl].
    apply lookup_reaches in Hl; auto. exists s'. split; auto.
    rewrite (C39_get_reads_existing_path s' p v); auto.
  - intros Hno Hleaf. destruct (lookup s p) as [w|] eqn:El.
    + exfalso. apply (Hno w). now apply lookup_reaches.
    + destruct (Hn eq_refl) as [-> _]. destruct b; auto.
      destruct (path_get p s) as [[w|] []] eqn:Eg; auto.
      * exfalso. destruct (C39_successful_get_partial s p w W Eg) as [Hr|(q & r & t & Ep & Hr & Hq)].
        -- exact (Hno _ Hr).
        -- destruct (Hd q r Ep Hr) as [l Hl]. apply lookup_reaches in Hl, Hq; auto. congruence.
      * exfalso. clear -Eg.
        assert (H : forall q s, path_get_loop s q <> (None, true)).
        { clear. induction q as [|k q IH]; intros s; cbn [path_get_loop]; [congruence|].
          destruct (key_eqb k (KS "sweep")).
          - destruct s as [|l|l]; try congruence. destruct (dget k l); try congruence.
            destruct (is_not_found n); [congruence|auto].
          - destruct (get_item s k); [auto|congruence]. }
        destruct p; [discriminate|]. exact (H _ _ Eg).
Qed.
Print Assumptions C41_checked_modification_exact_partial.

Example C41_nonvacuous :
  let s := Dict [(KS "inputs", Dict [(KS "seed", Leaf (LNum 1))])] in
  wf s /\ runs_through_dicts s [KS "inputs"; KS "seed"] /\
  path_modify s (Leaf (LNum 2)) [KS "inputs"; KS "seed"]
    = Ok (Dict [(KS "inputs", Dict [(KS "seed", Leaf (LNum 2))])], true) /\
  runs_through_dicts s [KS "inputs"; KS "device"] /\
  path_modify s (Leaf (LNum 2)) [KS "inputs"; KS "device"] = Ok (s, true).
Proof.
  intros s. assert (W : wf s).
  { constructor; [repeat constructor; cbn; tauto|].
    intros k c [E|[]]; injection E as <- <-.
    constructor; [repeat constructor; cbn; tauto|].
    intros k c [E|[]]; injection E as <- <-; constructor. }
  assert (D : forall x, runs_through_dicts s [KS "inputs"; x]).
  { intros x. apply runs_cons; auto. eexists. split; [reflexivity|]. right. eexists. split; [reflexivity|].
    apply runs_cons; [|eexists; split; [reflexivity|auto]].
    constructor; [repeat constructor; cbn; tauto|].
    intros k c [E|[]]; injection E as <- <-; constructor. }
  repeat split; auto.
Qed.

(** * path_delete *)
Lemma path_delete_cons : forall s k k2 rest d,
  path_delete s (k :: k2 :: rest) d =
  match get_item s (numeric_key k) with
  | Raise _ => Ok (false, s)
  | Ok c =>
      match path_delete c (k2 :: rest) false with
      | Raise _ => Ok (false, s)
      | Ok (b, c') =>
          match set_item s (numeric_key k) c' with
          | Ok s' => Ok (b, s')
          | Raise _ => Ok (b, s)
          end
      end
  end.
Proof. reflexivity. Qed.

Lemma set_item_after_get : forall s k c c', lookup s [k] = Some c -> exists s', set_item s k c' = Ok s'.
Proof.
  intros [lf|l|l] k c c' H; cbn [set_item lookup] in *; [destruct k; discriminate|eauto|].
  destruct k as [t|n]; [discriminate|].
  destruct (n <? List.length l) eqn:E; [eexists; reflexivity|].
  apply Nat.ltb_ge in E. apply nth_error_None in E. rewrite E in H. discriminate.
Qed.

(** Deleting below a reached container replaces that container only. *)
Lemma path_delete_at : forall q s k c,
  Forall (fun x => numeric_key x = x) q -> wf s -> lookup s q = Some c ->
  forall b c', path_delete c [k] false = Ok (b, c') ->
  exists s', path_delete s (q ++ [k]) false = Ok (b, s') /\
    (forall r, lookup s' (q ++ r) = lookup c' r) /\
    (forall r, unrelated q r -> lookup s' r = lookup s r) /\
    (wf c' -> wf s') /\ (c' = c -> s' = s).
Proof.
  induction q as [|a q IH]; intros s k c Hn W Hl b c' Hd.
  - cbn in Hl. injection Hl as ->. exists c'. cbn [app]. split; [exact Hd|].
    split; [auto|split; [|split; auto]]. intros r [H1 _]. exfalso; apply H1, prefix_nil.
  - inversion Hn as [|? ? Ha Hn']; subst.
    change (a :: q) with ([a] ++ q) in Hl. rewrite lookup_app in Hl.
    destruct (lookup s [a]) as [d|] eqn:Ea; [|discriminate].
    assert (Wd : wf d) by (exact (get_item_wf _ _ _ W (get_item_lookup _ _ _ Ea))).
    destruct (IH d k c Hn' Wd Hl b c' Hd) as (d' & E & H1 & H2 & H3 & H4).
    assert (Es : exists k2 rest, q ++ [k] = k2 :: rest) by (destruct q; cbn; eauto).
    destruct Es as (k2 & rest & Eq). change ((a :: q) ++ [k]) with (a :: (q ++ [k])).
    rewrite Eq in *. rewrite path_delete_cons, Ha, (get_item_lookup _ _ _ Ea), E.
    destruct (set_item_after_get s a d d' Ea) as [s' Es]. rewrite Es.
    exists s'. split; [reflexivity|split; [|split; [|split]]].
    + intros r. change ((a :: q) ++ r) with (a :: (q ++ r)).
      rewrite (set_item_lookup _ _ _ _ _ Es). apply H1.
    + intros [|x r] Hu; [exfalso; apply (proj2 Hu), prefix_nil|].
      destruct (key_eq_dec x a) as [->|Hne].
      * apply unrelated_cons in Hu. rewrite (set_item_lookup _ _ _ _ _ Es), H2 by exact Hu.
        change (a :: r) with ([a] ++ r). rewrite lookup_app, Ea. reflexivity.
      * eapply set_item_lookup_other; eauto.
    + intros Wc'. exact (set_item_wf _ _ _ _ W (H3 Wc') Es).
    + intros ->. rewrite (H4 eq_refl) in Es. rewrite set_item_id in Es; eauto using get_item_lookup.
      congruence.
Qed.

Lemma ddel_dget_other : forall l k k2, k2 <> k -> dget k2 (ddel k l) = dget k2 l.
Proof.
  induction l as [|[k' v'] l IH]; intros k k2 Hne; cbn; [reflexivity|].
  destruct (key_eqb_spec k k') as [->|Hne']; cbn.
  - now rewrite key_eqb_neq.
  - destruct (key_eqb_spec k2 k'); auto.
Qed.

Lemma ddel_sub : forall l k x, In x (ddel k l) -> In x l.
Proof.
  induction l as [|[k' v'] l IH]; intros k x H; cbn in *; [tauto|].
  destruct (key_eqb_spec k k'); [auto|]. destruct H; eauto.
Qed.

Lemma ddel_NoDup : forall l k, NoDup (map fst l) -> NoDup (map fst (ddel k l)).
Proof.
  induction l as [|[k' v'] l IH]; intros k H; cbn in *; [constructor|].
  apply NoDup_cons_iff in H as [Hni H].
  destruct (key_eqb_spec k k'); auto. cbn. constructor; auto.
  intros Hin. apply in_map_iff in Hin as ([a b] & E & Hin). cbn in E; subst a.
  apply ddel_sub in Hin. apply Hni. now apply (in_map fst) in Hin.
Qed.

Lemma ddel_dget_same : forall l k, NoDup (map fst l) -> dget k (ddel k l) = None.
Proof.
  induction l as [|[k' v'] l IH]; intros k H; cbn in *; [reflexivity|].
  apply NoDup_cons_iff in H as [Hni H].
  destruct (key_eqb_spec k k') as [->|Hne]; [now apply dget_None|].
  cbn. rewrite key_eqb_neq by auto. auto.
Qed.

Lemma ldel_eq : forall n l, ldel n l = firstn n l ++ skipn (S n) l.
Proof. induction n as [|n IH]; intros [|x l]; cbn; auto. now rewrite IH. Qed.

Lemma unrelated_snoc : forall q k r, unrelated (q ++ [k]) r ->
  unrelated q r \/ exists k' r', r = q ++ k' :: r' /\ k' <> k.
Proof.
  induction q as [|a q IH]; intros k r Hu.
  - right. destruct r as [|k' r]; [exfalso; apply (proj2 Hu), prefix_nil|].
    exists k', r. split; auto. intros ->. apply (proj1 Hu). exists r; reflexivity.
  - destruct r as [|b r]; [exfalso; apply (proj2 Hu), prefix_nil|].
    destruct (key_eq_dec b a) as [->|Hne].
    + change ((a :: q) ++ [k]) with (a :: (q ++ [k])) in Hu. apply unrelated_cons in Hu.
      destruct (IH k r Hu) as [H|(k' & r' & -> & Hk)].
      * left. now apply unrelated_cons.
      * right. exists k', r'. auto.
    + left. split; intros [x E]; injection E as E _; congruence.
Qed.

(** C74, last key in a dictionary: the report is exact, the path is gone
    afterwards and unrelated paths keep their values.  Hypothesis: no key
    before the last one is a numeric text. *)
Theorem C74_delete_dictionary_entry_partial : forall s q k l,
  wf s -> Forall (fun x => numeric_key x = x) q -> reaches s q (Dict l) ->
  exists b s', path_delete s (q ++ [k]) false = Ok (b, s') /\ wf s' /\
    (b = true <-> exists w, reaches s (q ++ [k]) w) /\
    (forall w, ~ reaches s' (q ++ [k]) w) /\
    (forall r w, unrelated (q ++ [k]) r -> (reaches s' r w <-> reaches s r w)) /\
    (b = false -> s' = s).
Proof.
  intros s q k l W Hn Hr. assert (Wl : wf (Dict l)) by (eapply wf_reaches; eauto).
  inversion Wl as [|? Hnd Hc|]; subst.
  apply lookup_reaches in Hr; auto.
  set (b := match dget k l with Some _ => true | None => false end).
  set (c' := Dict (match dget k l with Some _ => ddel k l | None => l end)).
  assert (Hd : path_delete (Dict l) [k] false = Ok (b, c')).
  { cbn. unfold b, c'. destruct (dget k l); reflexivity. }
  destruct (path_delete_at q s k (Dict l) Hn W Hr b c' Hd) as (s' & E & H1 & H2 & H3 & H4).
  assert (Wc' : wf c').
  { unfold c'. destruct (dget k l); auto. constructor; [now apply ddel_NoDup|].
    intros k2 c Hin. apply ddel_sub in Hin. eauto. }
  assert (Hgone : dget k (match dget k l with Some _ => ddel k l | None => l end) = None).
  { destruct (dget k l) eqn:Ek; [now apply ddel_dget_same|exact Ek]. }
  exists b, s'. split; [exact E|split; [auto|split; [|split; [|split]]]].
  - unfold b. destruct (dget k l) as [w|] eqn:Ek.
    + split; auto. intros _. exists w. apply lookup_reaches; auto.
      rewrite lookup_app, Hr. cbn. now rewrite Ek.
    + split; [discriminate|]. intros [w Hw]. apply lookup_reaches in Hw; auto.
      rewrite lookup_app, Hr in Hw. cbn in Hw. rewrite Ek in Hw. discriminate.
  - intros w Hw. apply lookup_reaches in Hw; auto. rewrite H1 in Hw. unfold c' in Hw.
    cbn [lookup] in Hw. rewrite Hgone in Hw. discriminate.
  - intros r w Hu. rewrite <- !lookup_reaches by auto.
    destruct (unrelated_snoc _ _ _ Hu) as [Hq|(k' & r' & -> & Hk)].
    + now rewrite H2.
    + rewrite H1, lookup_app, Hr. unfold c'. cbn [lookup].
      destruct (dget k l); [now rewrite ddel_dget_other|tauto].
  - unfold b. intros Hb. apply H4. unfold c'. destruct (dget k l); [discriminate|reflexivity].
Qed.
Print Assumptions C74_delete_dictionary_entry_partial.

(** C74, last key an index of a list: the element is removed, the later ones
    move up, and paths that do not enter the list keep their values. *)
Theorem C74_delete_list_entry_partial : forall s q n l,
  wf s -> Forall (fun x => numeric_key x = x) q -> reaches s q (LList l) ->
  exists b s', path_delete s (q ++ [KI n]) false = Ok (b, s') /\ wf s' /\
    (b = true <-> n < List.length l) /\
    reaches s' q (LList (firstn n l ++ skipn (S n) l)) /\
    (forall r w, unrelated q r -> (reaches s' r w <-> reaches s r w)).
Proof.
  intros s q n l W Hn Hr. assert (Wl : wf (LList l)) by (eapply wf_reaches; eauto).
  inversion Wl as [| |? Hc]; subst.
  apply lookup_reaches in Hr; auto.
  set (b := n <? List.length l).
  set (c' := LList (ldel n l)).
  assert (Hd : path_delete (LList l) [KI n] false = Ok (b, c')).
  { cbn [path_delete]. unfold b, c'. destruct (n <? List.length l) eqn:E; [reflexivity|].
    apply Nat.ltb_ge in E. rewrite ldel_eq, firstn_all2, skipn_all2, app_nil_r by lia. reflexivity. }
  destruct (path_delete_at q s (KI n) (LList l) Hn W Hr b c' Hd) as (s' & E & H1 & H2 & H3 & H4).
  assert (Wc' : wf c').
  { unfold c'. constructor. intros c Hin. rewrite ldel_eq in Hin. apply Hc.
    rewrite <- (firstn_skipn n l). apply in_or_app. apply in_app_or in Hin as [H|H]; auto.
    right. destruct (skipn n l) as [|x t] eqn:Es.
    - exfalso. assert (Hl : List.length l <= n).
      { rewrite <- (firstn_skipn n l), app_length, Es. cbn. rewrite firstn_length. lia. }
      rewrite skipn_all2 in H by lia. destruct H.
    - right. replace (skipn (S n) l) with t in H; auto.
      clear -Es. revert n Es. induction l as [|y l IH]; intros [|n] Es; cbn in *; try discriminate.
      + congruence.
      + now apply IH. }
  exists b, s'. split; [exact E|split; [auto|split; [|split]]].
  - unfold b. apply Nat.ltb_lt.
  - apply lookup_reaches; auto. specialize (H1 []). rewrite app_nil_r in H1. rewrite H1.
    unfold c'. cbn. now rewrite ldel_eq.
  - intros r w Hu. rewrite <- !lookup_reaches by auto. now rewrite H2.
Qed.
Print Assumptions C74_delete_list_entry_partial.

(** Nothing is deleted and nothing raised when the container of the last key
    cannot be reached. *)
Theorem C74_unreachable_deletes_nothing : forall q s k,
  wf s -> q <> [] -> Forall (fun x => numeric_key x = x) q -> (forall w, ~ reaches s q w) ->
  path_delete s (q ++ [k]) false = Ok (false, s).
Proof.
  assert (H : forall q lf k, q <> [] -> path_delete (Leaf lf) (q ++ [k]) false = Ok (false, Leaf lf)).
  { induction q as [|a q IH]; intros lf k Hq; [congruence|].
    assert (Es : exists k2 rest, q ++ [k] = k2 :: rest) by (destruct q; cbn; eauto).
    destruct Es as (k2 & rest & Eq). change ((a :: q) ++ [k]) with (a :: (q ++ [k])).
    rewrite Eq, path_delete_cons.
    destruct (get_item (Leaf lf) (numeric_key a)) as [c|] eqn:Eg; [|reflexivity].
    rewrite <- Eq.
    assert (Hc : exists t, c = Leaf t).
    { cbn in Eg. destruct lf; try discriminate. destruct (numeric_key a); [discriminate|].
      destruct (String.get n s); [injection Eg as <-; eauto|discriminate]. }
    destruct Hc as [t ->]. destruct q as [|a2 q].
    - cbn. destruct t; reflexivity.
    - rewrite IH by discriminate. cbn. reflexivity. }
  induction q as [|a q IH]; intros s k W Hq Hn Hno; [congruence|].
  destruct s as [lf|l|l]; [now apply H| |];
    inversion Hn as [|? ? Ha Hn']; subst;
    (assert (Es : exists k2 rest, q ++ [k] = k2 :: rest) by (destruct q; cbn; eauto);
     destruct Es as (k2 & rest & Eq));
    match goal with |- context [path_delete ?s _ _] => change (path_delete s ((a :: q) ++ [k]) false) with (path_delete s (a :: (q ++ [k])) false) end;
    rewrite Eq, path_delete_cons, Ha.
  - cbn [get_item]. destruct (dget a l) as [c|] eqn:Ea; [|reflexivity].
    assert (Wc : wf c) by (inversion W; subst; eauto using dget_In).
    destruct q as [|a2 q].
    { exfalso. apply (Hno c). eapply r_dict; eauto using dget_In. constructor. }
    rewrite <- Eq, (IH c k Wc); [|discriminate|exact Hn'|].
    + cbn [set_item]. now rewrite dset_id.
    + intros w Hw. apply (Hno w). eapply r_dict; eauto using dget_In.
  - cbn [get_item]. destruct a as [|n]; [reflexivity|].
    destruct (nth_error l n) as [c|] eqn:Ea; [|reflexivity].
    assert (Wc : wf c) by (inversion W; subst; eauto using nth_error_In).
    destruct q as [|a2 q].
    { exfalso. apply (Hno c). eapply r_list; eauto. constructor. }
    rewrite <- Eq, (IH c k Wc); [|discriminate|exact Hn'|].
    + cbn [set_item]. destruct (n <? List.length l); [|reflexivity]. now rewrite lset_id.
    + intros w Hw. apply (Hno w). eapply r_list; eauto.
Qed.
Print Assumptions C74_unreachable_deletes_nothing.

(** The hypothesis on numeric keys is needed: a dictionary entry below the
    text key "0" exists and can be read but is not deleted. *)
Theorem C74_numeric_text_key_refuted : exists s p w, wf s /\ reaches s p w /\
  path_get p s = (Some w, true) /\ path_delete s p false = Ok (false, s).
Proof.
  set (s := Dict [(KS "0", Dict [(KS "a", Leaf (LNum 1))])]).
  exists s, [KS "0"; KS "a"], (Leaf (LNum 1)).
  assert (W : wf s).
  { constructor; [repeat constructor; cbn; tauto|].
    intros k c [E|[]]; injection E as <- <-.
    constructor; [repeat constructor; cbn; tauto|].
    intros k c [E|[]]; injection E as <- <-; constructor. }
  split; [exact W|]. split; [now apply lookup_reaches|]. split; reflexivity.
Qed.
Print Assumptions C74_numeric_text_key_refuted.

Example C74_nonvacuous :
  let s := Dict [(KS "a", LList [Leaf (LNum 1); Dict [(KS "b", Leaf LNone); (KS "c", Leaf LNone)]])] in
  path_delete s [KS "a"; KI 1; KS "b"] false
    = Ok (true, Dict [(KS "a", LList [Leaf (LNum 1); Dict [(KS "c", Leaf LNone)]])]) /\
  path_delete s [KS "a"; KI 0] false
    = Ok (true, Dict [(KS "a", LList [Dict [(KS "b", Leaf LNone); (KS "c", Leaf LNone)]])]).
Proof. split; reflexivity. Qed.
