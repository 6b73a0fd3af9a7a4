(** Property C39 (reading and setting by key path) of the configuration tree. *)
From Coq Require Import List ZArith Lia Bool Arith String Ascii Permutation.
From Verif Require Import Base ConfigTree ConfigSpec.
Import ListNotations.
Local Open Scope nat_scope.

(** * Basic facts *)
Lemma key_eqb_spec : forall a b, reflect (a = b) (key_eqb a b).
Proof.
  intros [s|m] [t|n]; cbn; try (constructor; congruence).
  - destruct (String.eqb_spec s t); constructor; congruence.
  - destruct (Nat.eqb_spec m n); constructor; congruence.
Qed.

Lemma key_eqb_refl : forall a, key_eqb a a = true.
Proof. intros a; destruct (key_eqb_spec a a); congruence. Qed.

Lemma key_eqb_neq : forall a b, a <> b -> key_eqb a b = false.
Proof. intros a b H; destruct (key_eqb_spec a b); congruence. Qed.

Lemma key_eq_dec : forall a b : key, {a = b} + {a <> b}.
Proof. intros a b; destruct (key_eqb_spec a b); auto. Qed.

Lemma dget_In : forall l k v, dget k l = Some v -> In (k, v) l.
Proof.
  induction l as [|[k' v'] l IH]; intros k v H; cbn in *; [congruence|].
  destruct (key_eqb_spec k k') as [->|]; [injection H as <-; auto|auto].
Qed.

Lemma dget_None : forall l k, dget k l = None <-> ~ In k (map fst l).
Proof.
  induction l as [|[k' v'] l IH]; intros k; cbn; [tauto|].
  destruct (key_eqb_spec k k') as [->|Hne].
  - split; [congruence|intros H; exfalso; apply H; auto].
  - rewrite IH. split; [intros H [E|E]; [congruence|auto]|tauto].
Qed.

Lemma In_dget : forall l k v, NoDup (map fst l) -> In (k, v) l -> dget k l = Some v.
Proof.
  induction l as [|[k' v'] l IH]; intros k v Hnd H; cbn in *; [tauto|].
  apply NoDup_cons_iff in Hnd as [Hni Hnd].
  destruct H as [E|H].
  - injection E as -> ->. now rewrite key_eqb_refl.
  - rewrite key_eqb_neq; auto. intros ->. apply Hni. now apply (in_map fst) in H.
Qed.

Lemma dget_dset_same : forall l k v, dget k (dset k v l) = Some v.
Proof.
  induction l as [|[k' v'] l IH]; intros k v; cbn; [now rewrite key_eqb_refl|].
  destruct (key_eqb_spec k k') as [->|Hne]; cbn; [now rewrite key_eqb_refl|].
  rewrite key_eqb_neq; auto.
Qed.

Lemma dget_dset_other : forall l k k2 v, k2 <> k -> dget k2 (dset k v l) = dget k2 l.
Proof.
  induction l as [|[k' v'] l IH]; intros k k2 v Hne; cbn; [now rewrite key_eqb_neq|].
  destruct (key_eqb_spec k k') as [->|Hne']; cbn.
  - now rewrite key_eqb_neq.
  - destruct (key_eqb_spec k2 k'); auto.
Qed.

Lemma dset_keys : forall l k v,
  map fst (dset k v l) = if existsb (key_eqb k) (map fst l) then map fst l else map fst l ++ [k].
Proof.
  induction l as [|[k' v'] l IH]; intros k v; cbn; [reflexivity|].
  destruct (key_eqb_spec k k') as [->|Hne]; cbn; [reflexivity|].
  rewrite IH. destruct (existsb _ _); reflexivity.
Qed.

Lemma dset_NoDup : forall l k v, NoDup (map fst l) -> NoDup (map fst (dset k v l)).
Proof.
  intros l k v H. rewrite dset_keys.
  destruct (existsb (key_eqb k) (map fst l)) eqn:E; auto.
  apply (Permutation_NoDup (l := k :: map fst l)).
  - apply Permutation_cons_append.
  - constructor; auto. intros Hin.
    assert (existsb (key_eqb k) (map fst l) = true); [|congruence].
    apply existsb_exists. exists k; split; auto using key_eqb_refl.
Qed.

Lemma dset_In : forall l k v k2 c, In (k2, c) (dset k v l) -> (k2 = k /\ c = v) \/ In (k2, c) l.
Proof.
  induction l as [|[k' v'] l IH]; intros k v k2 c H; cbn in *.
  - destruct H as [E|[]]. injection E as -> ->. auto.
  - destruct (key_eqb_spec k k') as [->|Hne]; cbn in H.
    + destruct H as [E|H]; [injection E as -> ->; auto|auto].
    + destruct H as [E|H]; [auto|]. apply IH in H as [|]; auto.
Qed.

Lemma dset_id : forall l k v, dget k l = Some v -> dset k v l = l.
Proof.
  induction l as [|[k' v'] l IH]; intros k v H; cbn in *; [congruence|].
  destruct (key_eqb_spec k k') as [->|Hne]; [injection H as ->; reflexivity|].
  now rewrite IH.
Qed.

Lemma lset_length : forall l n v, List.length (lset n v l) = List.length l.
Proof. induction l as [|x l IH]; intros [|n] v; cbn; auto. Qed.

Lemma nth_error_lset_same : forall l n v, n < List.length l -> nth_error (lset n v l) n = Some v.
Proof.
  induction l as [|x l IH]; intros [|n] v H; cbn in *; try lia; auto.
  apply IH; lia.
Qed.

Lemma nth_error_lset_other : forall l n m v, m <> n -> nth_error (lset n v l) m = nth_error l m.
Proof.
  induction l as [|x l IH]; intros [|n] [|m] v H; cbn in *; try lia; auto.
Qed.

Lemma lset_In : forall l n v c, In c (lset n v l) -> c = v \/ In c l.
Proof.
  induction l as [|x l IH]; intros [|n] v c H; cbn in *; auto.
  - destruct H as [|]; auto.
  - destruct H as [|H]; auto. apply IH in H as [|]; auto.
Qed.

Lemma lset_id : forall l n v, nth_error l n = Some v -> lset n v l = l.
Proof.
  induction l as [|x l IH]; intros [|n] v H; cbn in *; try congruence.
  now rewrite IH.
Qed.

(** A computable companion of [reaches]. *)
Fixpoint lookup (s : node) (p : list key) : option node :=
  match p with
  | [] => Some s
  | k :: r =>
      match s, k with
      | Dict l, _ => match dget k l with Some c => lookup c r | None => None end
      | LList l, KI n => match nth_error l n with Some c => lookup c r | None => None end
      | _, _ => None
      end
  end.

Lemma lookup_reaches : forall p s w, wf s -> (lookup s p = Some w <-> reaches s p w).
Proof.
  induction p as [|k p IH]; intros s w Hwf; cbn.
  - split; [intros H; injection H as ->; constructor|inversion 1; reflexivity].
  - destruct Hwf as [l|l Hnd Hc|l Hc].
    + split; [congruence|inversion 1].
    + split.
      * destruct (dget k l) as [c|] eqn:E; [|congruence]. intros H.
        apply dget_In in E. apply (r_dict l k c); auto. apply IH; eauto.
      * inversion 1 as [|? ? c ? ? Hin Hr|]; subst.
        rewrite (In_dget _ _ _ Hnd Hin). apply IH; eauto.
    + split.
      * destruct k as [s|n]; [congruence|].
        destruct (nth_error l n) as [c|] eqn:E; [|congruence]. intros H.
        apply (r_list l n c); auto. apply IH; auto. apply Hc. eapply nth_error_In; eauto.
      * inversion 1 as [| |? ? c ? ? Hn Hr]; subst. rewrite Hn. apply IH; auto.
        apply Hc. eapply nth_error_In; eauto.
Qed.

Lemma lookup_app : forall p s q, lookup s (p ++ q) =
  match lookup s p with Some w => lookup w q | None => None end.
Proof.
  induction p as [|k p IH]; intros s q; cbn; [reflexivity|].
  destruct s as [|l|l]; auto.
  - destruct (dget k l); auto.
  - destruct k; auto. destruct (nth_error l n); auto.
Qed.

Lemma wf_reaches : forall s p w, reaches s p w -> wf s -> wf w.
Proof.
  induction 1 as [|l k c p w Hin Hr IH|l n c p w Hn Hr IH]; intros Hwf; auto; apply IH.
  - inversion Hwf; subst; eauto.
  - inversion Hwf; subst. apply H0. eapply nth_error_In; eauto.
Qed.

(** Computable companion of [holder_exists]. *)
Fixpoint holder (s : node) (p : list key) : Prop :=
  match p with
  | [] => False
  | [k] => match s, k with
           | Dict l, _ => True
           | LList l, KI n => n < List.length l
           | _, _ => False
           end
  | k :: rest => match s with
                 | Dict l => match dget k l with Some c => holder c rest | None => False end
                 | _ => False
                 end
  end.

Lemma holder_cons : forall s k k2 rest, holder s (k :: k2 :: rest) =
  match s with
  | Dict l => match dget k l with Some c => holder c (k2 :: rest) | None => False end
  | _ => False
  end.
Proof. reflexivity. Qed.

Lemma holder_dec : forall p s, {holder s p} + {~ holder s p}.
Proof.
  induction p as [|k [|k2 p] IH]; intros s; cbn [holder].
  - right; tauto.
  - destruct s as [|l|l]; [right; tauto|left; tauto|destruct k as [t|n]; [right; tauto|]].
    destruct (lt_dec n (List.length l)); auto.
  - destruct s as [|l|l]; [right; tauto| |right; tauto].
    destruct (dget k l); [apply IH|right; tauto].
Qed.

Lemma holder_iff : forall p s, wf s -> (holder_exists s p <-> holder s p).
Proof.
  induction p as [|k rest IH]; intros s Hwf.
  - split; [|intros []]. intros (q & k & E & _). destruct q; discriminate.
  - destruct rest as [|k2 rest].
    + cbn. split.
      * intros (q & k' & E & Hq & Hl). destruct q as [|a q]; [|destruct q; discriminate].
        injection E as <-. destruct Hl as [(l & Hr)|(l & n & Hr & -> & Hn)].
        -- inversion Hr; subst. exact I.
        -- inversion Hr; subst. exact Hn.
      * intros H. exists [], k. split; [reflexivity|split].
        -- intros q1 q2 E Hne. destruct q1, q2; try discriminate; congruence.
        -- destruct s as [|l|l]; [tauto|left; exists l; constructor|].
           destruct k as [t|n]; [tauto|]. right; exists l, n; repeat split; auto. constructor.
    + change (holder s (k :: k2 :: rest)) with
        (match s with
         | Dict l => match dget k l with Some c => holder c (k2 :: rest) | None => False end
         | _ => False end).
      split.
      * intros (q & k' & E & Hq & Hl).
        destruct q as [|a q]; [destruct rest; discriminate|].
        injection E as <- E.
        destruct (Hq [] (k :: q) eq_refl ltac:(discriminate)) as [l Hr0].
        inversion Hr0; subst; clear Hr0.
        inversion Hwf as [|? Hnd Hc|]; subst.
        destruct (dget k l) as [c|] eqn:Ek.
        -- assert (Hin := dget_In _ _ _ Ek).
           apply IH; [eauto|]. exists q, k'. split; [auto|split].
           ++ intros q1 q2 -> Hne. destruct (Hq (k :: q1) q2 eq_refl Hne) as [l' Hr].
              exists l'. apply lookup_reaches; eauto. apply lookup_reaches in Hr; auto.
              cbn in Hr. now rewrite Ek in Hr.
           ++ destruct Hl as [(l' & Hr)|(l' & n & Hr & -> & Hn)];
                apply lookup_reaches in Hr; auto; cbn in Hr; rewrite Ek in Hr;
                apply lookup_reaches in Hr; eauto.
              right; exists l', n; auto.
        -- exfalso. destruct Hl as [(l' & Hr)|(l' & n & Hr & -> & Hn)];
             apply lookup_reaches in Hr; auto; cbn in Hr; rewrite Ek in Hr; discriminate.
      * intros H. destruct s as [|l|l]; try tauto.
        destruct (dget k l) as [c|] eqn:Ek; [|tauto].
        assert (Hin := dget_In _ _ _ Ek).
        inversion Hwf as [|? Hnd Hc|]; subst.
        apply IH in H; [|eauto].
        destruct H as (q & k' & E & Hq & Hl).
        exists (k :: q), k'. split; [cbn; now rewrite E|split].
        -- intros q1 q2 Eq Hne. destruct q1 as [|a q1].
           ++ exists l; constructor.
           ++ injection Eq as <- Eq. destruct (Hq q1 q2 Eq Hne) as [l' Hr].
              exists l'. eapply r_dict; eauto.
        -- destruct Hl as [(l' & Hr)|(l' & n & Hr & -> & Hn)].
           ++ left; exists l'. eapply r_dict; eauto.
           ++ right; exists l', n. repeat split; auto. eapply r_dict; eauto.
Qed.

(** * path_get *)
Lemma is_not_found_iff : forall s, is_not_found s = true <-> s = not_found.
Proof.
  intros [[| | |t]|l|l]; cbn; unfold not_found; try (split; congruence).
  destruct (String.eqb_spec t "not-found"); split; congruence.
Qed.

Lemma get_item_lookup : forall s k c, lookup s [k] = Some c -> get_item s k = Ok c.
Proof.
  intros [l|l|l] k c; cbn; [destruct k; congruence| |].
  - destruct (dget k l); congruence.
  - destruct k; [congruence|]. destruct (nth_error l n); congruence.
Qed.

Lemma path_get_loop_complete : forall p s w, lookup s p = Some w -> w <> not_found ->
  path_get_loop s p = (Some w, true).
Proof.
  induction p as [|k p IH]; intros s w H Hw.
  - cbn in H. injection H as ->. cbn. destruct (is_not_found w) eqn:E; auto.
    apply is_not_found_iff in E; congruence.
  - cbn [path_get_loop].
    change (k :: p) with ([k] ++ p) in H. rewrite lookup_app in H.
    destruct (lookup s [k]) as [c|] eqn:Ec; [|discriminate].
    destruct (key_eqb_spec k (KS "sweep")) as [->|Hne].
    + cbn in Ec. destruct s as [|l|l]; try discriminate.
      destruct (dget (KS "sweep") l) as [v|]; [|discriminate]. injection Ec as ->.
      destruct (is_not_found c) eqn:E; [|auto].
      apply is_not_found_iff in E; subst c.
      destruct p; cbn in H; [injection H as <-; congruence|discriminate].
    + rewrite (get_item_lookup _ _ _ Ec). auto.
Qed.

Lemma path_get_loop_sound : forall p s w, path_get_loop s p = (Some w, true) ->
  w <> not_found /\
  (lookup s p = Some w \/
   exists q r t, p = q ++ r /\ r <> [] /\ lookup s q = Some (Leaf (LStr t))).
Proof.
  induction p as [|k p IH]; intros s w H.
  - cbn in H. injection H as -> E. split; [|auto].
    intros ->. discriminate.
  - cbn [path_get_loop] in H.
    destruct (key_eqb_spec k (KS "sweep")) as [->|Hne].
    + destruct s as [|l|l]; try discriminate.
      destruct (dget (KS "sweep") l) as [v|] eqn:Ev; [|discriminate].
      destruct (is_not_found v) eqn:E; [discriminate|].
      destruct (IH _ _ H) as [Hw [Hl|(q & r & t & -> & Hr & Hq)]]; split; auto.
      * left. cbn. now rewrite Ev.
      * right. exists (KS "sweep" :: q), r, t. repeat split; auto. cbn. now rewrite Ev.
    + destruct (get_item s k) as [c|] eqn:Ec; [|discriminate].
      destruct (IH _ _ H) as [Hw Hcase]; split; auto.
      destruct s as [[| | |t]|l|l]; cbn in Ec; try discriminate.
      * right. exists [], (k :: p), t. (split; [reflexivity|split; [discriminate|reflexivity]]).
      * destruct (dget k l) as [v|] eqn:Ev; [|discriminate]. injection Ec as ->.
        destruct Hcase as [Hl|(q & r & t & -> & Hr & Hq)].
        -- left. cbn. now rewrite Ev.
        -- right. exists (k :: q), r, t. repeat split; auto. cbn. now rewrite Ev.
      * destruct k as [|n]; [discriminate|].
        destruct (nth_error l n) as [v|] eqn:Ev; [|discriminate]. injection Ec as ->.
        destruct Hcase as [Hl|(q & r & t & -> & Hr & Hq)].
        -- left. cbn. now rewrite Ev.
        -- right. exists (KI n :: q), r, t. repeat split; auto. cbn. now rewrite Ev.
Qed.

(** Reading a path that exists succeeds with its value, unless the value is
    the text 'not-found'. *)
Theorem C39_get_reads_existing_path : forall s p w,
  wf s -> p <> [] -> reaches s p w -> w <> Leaf (LStr "not-found") ->
  path_get p s = (Some w, true).
Proof.
  intros s p w Hwf Hp Hr Hw. unfold path_get. destruct p as [|k p]; [congruence|].
  apply path_get_loop_complete; auto. now apply lookup_reaches.
Qed.
Print Assumptions C39_get_reads_existing_path.

(** Conversely a successful read is the value at the path - except that a path
    running past a string reads one of its characters. *)
Theorem C39_successful_get_partial : forall s p w,
  wf s -> path_get p s = (Some w, true) ->
  reaches s p w \/
  (exists q r t, p = q ++ r /\ r <> [] /\ reaches s q (Leaf (LStr t))).
Proof.
  intros s p w Hwf H. unfold path_get in H. destruct p as [|k p]; [discriminate|].
  destruct (path_get_loop_sound _ _ _ H) as [_ [Hl|(q & r & t & E & Hr & Hq)]].
  - left. now apply lookup_reaches.
  - right. exists q, r, t. repeat split; auto. now apply lookup_reaches.
Qed.
Print Assumptions C39_successful_get_partial.

(** The exception is real: the text "abc" under key "name" can be read at
    path name, 0. *)
Theorem C39_get_reads_character_refuted :
  exists s p w, wf s /\ path_get p s = (Some w, true) /\ ~ reaches s p w.
Proof.
  exists (Dict [(KS "name", Leaf (LStr "abc"))]), [KS "name"; KI 0], (Leaf (LStr "a")).
  assert (W : wf (Dict [(KS "name", Leaf (LStr "abc"))])).
  { constructor; [repeat constructor; cbn; tauto|].
    intros k c [E|[]]; injection E as <- <-; constructor. }
  split; [exact W|]. split; [reflexivity|].
  intros H. apply lookup_reaches in H; auto. discriminate.
Qed.
Print Assumptions C39_get_reads_character_refuted.

(** A stored text 'not-found' is reported as missing. *)
Theorem C39_get_not_found_text_refuted :
  exists s p w, wf s /\ reaches s p w /\ snd (path_get p s) = false.
Proof.
  exists (Dict [(KS "a", not_found)]), [KS "a"], not_found. split.
  - constructor; [repeat constructor; cbn; tauto|].
    intros k c [E|[]]; injection E as <- <-; constructor.
  - split; [|reflexivity]. apply (r_dict _ _ not_found); [left; reflexivity|constructor].
Qed.
Print Assumptions C39_get_not_found_text_refuted.

(** * path_set *)
Lemma path_set_cons : forall ow s v k k2 rest,
  path_set ow s v (k :: k2 :: rest) =
  if ow then
    rbind (path_set ow (Dict []) v (k2 :: rest))
      (fun r => rbind (set_item s k (fst r)) (fun s' => Ok (s', snd r)))
  else
    match s with
    | Dict l =>
        match dget k l with
        | Some c => rbind (path_set ow c v (k2 :: rest)) (fun r => Ok (Dict (dset k (fst r) l), snd r))
        | None => rbind (path_set ow (Dict []) v (k2 :: rest)) (fun r => Ok (s, snd r))
        end
    | _ => Raise EAttr
    end.
Proof. reflexivity. Qed.

Lemma path_set_empty_ok : forall p v, p <> [] ->
  exists s', path_set false (Dict []) v p = Ok (s', true).
Proof.
  induction p as [|k [|k2 p] IH]; intros v Hp; [congruence|cbn; eauto|].
  rewrite path_set_cons. cbn [dget].
  destruct (IH v ltac:(discriminate)) as [s' E]. rewrite E. cbn. eauto.
Qed.

Lemma wf_dict_dset : forall l k c, wf (Dict l) -> wf c -> wf (Dict (dset k c l)).
Proof.
  intros l k c Hwf Hc. inversion Hwf as [|? Hnd Hch|]; subst.
  constructor; [now apply dset_NoDup|].
  intros k2 c2 Hin. apply dset_In in Hin as [[-> ->]|Hin]; eauto.
Qed.

Lemma prefix_cons : forall k p q, prefix (k :: p) (k :: q) <-> prefix p q.
Proof.
  intros k p q; split; intros [r E]; exists r; [injection E; auto|cbn; now rewrite E].
Qed.

Lemma prefix_nil : forall p, prefix [] p.
Proof. intros p; exists p; reflexivity. Qed.

Lemma unrelated_cons : forall k p q, unrelated (k :: p) (k :: q) <-> unrelated p q.
Proof. intros; unfold unrelated; rewrite !prefix_cons; tauto. Qed.

Lemma path_set_effect : forall p s v, holder s p ->
  exists s', path_set false s v p = Ok (s', true) /\
    lookup s' p = Some v /\
    (forall q, unrelated p q -> lookup s' q = lookup s q) /\
    (wf s -> wf v -> wf s') /\
    (forall p2, unrelated p p2 -> holder s p2 -> holder s' p2).
Proof.
  induction p as [|k [|k2 p] IH]; intros s v Hh; [destruct Hh| |].
  - cbn [holder] in Hh. cbn [path_set].
    assert (Huk : forall q, unrelated [k] q -> exists k' q', q = k' :: q' /\ k' <> k).
    { intros [|k' q'] [H1 H2]; [exfalso; apply H2, prefix_nil|].
      exists k', q'. split; auto. intros ->. apply H1. exists q'. reflexivity. }
    destruct s as [|l|l]; [tauto| |].
    + exists (Dict (dset k v l)). cbn. rewrite dget_dset_same.
      split; [reflexivity|split; [reflexivity|split; [|split]]].
      * intros q Hu. destruct (Huk q Hu) as (k' & q' & -> & Hne). cbn.
        now rewrite dget_dset_other.
      * intros W1 W2; now apply wf_dict_dset.
      * intros p2 Hu Hh2. destruct (Huk p2 Hu) as (k' & q' & -> & Hne).
        destruct q' as [|k3 q']; [exact I|].
        cbn [holder] in *. now rewrite dget_dset_other.
    + destruct k as [t|n]; [tauto|].
      cbn [set_item]. assert (E : (n <? List.length l) = true) by (apply Nat.ltb_lt; exact Hh).
      rewrite E. exists (LList (lset n v l)). cbn. rewrite nth_error_lset_same by exact Hh.
      split; [reflexivity|split; [reflexivity|split; [|split]]].
      * intros q Hu. destruct (Huk q Hu) as (k' & q' & -> & Hne). cbn.
        destruct k' as [t'|m]; auto. rewrite nth_error_lset_other; auto; congruence.
      * intros W1 W2. inversion W1; subst. constructor. intros c Hc.
        apply lset_In in Hc as [->|]; auto.
      * intros p2 Hu Hh2. destruct (Huk p2 Hu) as (k' & q' & -> & Hne).
        destruct q' as [|k3 q']; cbn [holder] in *; [|tauto].
        destruct k'; [tauto|]. now rewrite lset_length.
  - rewrite path_set_cons.
    change (holder s (k :: k2 :: p)) with
      (match s with
       | Dict l => match dget k l with Some c => holder c (k2 :: p) | None => False end
       | _ => False end) in Hh.
    destruct s as [|l|l]; try tauto.
    destruct (dget k l) as [c|] eqn:Ek; [|tauto].
    destruct (IH c v Hh) as (c' & E & Hl & Hq & Hw & Hp2). rewrite E. cbn [rbind fst snd].
    exists (Dict (dset k c' l)).
    split; [reflexivity|split; [|split; [|split]]].
    + cbn [lookup]. rewrite dget_dset_same. exact Hl.
    + intros q Hu. destruct q as [|k' q]; [exfalso; apply (proj2 Hu), prefix_nil|].
      destruct (key_eq_dec k' k) as [->|Hne].
      * apply unrelated_cons in Hu. cbn [lookup]. rewrite dget_dset_same, Ek. now apply Hq.
      * cbn [lookup]. now rewrite dget_dset_other.
    + intros W1 W2. apply wf_dict_dset; auto. apply Hw; auto.
      inversion W1; subst. eauto using dget_In.
    + intros p2 Hu Hh2. destruct p2 as [|k' p2]; [exfalso; apply (proj2 Hu), prefix_nil|].
      destruct p2 as [|k3 p2]; [exact I|].
      rewrite holder_cons in Hh2 |- *. destruct (key_eq_dec k' k) as [->|Hne].
      * apply unrelated_cons in Hu. rewrite dget_dset_same. rewrite Ek in Hh2.
        now apply Hp2.
      * now rewrite dget_dset_other.
Qed.

Lemma path_set_not_holder : forall p s v s' b, ~ holder s p ->
  path_set false s v p = Ok (s', b) -> s' = s /\ (p <> [] -> lookup s p = None).
Proof.
  induction p as [|k [|k2 p] IH]; intros s v s' b Hh H.
  - cbn in H. injection H as -> _. split; [auto|congruence].
  - exfalso. cbn [holder] in Hh. cbn [path_set] in H. destruct s as [|l|l]; cbn [set_item rbind] in H; try discriminate; try tauto.
    destruct k as [|n]; [discriminate|].
    destruct (n <? List.length l) eqn:E; [apply Nat.ltb_lt in E; tauto|discriminate].
  - rewrite path_set_cons in H.
    change (holder s (k :: k2 :: p)) with
      (match s with
       | Dict l => match dget k l with Some c => holder c (k2 :: p) | None => False end
       | _ => False end) in Hh.
    destruct s as [|l|l]; try discriminate.
    destruct (dget k l) as [c|] eqn:Ek.
    + destruct (path_set false c v (k2 :: p)) as [[c' b']|] eqn:E; [|discriminate].
      cbn in H. injection H as <- <-.
      destruct (IH _ _ _ _ Hh E) as [-> Hn].
      split; [now rewrite dset_id|]. intros _. cbn [lookup]. rewrite Ek. apply Hn; discriminate.
    + destruct (path_set false (Dict []) v (k2 :: p)) as [[c' b']|] eqn:E; [|discriminate].
      cbn in H. injection H as <- <-. split; auto. intros _. cbn [lookup]. now rewrite Ek.
Qed.

(** C39, under the hypothesis that the container of the last key exists:
    setting reports success, the value is read back, unrelated paths keep
    their value, and nothing else appears. *)
Theorem C39_set_then_get_partial : forall s v p,
  wf s -> wf v -> holder_exists s p ->
  exists s', path_set false s v p = Ok (s', true) /\ wf s' /\
    reaches s' p v /\
    (v <> Leaf (LStr "not-found") -> path_get p s' = (Some v, true)) /\
    (forall q w, unrelated p q -> (reaches s' q w <-> reaches s q w)) /\
    (forall q, unrelated p q -> q <> [] -> snd (path_get q s) = true ->
       ~ (exists q1 q2 t, q = q1 ++ q2 /\ q2 <> [] /\ reaches s q1 (Leaf (LStr t))) ->
       path_get q s' = path_get q s).
Proof.
  intros s v p Ws Wv Hh. pose proof Hh as Hh0. apply holder_iff in Hh; auto.
  destruct (path_set_effect p s v Hh) as (s' & E & Hl & Hq & Hw & _).
  assert (W' : wf s') by auto.
  assert (Hr : reaches s' p v) by (apply lookup_reaches; auto).
  exists s'. split; [exact E|]. split; [exact W'|]. split; [exact Hr|]. split; [|split].
  - intros Hv. apply C39_get_reads_existing_path; auto. intros ->. destruct Hh.
  - intros q w Hu. rewrite <- !lookup_reaches by auto. now rewrite Hq.
  - intros q Hu Hne Hs Hns. destruct (path_get q s) as [[w|] b] eqn:Eg; cbn in Hs; subst b.
    + pose proof Eg as Eg0.
      destruct (C39_successful_get_partial s q w Ws Eg) as [Hrq|Hx]; [|tauto].
      apply C39_get_reads_existing_path; auto.
      * apply lookup_reaches; auto. rewrite Hq by auto. now apply lookup_reaches.
      * unfold path_get in Eg0. destruct q; [congruence|].
        apply path_get_loop_sound in Eg0. apply Eg0.
    + exfalso. clear -Eg Hne.
      assert (H : forall q s, path_get_loop s q <> (None, true)).
      { clear. induction q as [|k q IH]; intros s; cbn [path_get_loop]; [congruence|].
        destruct (key_eqb k (KS "sweep")).
        - destruct s as [|l|l]; try congruence. destruct (dget k l); try congruence.
          destruct (is_not_found n); [congruence|auto].
        - destruct (get_item s k); [auto|congruence]. }
      destruct q; [congruence|]. exact (H _ _ Eg).
Qed.
Print Assumptions C39_set_then_get_partial.

(** When does a reported success take effect?  Exactly when the container
    exists; otherwise the settings are unchanged and the path stays
    unreadable. *)
Theorem C39_reported_success_exact : forall s v p s',
  wf s -> wf v -> path_set false s v p = Ok (s', true) ->
  (holder_exists s p /\ reaches s' p v) \/
  (~ holder_exists s p /\ s' = s /\ forall w, ~ reaches s' p w).
Proof.
  intros s v p s' Ws Wv H.
  assert (Hp : p <> []) by (intros ->; discriminate).
  destruct (holder_dec p s) as [Hh|Hh].
  - left. split; [now apply holder_iff|].
    destruct (path_set_effect p s v Hh) as (s'' & E & Hl & _ & Hw & _).
    rewrite E in H. injection H as <-. apply lookup_reaches; auto.
  - right. split; [rewrite holder_iff; auto|].
    destruct (path_set_not_holder _ _ _ _ _ Hh H) as [-> Hn].
    split; auto. intros w Hr. apply lookup_reaches in Hr; auto. rewrite Hn in Hr; congruence.
Qed.
Print Assumptions C39_reported_success_exact.

(** The full property is false: setting a.b in an empty configuration reports
    success and does nothing. *)
Theorem C39_missing_parent_refuted :
  exists s v p, wf s /\ wf v /\
    path_set false s v p = Ok (s, true) /\ fst (path_get p s) = None.
Proof.
  exists (Dict []), (Leaf (LNum 1)), [KS "a"; KS "b"].
  split; [constructor; [constructor|intros k c []]|split; [constructor|split; reflexivity]].
Qed.
Print Assumptions C39_missing_parent_refuted.

(** A list anywhere before the last step makes the operation raise, although
    the path exists and can be read: settings inside [experiments] cannot be
    set by path. *)
Theorem C39_path_through_list_refuted :
  exists s v p w, wf s /\ reaches s p w /\ path_get p s = (Some w, true) /\
    path_set false s v p = Raise EAttr.
Proof.
  set (s := Dict [(KS "experiments", LList [Dict [(KS "seed", Leaf (LNum 7))]])]).
  exists s, (Leaf (LNum 1)), [KS "experiments"; KI 0; KS "seed"], (Leaf (LNum 7)).
  assert (W : wf s).
  { constructor; [repeat constructor; cbn; tauto|].
    intros k c [E|[]]; injection E as <- <-. constructor. intros c [<-|[]].
    constructor; [repeat constructor; cbn; tauto|].
    intros k c [E|[]]; injection E as <- <-; constructor. }
  split; [exact W|]. split; [apply lookup_reaches; auto|split; reflexivity].
Qed.
Print Assumptions C39_path_through_list_refuted.

Lemma path_set_attr_aux : forall p s v,
  path_set false s v p = Raise EAttr <->
  exists q k r x, p = q ++ k :: r /\ r <> [] /\ lookup s q = Some x /\ (forall l, x <> Dict l)
    /\ (forall q1 q2, q = q1 ++ q2 -> q2 <> [] -> exists l, lookup s q1 = Some (Dict l)).
Proof.
  induction p as [|k [|k2 p] IH]; intros s v.
  - cbn. split; [discriminate|]. intros (q & k & r & x & E & _). destruct q; discriminate.
  - cbn [path_set]. split.
    + destruct s as [|l|l]; cbn [set_item rbind]; try discriminate.
      destruct k as [|n]; try discriminate. destruct (n <? List.length l); discriminate.
    + intros (q & k' & r & x & E & Hr & _). destruct q as [|a q]; [injection E as _ <-; congruence|].
      destruct q; discriminate.
  - rewrite path_set_cons. split.
    + destruct s as [lf|l|l].
      * intros _. exists [], k, (k2 :: p), (Leaf lf). repeat split; try discriminate.
        intros q1 q2 E Hne. destruct q1, q2; try discriminate; congruence.
      * destruct (dget k l) as [c|] eqn:Ek.
        -- destruct (path_set false c v (k2 :: p)) as [[? ?]|e] eqn:E; cbn; [discriminate|].
           intros H. injection H as ->.
           apply IH in E as (q & k' & r & x & Ep & Hr & Hl & Hx & Hd).
           exists (k :: q), k', r, x. rewrite Ep. repeat split; auto.
           ++ cbn. now rewrite Ek.
           ++ intros q1 q2 Eq Hne. destruct q1 as [|a q1]; [exists l; reflexivity|].
              injection Eq as <- Eq. destruct (Hd _ _ Eq Hne) as [l' El]. exists l'. cbn. now rewrite Ek.
        -- destruct (path_set_empty_ok (k2 :: p) v ltac:(discriminate)) as [s' ->]. discriminate.
      * intros _. exists [], k, (k2 :: p), (LList l). repeat split; try discriminate.
        intros q1 q2 E Hne. destruct q1, q2; try discriminate; congruence.
    + intros (q & k' & r & x & Ep & Hr & Hl & Hx & Hd).
      destruct q as [|a q].
      * cbn in Hl. injection Hl as ->. destruct x as [|l|l]; auto. exfalso; eapply Hx; reflexivity.
      * injection Ep as <- Ep. destruct (Hd [] (k :: q) eq_refl ltac:(discriminate)) as [l El].
        cbn in El. injection El as ->. cbn in Hl.
        destruct (dget k l) as [c|] eqn:Ek; [|discriminate].
        assert (H : path_set false c v (k2 :: p) = Raise EAttr).
        { apply IH. exists q, k', r, x. repeat split; auto.
          intros q1 q2 Eq Hne. destruct (Hd (k :: q1) q2 ltac:(now rewrite Eq) Hne) as [l' El'].
          cbn in El'. rewrite Ek in El'. eauto. }
        now rewrite H.
Qed.

(** Exactly which paths raise the AttributeError: those that, before the last
    step, leave the dictionaries. *)
Theorem C39_attribute_error_exact : forall s v p, wf s ->
  (path_set false s v p = Raise EAttr <->
   exists q k r x, p = q ++ k :: r /\ r <> [] /\ reaches s q x /\ (forall l, x <> Dict l)
    /\ (forall q1 q2, q = q1 ++ q2 -> q2 <> [] -> exists l, reaches s q1 (Dict l))).
Proof.
  intros s v p W. rewrite path_set_attr_aux.
  split; intros (q & k & r & x & Ep & Hr & Hl & Hx & Hd); exists q, k, r, x;
    (split; [auto|split; [auto|split; [now apply lookup_reaches|split; [auto|]]]]);
    intros q1 q2 E Hne; destruct (Hd q1 q2 E Hne) as [l Hl']; exists l; now apply lookup_reaches.
Qed.
Print Assumptions C39_attribute_error_exact.

(** With [overwrite] the value is always stored and readable, other top-level
    settings are kept ... *)
Lemma path_set_overwrite_aux : forall p l v, p <> [] ->
  exists s', path_set true (Dict l) v p = Ok (Dict s', true) /\
    lookup (Dict s') p = Some v /\
    (forall k, (forall r, p <> k :: r) -> dget k s' = dget k l) /\
    (forall k r w q, p = k :: r -> lookup (Dict s') (k :: q) = Some w -> prefix r q \/ prefix q r).
Proof.
  induction p as [|k [|k2 p] IH]; intros l v Hp; [congruence| |].
  - exists (dset k v l). cbn. rewrite dget_dset_same. split; [auto|split; [auto|split]].
    + intros k' Hk. apply dget_dset_other. intros ->. eapply Hk; reflexivity.
    + intros k' r w q E _. injection E as <- <-. left; apply prefix_nil.
  - rewrite path_set_cons. destruct (IH [] v ltac:(discriminate)) as (c' & E & Hl & Ho & Hb).
    rewrite E. cbn [rbind fst snd set_item].
    exists (dset k (Dict c') l). split; [reflexivity|split; [|split]].
    + cbn [lookup]. rewrite dget_dset_same. exact Hl.
    + intros k' Hk. apply dget_dset_other. intros ->. eapply Hk; reflexivity.
    + intros k' r w q Ep Hw. injection Ep as <- <-. cbn [lookup] in Hw.
      rewrite dget_dset_same in Hw. destruct q as [|k3 q]; [right; apply prefix_nil|].
      destruct (key_eq_dec k3 k2) as [->|Hne].
      * rewrite !prefix_cons. eapply Hb; [reflexivity|exact Hw].
      * exfalso. cbn [lookup] in Hw. rewrite Ho in Hw; [discriminate|].
        intros r Er. injection Er as Ek _. congruence.
Qed.

Theorem C39_overwrite_sets_and_clears : forall l v p, p <> [] -> wf (Dict l) ->
  exists s', path_set true (Dict l) v p = Ok (s', true) /\
    lookup s' p = Some v /\
    (forall k q, (forall r, p <> k :: r) -> lookup s' (k :: q) = lookup (Dict l) (k :: q)) /\
    (forall k r q w, p = k :: r -> lookup s' (k :: q) = Some w -> prefix r q \/ prefix q r).
Proof.
  intros l v p Hp W. destruct (path_set_overwrite_aux p l v Hp) as (s' & E & Hl & Ho & Hb).
  exists (Dict s'). repeat split; auto.
  - intros k q Hk. cbn [lookup]. now rewrite Ho.
  - intros k r q w Ep. apply Hb; auto.
Qed.
Print Assumptions C39_overwrite_sets_and_clears.

(** ... but the siblings of every step are lost. *)
Theorem C39_overwrite_loses_siblings_refuted :
  exists s v p q w s', wf s /\ reaches s q w /\ unrelated p q /\
    path_set true s v p = Ok (s', true) /\ fst (path_get q s') = None.
Proof.
  set (s := Dict [(KS "inputs", Dict [(KS "seed", Leaf (LNum 1)); (KS "device", Leaf (LStr "cpu"))])]).
  exists s, (Leaf (LNum 2)), [KS "inputs"; KS "seed"], [KS "inputs"; KS "device"], (Leaf (LStr "cpu")).
  eexists. assert (W : wf s).
  { constructor; [repeat constructor; cbn; tauto|].
    intros k c [E|[]]; injection E as <- <-.
    constructor; [repeat constructor; cbn; intuition congruence|].
    intros k c [E|[E|[]]]; injection E as <- <-; constructor. }
  split; [exact W|]. split; [now apply lookup_reaches|]. split; [|split; [reflexivity|reflexivity]].
  split; intros [r E]; discriminate.
Qed.
Print Assumptions C39_overwrite_loses_siblings_refuted.

Example C39_nonvacuous :
  let s := Dict [(KS "inputs", Dict [(KS "seed", Leaf (LNum 1)); (KS "device", Leaf (LStr "cpu"))])] in
  wf s /\ holder_exists s [KS "inputs"; KS "seed"] /\
  path_set false s (Leaf (LNum 2)) [KS "inputs"; KS "seed"]
  = Ok (Dict [(KS "inputs", Dict [(KS "seed", Leaf (LNum 2)); (KS "device", Leaf (LStr "cpu"))])], true).
Proof.
  intros s. assert (W : wf s).
  { constructor; [repeat constructor; cbn; tauto|].
    intros k c [E|[]]; injection E as <- <-.
    constructor; [repeat constructor; cbn; intuition congruence|].
    intros k c [E|[E|[]]]; injection E as <- <-; constructor. }
  split; [exact W|]. split; [apply holder_iff; [exact W|exact I]|reflexivity].
Qed.
