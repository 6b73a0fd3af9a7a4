(** Properties C163-C165 of the axes of a figure. *)
From Coq Require Import List String Ascii ZArith QArith Qminmax Qround Bool Arith Lia Permutation Sorted Psatz.
From Verif Require Import Base PyMonad Inputs InputsProps SummariseProps StartUpHyper PlotAxes.
Import ListNotations.
Open Scope string_scope.
Open Scope Z_scope.
Open Scope Q_scope.
Open Scope nat_scope.
Open Scope list_scope.

(** * C163: places on a discrete axis *)

Lemma firsts_In : forall l seen s, In s (firsts seen l) <-> In s l /\ ~ In s seen.
Proof.
  induction l as [|a l IH]; intros seen s; cbn [firsts In]; [tauto|].
  destruct (memb a seen) eqn:M.
  - apply memb_In in M. rewrite IH. split; [tauto|]. intros [[->|H] N]; tauto.
  - assert (NM : ~ In a seen) by (intros C; apply memb_In in C; congruence).
    cbn [In]. rewrite IH. cbn [In]. split.
    + intros [->|[H N]]; [tauto|]. split; [tauto|]. intros C. apply N. now right.
    + intros [[->|H] N]; [now left|]. destruct (string_dec a s) as [->|D]; [now left|]. right. split; [exact H|].
      intros [C|C]; auto.
Qed.
Lemma firsts_NoDup : forall l seen, NoDup (firsts seen l).
Proof.
  induction l as [|a l IH]; intros seen; cbn [firsts]; [constructor|].
  destruct (memb a seen); [apply IH|]. constructor; [|apply IH]. rewrite firsts_In. cbn. tauto.
Qed.
(** A text that appears first comes first. *)
Lemma firsts_order : forall l seen s t, ~ In s seen -> ~ In t seen -> s <> t ->
  (exists l1 l2, l = l1 ++ s :: l2 /\ ~ In t l1) -> In t l ->
  exists u1 u2, firsts seen l = u1 ++ s :: u2 /\ In t u2.
Proof.
  induction l as [|a l IH]; intros seen s t Ns Nt D [l1 [l2 [E N]]] It; [contradiction|].
  cbn [firsts]. destruct l1 as [|b l1]; cbn [app] in E; injection E as -> E.
  - destruct (memb s seen) eqn:M; [apply memb_In in M; contradiction|].
    exists [], (firsts (s :: seen) l). split; [reflexivity|]. apply firsts_In.
    destruct It as [C|It]; [contradiction|]. split; [exact It|]. intros [C|C]; auto.
  - assert (Dt : b <> t) by (intros ->; apply N; now left).
    assert (Itl : In t l) by (destruct It; [contradiction|assumption]).
    destruct (memb b seen) eqn:M.
    + apply IH; auto. exists l1, l2. split; [exact E|]. intros C; apply N; now right.
    + destruct (string_dec b s) as [->|Ds].
      * exists [], (firsts (s :: seen) l). split; [reflexivity|]. apply firsts_In. split; [exact Itl|].
        intros [C|C]; auto.
      * destruct (IH (b :: seen) s t) as (u1 & u2 & EU & IU); auto.
        { intros [C|C]; auto. } { intros [C|C]; auto. }
        { exists l1, l2. split; [exact E|]. intros C; apply N; now right. }
        exists (b :: u1), u2. split; [cbn; now rewrite EU|exact IU].
Qed.

Section TickProps.
  Context {R : Type} (leb : R -> R -> bool) (text : R -> option string).

  (** The comparison is a total preorder, and rows with the same label are
      equivalent under it. *)
  Definition total_order : Prop :=
    (forall x y, leb x y = true \/ leb y x = true) /\
    (forall x y z, leb x y = true -> leb y z = true -> leb x z = true).

  Lemma insert_perm : forall x l, Permutation (insert_row leb x l) (x :: l).
  Proof.
    intros x l. induction l as [|y l IH]; [reflexivity|]. cbn [insert_row].
    destruct (leb x y); [reflexivity|]. rewrite IH. apply perm_swap.
  Qed.
  Lemma sort_perm : forall l, Permutation (sort_rows leb l) l.
  Proof. induction l as [|x l IH]; [reflexivity|]. cbn. rewrite insert_perm, IH. reflexivity. Qed.
  Lemma sort_sorted : total_order -> forall l, StronglySorted (fun x y => leb x y = true) (sort_rows leb l).
  Proof.
    intros [T TR] l. induction l as [|x l IH]; [constructor|]. cbn [sort_rows fold_right].
    fold (sort_rows leb l). revert IH. generalize (sort_rows leb l). clear l. intros l S.
    induction S as [|y l S IH F]; cbn [insert_row]; [repeat constructor|].
    destruct (leb x y) eqn:E.
    - constructor; [constructor; auto|]. constructor; [exact E|]. rewrite Forall_forall in *. intros z Hz. eauto.
    - constructor; [exact IH|]. rewrite Forall_forall in *. intros z Hz.
      apply (Permutation_in _ (insert_perm x l)) in Hz. destruct Hz as [<-|Hz]; [|auto].
      destruct (T x y) as [C|C]; [congruence|exact C].
  Qed.

  Definition texts (l : list R) : list string := flat_map (fun x => match text x with Some s => [s] | None => [] end) l.
  Lemma texts_In : forall l s, In s (texts l) <-> exists x, In x l /\ text x = Some s.
  Proof.
    intros l s. unfold texts. rewrite in_flat_map. split; intros [x [Hx H]]; exists x; split; auto.
    - destruct (text x); [destruct H as [<-|[]]; reflexivity|contradiction].
    - rewrite H. now left.
  Qed.
  Lemma labels_In : forall l s, In s (labels_of leb text l) <-> exists x, In x l /\ text x = Some s.
  Proof.
    intros l s. unfold labels_of. rewrite firsts_In. fold (texts (sort_rows leb l)). rewrite texts_In. split.
    - intros [[x [Hx T]] _]. exists x. split; [|exact T]. apply (Permutation_in _ (sort_perm l)). exact Hx.
    - intros [x [Hx T]]. split; [|intros []]. exists x. split; [|exact T]. apply (Permutation_in _ (Permutation_sym (sort_perm l))). exact Hx.
  Qed.
  Lemma labels_NoDup : forall l, NoDup (labels_of leb text l).
  Proof. intros l. apply firsts_NoDup. Qed.

  (** The number of a label. *)
  Fixpoint index_of (s : string) (l : list string) : option nat :=
    match l with [] => None | a :: r => if String.eqb s a then Some 0 else option_map S (index_of s r) end.
  Lemma index_nth : forall l s i, NoDup l -> nth_error l i = Some s -> index_of s l = Some i.
  Proof.
    induction l as [|a l IH]; intros s i N H; [destruct i; discriminate|]. inversion N; subst.
    destruct i as [|i]; cbn in *.
    - injection H as ->. now rewrite String.eqb_refl.
    - destruct (String.eqb_spec s a) as [->|]; [exfalso; apply H2; eapply nth_error_In; eauto|]. rewrite (IH s i); auto.
  Qed.
  Lemma index_some : forall l s i, index_of s l = Some i -> nth_error l i = Some s.
  Proof.
    induction l as [|a l IH]; intros s i H; cbn in H; [discriminate|].
    destruct (String.eqb_spec s a) as [->|]; [injection H as <-; reflexivity|].
    destruct (index_of s l) eqn:E; [|discriminate]. injection H as <-. cbn. auto.
  Qed.
  Lemma index_In : forall l s, In s l -> exists i, index_of s l = Some i.
  Proof.
    intros l s H. apply In_nth_error in H as [i H]. revert i H. induction l as [|a l IH]; intros i H; [destruct i; discriminate|].
    cbn. destruct (String.eqb_spec s a); [eauto|]. destruct i as [|i]; cbn in H; [congruence|].
    destruct (IH i H) as [k ->]. cbn. eauto.
  Qed.

  (** The labels follow the order of the rows. *)
  Lemma labels_order : total_order -> forall l x y s t,
    (forall a b u, In a l -> In b l -> text a = Some u -> text b = Some u -> leb a b = true) ->
    In x l -> In y l -> text x = Some s -> text y = Some t -> leb y x = false ->
    exists i j, index_of s (labels_of leb text l) = Some i /\ index_of t (labels_of leb text l) = Some j /\ i < j.
  Proof.
    intros TO l x y s t C Ix Iy Tx Ty L.
    assert (D : s <> t). { intros ->. rewrite (C y x t) in L by assumption. discriminate. }
    pose proof (sort_sorted TO l) as SS. pose proof (sort_perm l) as P.
    destruct (firsts_order (texts (sort_rows leb l)) [] s t) as (u1 & u2 & E & I2); auto.
    - (* the first row with label s comes before every row with label t *)
      assert (Ix' : In x (sort_rows leb l)) by (apply (Permutation_in _ (Permutation_sym P)); exact Ix).
      apply in_split in Ix' as [r1 [r2 E]]. exists (texts r1), (texts r2). split.
      + rewrite E. unfold texts. rewrite flat_map_app. cbn [flat_map]. rewrite Tx. reflexivity.
      + intros H. apply texts_In in H as [z [Hz Tz]].
        assert (Iz : In z l) by (apply (Permutation_in _ P); rewrite E; apply in_or_app; now left).
        assert (Lzx : leb z x = true).
        { rewrite E in SS. clear -SS Hz. induction r1 as [|a r1 IH]; [contradiction|]. cbn in SS. inversion SS; subst.
          destruct Hz as [->|Hz]; [|auto]. rewrite Forall_forall in H2. apply H2. apply in_or_app. right. now left. }
        destruct TO as [T TR]. rewrite (TR y z x) in L; [discriminate| |exact Lzx].
        apply (C y z t); auto.
    - apply texts_In. exists y. split; [|exact Ty]. apply (Permutation_in _ (Permutation_sym P)); exact Iy.
    - unfold labels_of. fold (texts (sort_rows leb l)).
      apply In_nth_error in I2 as [k Hk].
      exists (List.length u1), (List.length u1 + S k).
      assert (ND : NoDup (firsts [] (texts (sort_rows leb l)))) by apply firsts_NoDup.
      split; [|split; [|lia]]; apply index_nth; auto; rewrite E, nth_error_app2 by lia.
      + now rewrite Nat.sub_diag.
      + replace (List.length u1 + S k - List.length u1) with (S k) by lia. exact Hk.
  Qed.
End TickProps.

(** Text without a comma. *)
Definition no_comma (s : string) : Prop := ~ In ","%char (list_ascii_of_string s).
Lemma comma_inj : forall a b c d, no_comma a -> no_comma b ->
  (a ++ "," ++ c)%string = (b ++ "," ++ d)%string -> a = b /\ c = d.
Proof.
  unfold no_comma. induction a as [|x a IH]; intros b c d Na Nb E; destruct b as [|y b]; cbn in *.
  - injection E as ->. auto.
  - injection E as E1 _. exfalso. apply Nb. left. auto.
  - injection E as E1 _. exfalso. apply Na. left. auto.
  - injection E as -> E. destruct (IH b c d) as [-> ->]; auto.
Qed.
Lemma comma_no : forall a b c, no_comma c -> (a ++ "," ++ b)%string <> c.
Proof.
  intros a b c N E. subst c. apply N. clear. induction a as [|x a IH]; cbn; [now left|]. now right.
Qed.

(** The keys and places of the hash map. *)
Definition ekey (e : (nat * option string) * (nat * option string)) : string := entry_key (snd (fst e)) (snd (snd e)).
Definition eplace (lc : locator) (e : (nat * option string) * (nat * option string)) : option Q :=
  place lc (fst (fst e)) (match snd (snd e) with Some _ => Some (fst (snd e)) | None => None end).
Lemma put_get : forall lc es h k q,
  (forall e, In e es -> ekey e = k -> eplace lc e = Some q) ->
  (exists e, In e es /\ ekey e = k) \/ aget k h = Some q ->
  aget k (fold_left (put lc) es h) = Some q.
Proof.
  intros lc es. induction es as [|e es IH]; intros h k q A B; cbn [fold_left].
  - destruct B as [[e [[] _]]|B]; exact B.
  - assert (P : put lc h e = match eplace lc e with Some q => aset (ekey e) q h | None => h end).
    { destruct e as [[i m] [j t]]. reflexivity. }
    rewrite P. apply IH; [intros e' H; apply A; now right|].
    destruct (string_dec (ekey e) k) as [E|E].
    + right. rewrite (A e) by (auto; now left). rewrite E. apply aget_aset_same.
    + destruct B as [[e' [[<-|I] K]]|B]; [contradiction|left; eauto|].
      right. destruct (eplace lc e); [rewrite aget_aset_other by auto; exact B|exact B].
Qed.
Lemma put_none : forall lc es h k, (forall e, In e es -> ekey e = k -> eplace lc e = None) -> aget k h = None ->
  aget k (fold_left (put lc) es h) = None.
Proof.
  intros lc es. induction es as [|e es IH]; intros h k A B; cbn [fold_left]; [exact B|].
  assert (P : put lc h e = match eplace lc e with Some q => aset (ekey e) q h | None => h end).
  { destruct e as [[i m] [j t]]. reflexivity. }
  rewrite P. apply IH; [intros e' H; apply A; now right|].
  destruct (string_dec (ekey e) k) as [E|E].
  - rewrite (A e) by (auto; now left). exact B.
  - destruct (eplace lc e); [rewrite aget_aset_other by auto; exact B|exact B].
Qed.
Lemma numbered_In : forall A (l : list A) i x, In (i, x) (numbered l) <-> nth_error l i = Some x.
Proof.
  intros A l i x. unfold numbered. assert (G : forall s, In (i, x) (combine (seq s (List.length l)) l) <-> s <= i /\ nth_error l (i - s) = Some x).
  { revert i. induction l as [|a l IH]; intros i s; cbn [List.length seq combine In].
    - split; [contradiction|]. intros [_ H]. destruct (i - s); discriminate.
    - rewrite IH. split.
      + intros [E|[L H]]; [injection E as -> ->; rewrite Nat.sub_diag; split; [lia|reflexivity]|].
        split; [lia|]. replace (i - s) with (S (i - S s)) by lia. exact H.
      + intros [L H]. destruct (Nat.eq_dec i s) as [->|].
        * left. rewrite Nat.sub_diag in H. cbn in H. injection H as ->. reflexivity.
        * right. split; [lia|]. replace (i - s) with (S (i - S s)) in H by lia. exact H. }
  rewrite (G 0). rewrite Nat.sub_0_r. split; [tauto|]. intros H. split; [lia|exact H].
Qed.
Lemma pairs_In : forall ma mi i m j t, In ((i, m), (j, t)) (pairs ma mi) <-> nth_error ma i = Some m /\ nth_error mi j = Some t.
Proof. intros. unfold pairs. rewrite in_prod_iff, !numbered_In. reflexivity. Qed.
Lemma map_some_nth : forall (u : list string) i m, nth_error (map Some u) i = Some m -> exists s, m = Some s /\ nth_error u i = Some s.
Proof.
  intros u i m H. rewrite nth_error_map in H. destruct (nth_error u i) as [s|]; [|discriminate]. injection H as <-. eauto.
Qed.
Lemma some_nth_map : forall (u : list string) i s, nth_error u i = Some s -> nth_error (map Some u) i = Some (Some s).
Proof. intros u i s H. rewrite nth_error_map, H. reflexivity. Qed.

(** One level: the label number i is at its place. *)
Lemma hash_one : forall lc u s i q, NoDup u -> nth_error u i = Some s -> place lc i None = Some q ->
  aget s (hashmap lc (map Some u) [None]) = Some q.
Proof.
  intros lc u s i q N H P. unfold hashmap. apply put_get.
  - intros [[i' m] [j t]] I K. apply pairs_In in I as [I1 I2]. apply map_some_nth in I1 as [s' [-> I1]].
    destruct j as [|[|j]]; try discriminate. injection I2 as <-. cbn in K. subst s'.
    unfold eplace. cbn. rewrite <- P. f_equal. apply (NoDup_nth_error u); [exact N| |congruence].
    apply nth_error_Some. congruence.
  - left. exists ((i, Some s), (0, None)). split; [|reflexivity]. apply pairs_In. split; [|reflexivity].
    apply some_nth_map. exact H.
Qed.
(** Two levels. *)
Lemma hash_two : forall lc u v s t i j q, NoDup u -> NoDup v -> (forall x, In x u -> no_comma x) ->
  nth_error u i = Some s -> nth_error v j = Some t -> place lc i (Some j) = Some q ->
  aget (s ++ "," ++ t)%string (hashmap lc (map Some u) (map Some v)) = Some q.
Proof.
  intros lc u v s t i j q Nu Nv C Hi Hj P. unfold hashmap. apply put_get.
  - intros [[i' m] [j' t']] I K. apply pairs_In in I as [I1 I2].
    apply map_some_nth in I1 as [s' [-> I1]]. apply map_some_nth in I2 as [t'' [-> I2]].
    cbn [ekey fst snd entry_key show] in K. apply comma_inj in K as [-> ->]; [|apply C; eapply nth_error_In; eauto|apply C; eapply nth_error_In; eauto].
    unfold eplace. cbn [fst snd]. rewrite <- P.
    rewrite (proj1 (NoDup_nth_error u) Nu i' i); [|apply nth_error_Some; congruence|congruence].
    rewrite (proj1 (NoDup_nth_error v) Nv j' j); [reflexivity|apply nth_error_Some; congruence|congruence].
  - left. exists ((i, Some s), (j, Some t)). split; [|reflexivity]. apply pairs_In. split; apply some_nth_map; assumption.
Qed.

Section TickTheorems.
  Context {R : Type} (leb : R -> R -> bool) (text : R -> option string).

  Lemma minors_all : forall ps : list (@tick_point R), (forall p, In p ps -> snd p <> None) ->
    exists l, minors ps = Some l /\ List.length l = List.length ps /\ forall x, In x l <-> exists p, In p ps /\ snd p = Some x.
  Proof.
    induction ps as [|p ps IH]; intros H.
    - exists []. split; [reflexivity|]. split; [reflexivity|]. cbn. split; [contradiction|]. intros [p [[] _]].
    - destruct IH as [l [E [L G]]]; [intros q Hq; apply H; now right|].
      destruct (snd p) as [x|] eqn:Sp; [|elim (H p (or_introl eq_refl)); exact Sp].
      exists (x :: l). unfold minors in *. cbn [fold_right]. rewrite Sp, E. split; [reflexivity|]. split; [cbn; now rewrite L|].
      intros z. cbn [In]. rewrite G. split.
      + intros [<-|[q [Hq Sq]]]; [exists p; auto|exists q; auto].
      + intros [q [[<-|Hq] Sq]]; [left; congruence|right; eauto].
  Qed.
  Lemma no_labels : forall l, (forall x, In x l -> text x = None) -> labels_of leb text l = [].
  Proof.
    intros l H. destruct (labels_of leb text l) as [|s u] eqn:E; [reflexivity|].
    assert (I : In s (labels_of leb text l)) by (rewrite E; now left). apply labels_In in I as [x [Hx T]].
    rewrite H in T by exact Hx. discriminate.
  Qed.

  (** Points whose labels are known. *)
  Definition labelled (p : @tick_point R) (s : string) (t : option string) : Prop :=
    text (fst p) = Some s /\ exists x, snd p = Some x /\ text x = t.

  Lemma position_of : forall h p s t, labelled p s t ->
    position text h p = Ok (aget (entry_key (Some s) t) h).
  Proof. intros h p s t [A [x [B C]]]. unfold position. rewrite B, A, C. reflexivity. Qed.

  Lemma mapM_Forall2 : forall A B (f : A -> res B) l, (forall x, In x l -> exists y, f x = Ok y) ->
    exists ys, mapM f l = Ok ys /\ Forall2 (fun x y => f x = Ok y) l ys.
  Proof.
    intros A B f l. induction l as [|x l IH]; intros H; [exists []; split; [reflexivity|constructor]|].
    destruct (H x (or_introl eq_refl)) as [y Ey]. destruct IH as [ys [E F]]; [intros z Hz; apply H; now right|].
    exists (y :: ys). cbn [mapM]. rewrite Ey, E. split; [reflexivity|constructor; auto].
  Qed.

  (** The number of copies of a list, read at a place. *)
  Lemma concat_repeat_nth : forall (u : list string) n j i, j < n -> i < List.length u ->
    nth_error (List.concat (repeat u n)) (i + j * List.length u) = nth_error u i.
  Proof.
    intros u n. induction n as [|n IH]; intros j i Hj Hi; [lia|]. cbn [repeat List.concat]. destruct j as [|j].
    - rewrite nth_error_app1 by lia. f_equal. lia.
    - rewrite nth_error_app2 by lia. rewrite <- (IH j i) by lia. f_equal. lia.
  Qed.
  Lemma concat_repeat_length : forall (u : list string) n, List.length (List.concat (repeat u n)) = n * List.length u.
  Proof. intros u n. induction n as [|n IH]; [reflexivity|]. cbn. rewrite app_length, IH. reflexivity. Qed.

  Definition qn (n : nat) : Q := inject_Z (Z.of_nat n).
  Lemma qn_lt : forall a b s, (0 < s)%Q -> a < b -> (qn a * s < qn b * s)%Q.
  Proof. intros a b s S L. apply Qmult_lt_r; [exact S|]. unfold qn. rewrite <- Zlt_Qlt. lia. Qed.
  Lemma qn_inj : forall a b s, (0 < s)%Q -> (qn a * s == qn b * s)%Q -> a = b.
  Proof.
    intros a b s S E. destruct (lt_eq_lt_dec a b) as [[L|EQ]|L]; [|exact EQ|].
    - pose proof (qn_lt a b s S L) as C. rewrite E in C. elim (Qlt_irrefl _ C).
    - pose proof (qn_lt b a s S L) as C. rewrite E in C. elim (Qlt_irrefl _ C).
  Qed.

  Lemma Qpos_not0 : forall s, (0 < s)%Q -> Qeq_bool s 0 = false.
  Proof. intros s S. destruct (Qeq_bool s 0) eqn:E; [|reflexivity]. apply Qeq_bool_iff in E. rewrite E in S. elim (Qlt_irrefl _ S). Qed.

  (** One level of ticks with a start [a] and a positive step [s]: every point has
      a place; points with the same label share it and other points do not; a point
      that sorts strictly before another is to its left; and the tick at the place
      of a point shows its label. *)
  Theorem C163_one_level_partial : forall ps a s rest (lab : @tick_point R -> string),
    total_order leb -> ps <> [] -> (0 < s)%Q ->
    (forall p, In p ps -> labelled p (lab p) None) ->
    (forall p q, In p ps -> In q ps -> lab p = lab q -> leb (fst p) (fst q) = true) ->
    exists ma mi h, discrete_ticks leb text (Given (Some (a, s) :: rest)) ps = Ok (ma, mi, h) /\
    exists pos : @tick_point R -> Q,
      discrete_positions leb text (Given (Some (a, s) :: rest)) ps = Ok (map (fun p => Some (pos p)) ps) /\
      (forall p q, In p ps -> In q ps -> ((pos p == pos q)%Q <-> lab p = lab q)) /\
      (forall p q, In p ps -> In q ps -> leb (fst q) (fst p) = false -> (pos p < pos q)%Q) /\
      (forall p, In p ps -> exists k x, nth_error (l_locs ma) k = Some x /\ (x == pos p)%Q
                                        /\ nth_error (l_labels ma) k = Some (lab p)).
  Proof.
    intros ps a s rest lab TO NE S LB CO.
    destruct (minors_all ps) as [mr [Em [_ Gm]]].
    { intros p Hp. destruct (LB p Hp) as [_ [x [Sx _]]]. congruence. }
    assert (NL : labels_of leb text mr = []).
    { apply no_labels. intros x Hx. apply Gm in Hx as [p [Hp Sp]]. destruct (LB p Hp) as [_ [y [Sy Ty]]]. congruence. }
    set (u := labels_of leb text (map fst ps)).
    assert (Iu : forall p, In p ps -> In (lab p) u).
    { intros p Hp. apply labels_In. exists (fst p). split; [apply in_map; exact Hp|]. apply (LB p Hp). }
    assert (Nu : NoDup u) by apply labels_NoDup.
    assert (UN : u <> []). { destruct ps as [|p ps]; [congruence|]. specialize (Iu p (or_introl eq_refl)). intros E. rewrite E in Iu. contradiction. }
    set (lc := Given (Some (a, s) :: rest)).
    set (ma := mklevel (map Some u) (List.concat (repeat u 1)) (places a s (List.length (List.concat (repeat u 1))))).
    set (h := hashmap lc (map Some u) [None]).
    assert (ED : discrete_ticks leb text lc ps = Ok (ma, no_level, h)).
    { unfold discrete_ticks. rewrite Em. unfold level_of at 1. rewrite NL. cbn [rbind].
      unfold level_of. fold u. destruct u as [|u0 ur] eqn:EU; [congruence|]. cbn [loc_list lc nth_error].
      rewrite Qpos_not0 by exact S. cbn [rbind]. reflexivity. }
    exists ma, no_level, h. split; [exact ED|].
    exists (fun p => match index_of (lab p) u with Some i => (qn i * s + a)%Q | None => 0%Q end).
    assert (IX : forall p, In p ps -> exists i, index_of (lab p) u = Some i /\ nth_error u i = Some (lab p)).
    { intros p Hp. destruct (index_In u (lab p) (Iu p Hp)) as [i Hi]. exists i. split; [exact Hi|]. apply index_some. exact Hi. }
    split; [|split; [|split]].
    - unfold discrete_positions. rewrite ED. cbn [rbind snd].
      assert (G : forall l, (forall p, In p l -> In p ps) ->
        mapM (position text h) l = Ok (map (fun p => Some (match index_of (lab p) u with Some i => (qn i * s + a)%Q | None => 0%Q end)) l)).
      { induction l as [|p l IH]; intros H; [reflexivity|]. cbn [mapM map]. rewrite (position_of h p (lab p) None) by (apply LB; apply H; now left).
        destruct (IX p (H p (or_introl eq_refl))) as [i [E1 E2]]. rewrite E1. cbn [entry_key show].
        unfold h. assert (PL : place lc i None = Some (qn i * s + a)%Q). { cbv [place lc loc_list qn]. reflexivity. }
        rewrite (hash_one lc u (lab p) i (qn i * s + a)%Q Nu E2 PL). cbn [rbind]. fold h.
        rewrite IH by (intros q Hq; apply H; now right). reflexivity. }
      apply G. auto.
    - intros p q Hp Hq. destruct (IX p Hp) as [i [E1 E2]]. destruct (IX q Hq) as [j [E3 E4]]. rewrite E1, E3. split.
      + intros E. assert (i = j); [|congruence]. apply (qn_inj i j s S).
        assert (X : (qn i * s + a - a == qn j * s + a - a)%Q) by (rewrite E; reflexivity). ring_simplify in X. rewrite X. ring.
      + intros E. rewrite E in E1. rewrite E1 in E3. injection E3 as ->. reflexivity.
    - intros p q Hp Hq L. destruct (labels_order leb text TO (map fst ps) (fst p) (fst q) (lab p) (lab q)) as (i & j & E1 & E2 & L').
      + intros x y w Hx Hy Tx Ty. apply in_map_iff in Hx as [p' [<- Hp']]. apply in_map_iff in Hy as [q' [<- Hq']].
        apply CO; auto. destruct (LB p' Hp') as [A _]. destruct (LB q' Hq') as [B _]. congruence.
      + now apply in_map. + now apply in_map. + apply (LB p Hp). + apply (LB q Hq). + exact L.
      + fold u in E1, E2. rewrite E1, E2. apply Qplus_lt_l. apply qn_lt; assumption.
    - intros p Hp. destruct (IX p Hp) as [i [E1 E2]]. rewrite E1. exists i, (a + qn i * s)%Q.
      assert (Hi : i < List.length u) by (apply nth_error_Some; congruence).
      cbn [ma l_locs l_labels]. cbn [repeat List.concat]. rewrite app_nil_r. split; [|split; [ring|exact E2]].
      unfold places. rewrite nth_error_map. rewrite (nth_error_nth' _ 0) by (rewrite seq_length; exact Hi).
      rewrite seq_nth by exact Hi. reflexivity.
  Qed.

  (** Two levels with starts [a], [b] and steps [t], [m]: when the major labels
      have no comma and the minor step is at least the major step times the number
      of different major labels, every point has a place, and two points share it
      only when both of their labels agree; when the minor step is exactly that, the
      major tick at the place of a point shows its major label. *)
  Theorem C163_two_levels_partial : forall ps a t b m rest (la lb : @tick_point R -> string) us,
    ps <> [] -> (0 < t)%Q ->
    (forall p, In p ps -> labelled p (la p) (Some (lb p))) ->
    NoDup us -> (forall s, In s us <-> exists p, In p ps /\ la p = s) -> (forall s, In s us -> no_comma s) ->
    (qn (List.length us) * t <= m)%Q ->
    exists ma mi h, discrete_ticks leb text (Given (Some (a, t) :: Some (b, m) :: rest)) ps = Ok (ma, mi, h) /\
    exists pos : @tick_point R -> Q,
      discrete_positions leb text (Given (Some (a, t) :: Some (b, m) :: rest)) ps = Ok (map (fun p => Some (pos p)) ps) /\
      (forall p q, In p ps -> In q ps -> ((pos p == pos q)%Q <-> la p = la q /\ lb p = lb q)) /\
      ((qn (List.length us) * t == m)%Q -> forall p, In p ps ->
         exists k x, nth_error (l_locs ma) k = Some x /\ (x == pos p)%Q /\ nth_error (l_labels ma) k = Some (la p)).
  Proof.
    intros ps a t b m rest la lb us NE T LB Nus Gus NC M.
    destruct (minors_all ps) as [mr [Em [_ Gm]]].
    { intros p Hp. destruct (LB p Hp) as [_ [x [Sx _]]]. congruence. }
    set (u := labels_of leb text (map fst ps)). set (v := labels_of leb text mr).
    assert (Nu : NoDup u) by apply labels_NoDup. assert (Nv : NoDup v) by apply labels_NoDup.
    assert (Gu : forall s, In s u <-> In s us).
    { intros s. rewrite Gus. unfold u. rewrite labels_In. split.
      - intros [x [Hx Tx]]. apply in_map_iff in Hx as [p [<- Hp]]. exists p. split; [exact Hp|]. destruct (LB p Hp) as [A _]. congruence.
      - intros [p [Hp <-]]. exists (fst p). split; [now apply in_map|apply (LB p Hp)]. }
    assert (LU : List.length u = List.length us).
    { apply Permutation_length. apply NoDup_Permutation; assumption. }
    assert (Iu : forall p, In p ps -> In (la p) u) by (intros p Hp; apply Gu, Gus; eauto).
    assert (Iv : forall p, In p ps -> In (lb p) v).
    { intros p Hp. apply labels_In. destruct (LB p Hp) as [_ [x [Sx Tx]]]. exists x. split; [|exact Tx]. apply Gm. eauto. }
    destruct ps as [|p0 ps0]; [congruence|]. set (ps := p0 :: ps0) in *.
    assert (P0 : In p0 ps) by (now left).
    assert (UN : u <> []) by (intros E; specialize (Iu p0 P0); rewrite E in Iu; contradiction).
    assert (VN : v <> []) by (intros E; specialize (Iv p0 P0); rewrite E in Iv; contradiction).
    assert (UP : 0 < List.length u) by (destruct u; [congruence|cbn; lia]).
    assert (MP : (0 < m)%Q).
    { eapply Qlt_le_trans; [|exact M]. rewrite <- LU. apply Qle_lt_trans with (qn 0 * t)%Q; [unfold qn; cbn; ring_simplify; apply Qle_refl|].
      apply qn_lt; assumption. }
    set (lc := Given (Some (a, t) :: Some (b, m) :: rest)).
    set (nv := List.length v).
    set (ma := mklevel (map Some u) (List.concat (repeat u nv)) (places a t (List.length (List.concat (repeat u nv))))).
    set (mi := mklevel (map Some v) (List.concat (repeat v 1)) (places b m (List.length (List.concat (repeat v 1))))).
    set (h := hashmap lc (map Some u) (map Some v)).
    assert (ED : discrete_ticks leb text lc ps = Ok (ma, mi, h)).
    { unfold discrete_ticks. rewrite Em. unfold level_of at 1. fold v. destruct v as [|v0 vr] eqn:EV; [congruence|].
      cbn [loc_list lc nth_error]. rewrite Qpos_not0 by exact MP. cbn [rbind]. cbn [l_unique]. rewrite map_length.
      unfold level_of. fold u. destruct u as [|u0 ur] eqn:EU; [congruence|]. cbn [loc_list lc nth_error].
      rewrite Qpos_not0 by exact T. cbn [rbind]. reflexivity. }
    exists ma, mi, h. split; [exact ED|].
    set (pos := fun p : @tick_point R => match index_of (la p) u, index_of (lb p) v with
                | Some i, Some j => (qn j * m + qn i * t + a)%Q | _, _ => 0%Q end).
    exists pos.
    assert (IX : forall p, In p ps -> exists i j, index_of (la p) u = Some i /\ nth_error u i = Some (la p) /\ i < List.length u /\
       index_of (lb p) v = Some j /\ nth_error v j = Some (lb p) /\ j < List.length v).
    { intros p Hp. destruct (index_In u (la p) (Iu p Hp)) as [i Hi]. destruct (index_In v (lb p) (Iv p Hp)) as [j Hj].
      pose proof (index_some _ _ _ Hi) as H1. pose proof (index_some _ _ _ Hj) as H2.
      exists i, j. repeat split; auto; apply nth_error_Some; congruence. }
    split; [|split].
    - unfold discrete_positions. rewrite ED. cbn [rbind snd].
      assert (G : forall l, (forall p, In p l -> In p ps) -> mapM (position text h) l = Ok (map (fun p => Some (pos p)) l)).
      { induction l as [|p l IH]; intros H; [reflexivity|]. cbn [mapM map].
        rewrite (position_of h p (la p) (Some (lb p))) by (apply LB; apply H; now left).
        destruct (IX p (H p (or_introl eq_refl))) as (i & j & E1 & E2 & _ & E3 & E4 & _). cbn [entry_key show].
        unfold h. rewrite (hash_two lc u v (la p) (lb p) i j (qn j * m + qn i * t + a)%Q); auto; [|intros x Hx; apply NC, Gu, Hx].
        cbn [rbind]. fold h. rewrite IH by (intros q Hq; apply H; now right). unfold pos at 2. rewrite E1, E3. reflexivity. }
      apply G. auto.
    - intros p q Hp Hq. destruct (IX p Hp) as (i & j & E1 & E2 & Hi & E3 & E4 & Hj).
      destruct (IX q Hq) as (i' & j' & E1' & E2' & Hi' & E3' & E4' & Hj'). unfold pos. rewrite E1, E3, E1', E3'. split.
      + intros E.
        assert (E' : (qn j * m + qn i * t == qn j' * m + qn i' * t)%Q).
        { assert (X : (qn j * m + qn i * t + a - a == qn j' * m + qn i' * t + a - a)%Q) by (rewrite E; reflexivity).
          ring_simplify in X. rewrite X. ring. }
        clear E. rewrite <- LU in M.
        assert (STEP : forall c d x y, c < d -> x < List.length u -> (qn c * m + qn x * t < qn d * m + qn y * t)%Q).
        { intros c d x y L X.
          apply Qlt_le_trans with (qn c * m + qn (List.length u) * t)%Q; [apply Qplus_lt_r, qn_lt; assumption|].
          apply Qle_trans with (qn c * m + m)%Q; [apply Qplus_le_r; exact M|].
          apply Qle_trans with (qn d * m + 0)%Q.
          - setoid_replace (qn c * m + m)%Q with (qn (S c) * m)%Q.
            + setoid_replace (qn d * m + 0)%Q with (qn d * m)%Q by ring. apply Qmult_le_compat_r; [|apply Qlt_le_weak; exact MP].
              unfold qn. rewrite <- Zle_Qle. lia.
            + unfold qn. rewrite Nat2Z.inj_succ. unfold Z.succ. rewrite inject_Z_plus. ring.
          - apply Qplus_le_r. apply Qle_trans with (qn 0 * t)%Q; [unfold qn; cbn; ring_simplify; apply Qle_refl|].
            apply Qmult_le_compat_r; [|apply Qlt_le_weak; exact T]. unfold qn. rewrite <- Zle_Qle. lia. }
        destruct (lt_eq_lt_dec j j') as [[L|J]|L].
        * pose proof (STEP j j' i i' L Hi) as C. rewrite E' in C. elim (Qlt_irrefl _ C).
        * subst j'. assert (i = i'); [|split; congruence]. apply (qn_inj i i' t T).
          assert (X : (qn j * m + qn i * t - qn j * m == qn j * m + qn i' * t - qn j * m)%Q) by (rewrite E'; reflexivity).
          ring_simplify in X. rewrite X. ring.
        * pose proof (STEP j' j i' i L Hi') as C. rewrite E' in C. elim (Qlt_irrefl _ C).
      + intros [A B]. rewrite A in E1. rewrite B in E3. rewrite E1 in E1'. rewrite E3 in E3'. injection E1' as ->. injection E3' as ->. reflexivity.
    - intros ME p Hp. destruct (IX p Hp) as (i & j & E1 & E2 & Hi & E3 & E4 & Hj). unfold pos. rewrite E1, E3.
      exists (i + j * List.length u), (a + qn (i + j * List.length u) * t)%Q.
      cbn [ma l_locs l_labels]. rewrite concat_repeat_length. split; [|split].
      + assert (BD : i + j * List.length u < nv * List.length u) by (unfold nv; nia).
        unfold places. rewrite nth_error_map. rewrite (nth_error_nth' _ 0) by (rewrite seq_length; exact BD).
        rewrite seq_nth by exact BD. reflexivity.
      + rewrite <- ME, <- LU. unfold qn. rewrite Nat2Z.inj_add, Nat2Z.inj_mul, inject_Z_plus, inject_Z_mult. ring.
      + rewrite concat_repeat_nth; [exact E2|exact Hj|exact Hi].
  Qed.

  (** Without the option the list of tick locations holds one null: the program
      ends, whatever labelled points the figure has. *)
  Theorem C163_default_refuted : forall ps : list (@tick_point R),
    (exists p s, In p ps /\ text (fst p) = Some s) ->
    discrete_positions leb text (Given [None]) ps = Raise EExn.
  Proof.
    intros ps [p [s [Hp Tp]]]. unfold discrete_positions, discrete_ticks.
    assert (L1 : exists mi, level_of leb text (Given [None]) 1 1 (minors ps) = Ok mi).
    { unfold level_of. destruct (minors ps) as [rs|]; [|eauto]. destruct (labels_of leb text rs); cbn; eauto. }
    destruct L1 as [mi ->]. cbn [rbind]. unfold level_of.
    assert (I : In s (labels_of leb text (map fst ps))) by (apply labels_In; exists (fst p); split; [now apply in_map|exact Tp]).
    destruct (labels_of leb text (map fst ps)) as [|x u]; [contradiction|]. reflexivity.
  Qed.

  (** A point without a second component on a discrete axis: the program raises,
      whatever the settings. *)
  Theorem C163_no_minor_component_refuted : forall lc (before after : list (@tick_point R)) x,
    is_ok (discrete_positions leb text lc (before ++ (x, None) :: after)) = false.
  Proof.
    intros lc before after x. unfold discrete_positions.
    destruct (discrete_ticks leb text lc (before ++ (x, None) :: after)) as [t|]; [|reflexivity]. cbn [rbind].
    generalize (snd t). intros h. induction before as [|p l IH]; cbn [app mapM].
    - reflexivity.
    - destruct (position text h p); [|reflexivity]. cbn [rbind]. destruct (mapM _ (l ++ (x, None) :: after)); [discriminate|reflexivity].
  Qed.

  (** Two levels but one pair in the option: no point has a place. *)
  Theorem C163_one_pair_refuted : forall ps a s (la lb : @tick_point R -> string), ps <> [] -> (0 < s)%Q ->
    (forall p, In p ps -> labelled p (la p) (Some (lb p)) /\ no_comma (la p)) ->
    discrete_positions leb text (Given [Some (a, s)]) ps = Ok (map (fun _ => None) ps).
  Proof.
    intros ps a s la lb NE S LB.
    destruct (minors_all ps) as [mr [Em [_ Gm]]].
    { intros p Hp. destruct (LB p Hp) as [[_ [x [Sx _]]] _]. congruence. }
    set (lc := Given [Some (a, s)]).
    assert (L1 : exists ml, level_of leb text lc 1 1 (minors ps) = Ok (mklevel [None] ml [])).
    { rewrite Em. unfold level_of. destruct (labels_of leb text mr); cbn; unfold no_level; eauto. }
    destruct L1 as [ml L1].
    set (u := labels_of leb text (map fst ps)).
    assert (UN : u <> []).
    { destruct ps as [|p ps]; [congruence|]. intros E. assert (I : In (la p) u).
      { apply labels_In. exists (fst p). split; [now left|]. apply (LB p (or_introl eq_refl)). }
      rewrite E in I. contradiction. }
    assert (L0 : exists mb ms, level_of leb text lc 0 1 (Some (map fst ps)) = Ok (mklevel (map Some u) mb ms)).
    { unfold level_of. fold u. destruct u as [|u0 ur]; [congruence|]. cbn [loc_list lc nth_error]. rewrite Qpos_not0 by exact S. eauto. }
    destruct L0 as [mb [ms L0]].
    unfold discrete_positions, discrete_ticks. rewrite L1. cbn [rbind l_unique List.length]. rewrite L0. cbn [rbind snd l_unique].
    assert (G : forall l, (forall p, In p l -> In p ps) -> mapM (position text (hashmap lc (map Some u) [None])) l = Ok (map (fun _ => None) l)).
    { induction l as [|p l IH]; intros H; [reflexivity|]. cbn [mapM map].
      destruct (LB p (H p (or_introl eq_refl))) as [LP NC]. rewrite (position_of _ p (la p) (Some (lb p)) LP).
      rewrite IH by (intros q Hq; apply H; now right). unfold hashmap. rewrite put_none; [reflexivity| |reflexivity].
      intros [[i mm] [j t]] I K. exfalso. apply pairs_In in I as [I1 I2]. apply map_some_nth in I1 as [s' [-> I1]].
      destruct j as [|[|j]]; try discriminate. injection I2 as <-. cbn [ekey fst snd entry_key show] in K. symmetry in K.
      revert K. apply comma_no. apply nth_error_In in I1. apply labels_In in I1 as [x [Hx Tx]].
      apply in_map_iff in Hx as [q [<- Hq]]. destruct (LB q Hq) as [[Tq _] NC']. congruence. }
    apply G. auto.
  Qed.
End TickTheorems.
Print Assumptions C163_one_level_partial.
Print Assumptions C163_two_levels_partial.
Print Assumptions C163_default_refuted.
Print Assumptions C163_no_minor_component_refuted.
Print Assumptions C163_one_pair_refuted.

(** Equal steps on the two levels: the second label of one level and the first of
    the other share a place with their counterparts, for every start and step. *)
Definition pq (n : nat) : option string := Some (if Nat.eqb n 0 then "p" else "q").
Theorem C163_overlap_refuted : forall a b t, (0 < t)%Q ->
  exists x y z, discrete_positions Nat.leb pq (Given [Some (a, t); Some (b, t)]) [(0, Some 0); (0, Some 1); (1, Some 0)]
    = Ok [Some x; Some y; Some z] /\ (y == z)%Q /\ ~ (x == y)%Q.
Proof.
  intros a b t T.
  exists (inject_Z 0 * t + inject_Z 0 * t + a)%Q, (inject_Z 1 * t + inject_Z 0 * t + a)%Q, (inject_Z 0 * t + inject_Z 1 * t + a)%Q.
  split; [|split].
  - assert (E : Qeq_bool t 0 = false) by (apply Qpos_not0; exact T).
    unfold discrete_positions, discrete_ticks, level_of.
    replace (labels_of Nat.leb pq [0; 1; 0]) with ["p"; "q"] by reflexivity.
    cbn [minors fold_right snd map fst]. replace (labels_of Nat.leb pq [0; 1; 0]) with ["p"; "q"] by reflexivity.
    cbn [loc_list nth_error]. rewrite E. cbn [rbind l_unique map List.length].
    replace (labels_of Nat.leb pq [0; 0; 1]) with ["p"; "q"] by reflexivity. cbn [loc_list nth_error]. try rewrite E. cbn [rbind l_unique map List.length snd].
    reflexivity.
  - ring.
  - intros E. apply (Qlt_irrefl t). assert (X : (t == 0)%Q).
    { assert (Y : (inject_Z 0 * t + inject_Z 0 * t + a - a == inject_Z 1 * t + inject_Z 0 * t + a - a)%Q) by (rewrite E; reflexivity).
      ring_simplify in Y. symmetry. exact Y. }
    rewrite X at 1. exact T.
Qed.
Print Assumptions C163_overlap_refuted.

Example C163_nonvacuous :
  discrete_positions Nat.leb pq (Given [Some (1%Q, 2%Q)]) [(7, Some 0); (0, Some 0)] = Ok [None; None]
  /\ discrete_positions Nat.leb (fun n => if Nat.eqb n 9 then None else pq n) (Given [Some (1%Q, 2%Q)]) [(7, Some 9); (0, Some 9); (7, Some 9)]
     = Ok [Some (1 * 2 + 1)%Q; Some (0 * 2 + 1)%Q; Some (1 * 2 + 1)%Q]
  /\ discrete_positions Nat.leb pq (Given [Some (1%Q, 1%Q); Some (0%Q, 2%Q)]) [(0, Some 0); (1, Some 0); (0, Some 1); (1, Some 1)]
     = Ok [Some (0 * 2 + 0 * 1 + 1)%Q; Some (0 * 2 + 1 * 1 + 1)%Q; Some (1 * 2 + 0 * 1 + 1)%Q; Some (1 * 2 + 1 * 1 + 1)%Q]
  /\ total_order Nat.leb /\ no_comma "p" /\ (qn 2 * 1 <= 2)%Q.
Proof.
  repeat split; try reflexivity.
  - intros x y. rewrite !Nat.leb_le. lia.
  - intros x y z. rewrite !Nat.leb_le. lia.
  - intros C. cbn in C. destruct C as [C|[]]. discriminate.
  - unfold qn. cbn. apply Qle_refl || (unfold Qle; cbn; lia).
Qed.

(** * C164: the limits of an axis *)

Lemma qmin_list_spec : forall l x, (qmin_list x l <= x)%Q /\ (forall y, In y l -> (qmin_list x l <= y)%Q)
  /\ exists y, In y (x :: l) /\ (qmin_list x l == y)%Q.
Proof.
  unfold qmin_list. induction l as [|a l IH]; intros x; cbn [fold_left].
  - split; [apply Qle_refl|]. split; [intros y []|]. exists x. split; [now left|reflexivity].
  - destruct (IH (Qmin x a)) as [A [B [y [Iy Ey]]]].
    split; [eapply Qle_trans; [exact A|apply Q.le_min_l]|]. split.
    + intros z [<-|Hz]; [eapply Qle_trans; [exact A|apply Q.le_min_r]|auto].
    + destruct Iy as [<-|Iy]; [|exists y; split; [now right; right|exact Ey]].
      destruct (Q.min_spec x a) as [[_ E]|[_ E]]; [exists x|exists a]; (split; [cbn; auto|eapply Qeq_trans; [exact Ey|exact E]]).
Qed.
Lemma qmax_list_spec : forall l x, (x <= qmax_list x l)%Q /\ (forall y, In y l -> (y <= qmax_list x l)%Q)
  /\ exists y, In y (x :: l) /\ (qmax_list x l == y)%Q.
Proof.
  unfold qmax_list. induction l as [|a l IH]; intros x; cbn [fold_left].
  - split; [apply Qle_refl|]. split; [intros y []|]. exists x. split; [now left|reflexivity].
  - destruct (IH (Qmax x a)) as [A [B [y [Iy Ey]]]].
    split; [eapply Qle_trans; [apply Q.le_max_l|exact A]|]. split.
    + intros z [<-|Hz]; [eapply Qle_trans; [apply Q.le_max_r|exact A]|auto].
    + destruct Iy as [<-|Iy]; [|exists y; split; [now right; right|exact Ey]].
      destruct (Q.max_spec x a) as [[_ E]|[_ E]]; [exists a|exists x]; (split; [cbn; auto|eapply Qeq_trans; [exact Ey|exact E]]).
Qed.

(** Both limits given, a continuous axis: they are kept, whatever the data. *)
Theorem C164_both_given : forall lo hi d points,
  subplot_limits (Some lo, Some hi) None (d :: points) = Ok (Some (Some lo, Some hi)).
Proof.
  intros lo hi d points. cbn [subplot_limits]. unfold axis_limits. cbn [has_none orb rbind].
  assert (G : forall ps, subplot_limits (Some lo, Some hi) (Some (Some lo, Some hi)) ps = Ok (Some (Some lo, Some hi))).
  { induction ps as [|e ps IH]; [reflexivity|]. cbn [subplot_limits]. unfold axis_limits. cbn [has_none orb rbind]. exact IH. }
  apply G.
Qed.
Print Assumptions C164_both_given.

(** At most one limit given, a continuous axis: after all points of a subplot the
    limits hold every value drawn in it and every limit given, and each of them is
    such a value. *)
Definition shown_values (set : limits) (points : list (list Q)) (x : Q) : Prop :=
  In x (List.concat points) \/ fst set = Some x \/ snd set = Some x.
Theorem C164_covers : forall set points, has_none set = true -> points <> [] -> (forall d, In d points -> d <> []) ->
  exists lo hi, subplot_limits set None points = Ok (Some (Some lo, Some hi))
    /\ (forall x, In x (List.concat points) -> (lo <= x)%Q /\ (x <= hi)%Q)
    /\ (forall x, fst set = Some x -> (lo <= x)%Q) /\ (forall x, snd set = Some x -> (x <= hi)%Q)
    /\ (exists x, shown_values set points x /\ (lo == x)%Q) /\ (exists x, shown_values set points x /\ (hi == x)%Q).
Proof.
  intros set points HN NE D.
  (* one step *)
  assert (ST : forall cur d, d <> [] -> exists lo hi, axis_limits set cur None d = Ok (Some lo, Some hi) /\
      let c := match cur with Some c => c | None => set end in
      (forall x, In x d -> (lo <= x)%Q /\ (x <= hi)%Q) /\
      (forall x, fst c = Some x -> (lo <= x)%Q) /\ (forall x, snd c = Some x -> (x <= hi)%Q) /\
      (exists x, (In x d \/ fst c = Some x) /\ (lo == x)%Q) /\ (exists x, (In x d \/ snd c = Some x) /\ (hi == x)%Q)).
  { intros cur d ND. unfold axis_limits. rewrite HN. cbn [orb]. destruct d as [|x l]; [congruence|].
    set (c := match cur with Some c => c | None => set end).
    exists (omin (fst c) (qmin_list x l)), (omax (snd c) (qmax_list x l)). split; [reflexivity|].
    destruct (qmin_list_spec l x) as [A1 [A2 [y1 [A3 A4]]]]. destruct (qmax_list_spec l x) as [B1 [B2 [y2 [B3 B4]]]].
    assert (OM : forall o b, (omin o b <= b)%Q /\ (forall z, o = Some z -> (omin o b <= z)%Q) /\ ((omin o b == b)%Q \/ exists z, o = Some z /\ (omin o b == z)%Q)).
    { intros [z|] b; cbn [omin]; [|split; [apply Qle_refl|split; [discriminate|left; reflexivity]]].
      split; [apply Q.le_min_l|]. split; [intros w E; injection E as <-; apply Q.le_min_r|].
      destruct (Q.min_spec b z) as [[_ E]|[_ E]]; [left; exact E|right; eauto]. }
    assert (OX : forall o b, (b <= omax o b)%Q /\ (forall z, o = Some z -> (z <= omax o b)%Q) /\ ((omax o b == b)%Q \/ exists z, o = Some z /\ (omax o b == z)%Q)).
    { intros [z|] b; cbn [omax]; [|split; [apply Qle_refl|split; [discriminate|left; reflexivity]]].
      split; [apply Q.le_max_l|]. split; [intros w E; injection E as <-; apply Q.le_max_r|].
      destruct (Q.max_spec b z) as [[_ E]|[_ E]]; [right; eauto|left; exact E]. }
    destruct (OM (fst c) (qmin_list x l)) as [M1 [M2 M3]]. destruct (OX (snd c) (qmax_list x l)) as [X1 [X2 X3]].
    cbv zeta. split; [|split; [exact M2|split; [exact X2|split]]].
    - intros z [<-|Hz]; split.
      + eapply Qle_trans; [exact M1|exact A1]. + eapply Qle_trans; [exact B1|exact X1].
      + eapply Qle_trans; [exact M1|auto]. + eapply Qle_trans; [|exact X1]; auto.
    - destruct M3 as [E|[z [Ez E]]]; [exists y1; split; [left; exact A3|rewrite E; exact A4]|exists z; split; [right; exact Ez|exact E]].
    - destruct X3 as [E|[z [Ez E]]]; [exists y2; split; [left; exact B3|rewrite E; exact B4]|exists z; split; [right; exact Ez|exact E]]. }
  (* all steps *)
  assert (G : forall ps cur, (forall d, In d ps -> d <> []) -> ps <> [] ->
      exists lo hi, subplot_limits set cur ps = Ok (Some (Some lo, Some hi)) /\
      let c := match cur with Some c => c | None => set end in
      (forall x, In x (List.concat ps) -> (lo <= x)%Q /\ (x <= hi)%Q) /\
      (forall x, fst c = Some x -> (lo <= x)%Q) /\ (forall x, snd c = Some x -> (x <= hi)%Q) /\
      (exists x, (In x (List.concat ps) \/ fst c = Some x) /\ (lo == x)%Q) /\ (exists x, (In x (List.concat ps) \/ snd c = Some x) /\ (hi == x)%Q)).
  { induction ps as [|d ps IH]; intros cur Dp NEp; [congruence|]. cbn [subplot_limits List.concat].
    destruct (ST cur d) as [lo [hi [E [S1 [S2 [S3 [S4 S5]]]]]]]; [apply Dp; now left|]. rewrite E. cbn [rbind].
    destruct ps as [|e ps].
    - cbn [subplot_limits List.concat]. exists lo, hi. split; [reflexivity|]. rewrite app_nil_r. cbv zeta. auto.
    - destruct (IH (Some (Some lo, Some hi))) as [lo' [hi' [E' [T1 [T2 [T3 [T4 T5]]]]]]]; [intros z Hz; apply Dp; now right|discriminate|].
      cbn [fst snd] in T2, T3, T4, T5. exists lo', hi'. split; [exact E'|]. cbv zeta.
      assert (L1 : (lo' <= lo)%Q) by (apply T2; reflexivity). assert (L2 : (hi <= hi')%Q) by (apply T3; reflexivity).
      split; [|split; [|split; [|split]]].
      + intros x Hx. apply in_app_or in Hx as [Hx|Hx]; [|apply T1; exact Hx]. destruct (S1 x Hx) as [A B].
        split; eapply Qle_trans; eauto.
      + intros x Hx. eapply Qle_trans; [exact L1|auto].
      + intros x Hx. eapply Qle_trans; [|exact L2]; auto.
      + destruct T4 as [x [[Hx|Hx] Ex]]; [exists x; split; [left; apply in_or_app; now right|exact Ex]|].
        injection Hx as <-. destruct S4 as [z [Hz Ez]]. exists z. split; [|rewrite Ex; exact Ez].
        destruct Hz as [Hz|Hz]; [left; apply in_or_app; now left|now right].
      + destruct T5 as [x [[Hx|Hx] Ex]]; [exists x; split; [left; apply in_or_app; now right|exact Ex]|].
        injection Hx as <-. destruct S5 as [z [Hz Ez]]. exists z. split; [|rewrite Ex; exact Ez].
        destruct Hz as [Hz|Hz]; [left; apply in_or_app; now left|now right]. }
  destruct (G points None D NE) as [lo [hi [E [T1 [T2 [T3 [T4 T5]]]]]]]. exists lo, hi.
  split; [exact E|]. split; [exact T1|]. split; [exact T2|]. split; [exact T3|]. unfold shown_values.
  split; [destruct T4 as [x [Hx Ex]]|destruct T5 as [x [Hx Ex]]]; exists x; split; auto; tauto.
Qed.
Print Assumptions C164_covers.

(** One limit given: it is not kept when a value lies beyond it. *)
Theorem C164_one_given_refuted : forall lo d x, In x d -> (x < lo)%Q ->
  exists a b, subplot_limits (Some lo, None) None [d] = Ok (Some (Some a, Some b)) /\ (a < lo)%Q.
Proof.
  intros lo d x Hx L. destruct (C164_covers (Some lo, None) [d]) as (a & b & E & C & _); [reflexivity|discriminate| |].
  - intros e [<-|[]] ->. contradiction.
  - exists a, b. split; [exact E|]. apply Qle_lt_trans with x; [|exact L]. apply C. cbn [List.concat]. rewrite app_nil_r. exact Hx.
Qed.
Print Assumptions C164_one_given_refuted.

(** A discrete axis without limits: whole-numbered places are all inside. *)
Lemma truncate_whole : forall q z, (q == inject_Z z)%Q -> truncate q = inject_Z z.
Proof.
  intros [n d] z E. unfold truncate. cbn [Qnum Qden]. f_equal. unfold Qeq in E. cbn in E.
  rewrite Z.mul_1_r in E. rewrite E. apply Z.quot_mul. lia.
Qed.
Theorem C164_discrete_partial : forall set cur data ticks, has_none set = true -> ticks <> [] ->
  (forall q, In q ticks -> exists z, (q == inject_Z z)%Q) ->
  exists lo hi, axis_limits set cur (Some ticks) data = Ok (Some lo, Some hi) /\ forall q, In q ticks -> (lo <= q)%Q /\ (q <= hi)%Q.
Proof.
  intros set cur data ticks HN NE W. unfold axis_limits. rewrite HN. cbn [orb]. destruct ticks as [|x l]; [congruence|].
  destruct (qmin_list_spec l x) as [A1 [A2 [y1 [A3 A4]]]]. destruct (qmax_list_spec l x) as [B1 [B2 [y2 [B3 B4]]]].
  destruct (W y1 A3) as [z1 E1]. destruct (W y2 B3) as [z2 E2]. rewrite E1 in A4. rewrite E2 in B4.
  exists (truncate (qmin_list x l)), (truncate (qmax_list x l)). split; [reflexivity|].
  rewrite (truncate_whole _ _ A4), (truncate_whole _ _ B4).
  intros q [<-|Hq]; rewrite <- A4, <- B4; auto.
Qed.
Print Assumptions C164_discrete_partial.

(** Places with a fraction: the last one is outside. *)
Theorem C164_fraction_refuted : forall data n, (0 <= n)%Z ->
  exists hi, axis_limits (None, None) None (Some [0%Q; (inject_Z n + (1 # 2))%Q]) data = Ok (Some 0%Q, Some hi)
    /\ (hi < inject_Z n + (1 # 2))%Q.
Proof.
  intros data n N. exists (inject_Z n).
  assert (PH : (inject_Z n < inject_Z n + (1 # 2))%Q).
  { rewrite <- Qplus_0_r at 1. apply Qplus_lt_r. reflexivity. }
  assert (P0 : (0 <= inject_Z n + (1 # 2))%Q).
  { apply Qle_trans with (inject_Z n); [change 0%Q with (inject_Z 0); rewrite <- Zle_Qle; exact N|apply Qlt_le_weak; exact PH]. }
  split; [|exact PH]. unfold axis_limits. cbn [has_none orb].
  unfold qmin_list, qmax_list. cbn [fold_left].
  assert (E1 : truncate (Qmin 0 (inject_Z n + (1 # 2))) = 0%Q).
  { apply (truncate_whole _ 0). destruct (Q.min_spec 0 (inject_Z n + (1 # 2))) as [[_ E]|[L E]]; [exact E|].
    eapply Qeq_trans; [exact E|]. change (inject_Z 0) with 0%Q. apply Qle_antisym; assumption. }
  assert (E2 : truncate (Qmax 0 (inject_Z n + (1 # 2))) = inject_Z n).
  { assert (EX : Qmax 0 (inject_Z n + (1 # 2)) = (inject_Z n + (1 # 2))%Q).
    { unfold Qmax, GenericMinMax.gmax. 
      rewrite (proj1 (Qlt_alt 0 (inject_Z n + (1 # 2)))); [reflexivity|].
      apply Qle_lt_trans with (inject_Z n); [change 0%Q with (inject_Z 0); rewrite <- Zle_Qle; exact N|exact PH]. }
    rewrite EX. unfold truncate, Qplus, inject_Z. cbn [Qnum Qden]. f_equal.
    replace (n * 2 + 1 * 1)%Z with (n * 2 + 1)%Z by lia. change (Z.pos (1 * 2)) with 2%Z.
    rewrite Z.quot_div_nonneg by lia. rewrite Z.div_add_l by lia. cbn. lia. }
  rewrite E1, E2. reflexivity.
Qed.
Print Assumptions C164_fraction_refuted.

(** Both limits given on a discrete axis: a positive lower limit becomes zero. *)
Theorem C164_discrete_given_refuted : forall lo hi x l data, (0 < lo)%Q ->
  exists a b, axis_limits (Some lo, Some hi) None (Some (x :: l)) data = Ok (Some a, Some b) /\ (a == 0)%Q.
Proof.
  intros lo hi x l data L. eexists; eexists. split; [reflexivity|].
  destruct (Q.min_spec 0 lo) as [[_ E]|[C _]]; [exact E|]. elim (Qlt_not_le _ _ L). exact C.
Qed.
Print Assumptions C164_discrete_given_refuted.

(** ... and every place has room of at least one unit on its right: the upper
    limit is the given one or whole numbers above every place. *)
Theorem C164_discrete_given_room : forall lo hi ticks data, ticks <> [] ->
  (forall q, In q ticks -> exists z, (q == inject_Z z)%Q) ->
  exists a b, axis_limits (Some lo, Some hi) None (Some ticks) data = Ok (Some a, Some b) /\
    (a <= 0)%Q /\ (a <= lo)%Q /\ (hi <= b)%Q /\ (forall q, In q ticks -> (q + 1 <= b)%Q) /\
    ((b == hi)%Q \/ exists q, In q ticks /\ (b == q + 1)%Q).
Proof.
  intros lo hi ticks data NE W. destruct ticks as [|x l]; [congruence|].
  destruct (qmax_list_spec l x) as [B1 [B2 [y2 [B3 B4]]]]. destruct (W y2 B3) as [z2 E2].
  assert (B5 : (qmax_list x l == inject_Z z2)%Q) by (eapply Qeq_trans; [exact B4|exact E2]).
  eexists; eexists. split; [reflexivity|]. rewrite (truncate_whole _ _ B5).
  split; [apply Q.le_min_l|]. split; [apply Q.le_min_r|]. split; [apply Q.le_max_r|]. split.
  - intros q Hq. eapply Qle_trans; [|apply Q.le_max_l]. apply Qplus_le_l. rewrite <- B5. destruct Hq as [<-|Hq]; auto.
  - destruct (Q.max_spec (inject_Z z2 + 1) hi) as [[_ E]|[_ E]]; [left; exact E|right].
    exists y2. split; [exact B3|]. rewrite E2. exact E.
Qed.
Print Assumptions C164_discrete_given_room.

Example C164_nonvacuous :
  (exists a b, subplot_limits (None, Some 4%Q) None [[1; 3]%Q; [2; -1]%Q] = Ok (Some (Some a, Some b)) /\ (a == -1)%Q /\ (b == 4)%Q)
  /\ subplot_limits (Some 2%Q, Some 4%Q) None [[1; 3]%Q; [9]%Q] = Ok (Some (Some 2%Q, Some 4%Q))
  /\ axis_limits (None, None) None (Some [3; 0; 1]%Q) [] = Ok (Some 0%Q, Some 3%Q).
Proof. split; [|split; reflexivity]. eexists; eexists. split; [reflexivity|]. split; reflexivity. Qed.

(** * C165: subplots *)

Lemma aset_fresh : forall V k (v : V) l, ~ In k (map fst l) -> aset k v l = l ++ [(k, v)].
Proof.
  intros V k v l. induction l as [|[q w] l IH]; intros N; cbn [aset app]; [reflexivity|].
  destruct (String.eqb_spec k q) as [->|]; [elim N; now left|]. rewrite IH; [reflexivity|]. intros C. apply N. now right.
Qed.
Lemma novar_hash : forall u, NoDup u ->
  hashmap NoVar (map Some u) [None] = combine u (map qn (seq 0 (List.length u))).
Proof.
  intros u N. unfold hashmap, pairs, numbered. cbn [List.length seq combine]. rewrite map_length.
  assert (G : forall u s h, NoDup u -> (forall x, In x u -> ~ In x (map fst h)) ->
    fold_left (put NoVar) (list_prod (combine (seq s (List.length u)) (map Some u)) [(0, None)]) h
    = h ++ combine u (map qn (seq s (List.length u)))).
  { clear. induction u as [|a u IH]; intros s h N D; cbn [List.length seq map combine list_prod app fold_left]; [now rewrite app_nil_r|].
    inversion N; subst. cbn [put place loc_list entry_key show]. rewrite aset_fresh by (apply D; now left).
    rewrite IH; [now rewrite <- app_assoc|assumption|].
    intros x Hx. rewrite map_app, in_app_iff. cbn. intros [C|[C|[]]]; [apply (D x); [now right|exact C]|subst; contradiction]. }
  apply (G u 0 []); [exact N|]. intros x _ [].
Qed.
Lemma combine_aget : forall u i s, NoDup u -> nth_error u i = Some s ->
  aget s (combine u (map qn (seq 0 (List.length u)))) = Some (qn i).
Proof.
  intros u. assert (G : forall s0 i s, NoDup u -> nth_error u i = Some s ->
    aget s (combine u (map qn (seq s0 (List.length u)))) = Some (qn (s0 + i))).
  { induction u as [|a u IH]; intros s0 i s N H; [destruct i; discriminate|]. inversion N; subst.
    cbn [List.length seq map combine aget]. destruct i as [|i]; cbn in H.
    - injection H as ->. rewrite String.eqb_refl. do 2 f_equal. lia.
    - destruct (String.eqb_spec s a) as [->|]; [exfalso; apply H2; eapply nth_error_In; eauto|].
      rewrite (IH (S s0) i s) by assumption. do 2 f_equal. lia. }
  intros i s N H. rewrite (G 0 i s N H). reflexivity.
Qed.

Section Groups.
  Context (leb : string -> string -> bool).
  Notation text := (fun s : string => Some s).

  (** One variable: its groups. *)
  Definition singles (labs : list string) : list (list string) := map (fun s => [s]) labs.
  Definition nothing (n : nat) : list (list string) := repeat [] n.

  Lemma kept_singles : forall labs, kept_groups (singles labs) = singles labs.
  Proof. induction labs as [|s l IH]; [reflexivity|]. cbn. unfold kept_groups, singles in IH. rewrite IH. reflexivity. Qed.
  Lemma kept_nothing : forall n, kept_groups (nothing n) = [].
  Proof. induction n as [|n IH]; [reflexivity|]. cbn. exact IH. Qed.

  Lemma group_map_eq : forall gs, kept_groups gs = gs -> gs <> [] ->
    group_map leb gs = rbind (discrete_ticks leb text NoVar (map group_point gs)) (fun t => Ok (snd t)).
  Proof. intros gs K NE. unfold group_map. rewrite K. destruct gs; [congruence|reflexivity]. Qed.

  Lemma map_singles : forall labs, labs <> [] ->
    let u := labels_of leb text labs in
    group_map leb (singles labs) = Ok (combine u (map qn (seq 0 (List.length u)))).
  Proof.
    intros labs NE u. rewrite group_map_eq; [|apply kept_singles|destruct labs; [congruence|discriminate]].
    unfold discrete_ticks.
    assert (M : minors (map group_point (singles labs)) = None) by (destruct labs; [congruence|reflexivity]).
    rewrite M. cbn [rbind]. cbn [no_level l_unique List.length].
    assert (MF : map fst (map group_point (singles labs)) = labs).
    { clear. induction labs as [|s l IH]; [reflexivity|]. cbn. unfold singles in IH. rewrite IH. reflexivity. }
    rewrite MF. unfold level_of.
    assert (UN : exists u0 ur, labels_of leb text labs = u0 :: ur).
    { destruct labs as [|s l]; [congruence|].
      assert (I : In s (labels_of leb text (s :: l))) by (apply labels_In; exists s; split; [now left|reflexivity]).
      destruct (labels_of leb text (s :: l)) as [|u0 ur]; [contradiction|eauto]. }
    assert (ND : NoDup u) by apply labels_NoDup. unfold u in *. clear u.
    destruct UN as (u0 & ur & EU). rewrite EU in *. cbn [loc_list]. cbn [rbind l_unique snd].
    rewrite novar_hash by exact ND. reflexivity.
  Qed.

  Definition rank (labs : list string) (s : string) : nat :=
    match index_of s (labels_of leb text labs) with Some i => i | None => 0 end.
  Lemma rank_spec : forall labs s, In s labs ->
    nth_error (labels_of leb text labs) (rank labs s) = Some s /\ index_of s (labels_of leb text labs) = Some (rank labs s).
  Proof.
    intros labs s H. unfold rank. assert (I : In s (labels_of leb text labs)) by (apply labels_In; eauto).
    destruct (index_In _ _ I) as [i Hi]. rewrite Hi. split; [apply index_some; exact Hi|reflexivity].
  Qed.
  Lemma rank_inj : forall labs s t, In s labs -> In t labs -> rank labs s = rank labs t -> s = t.
  Proof. intros labs s t Hs Ht E. destruct (rank_spec labs s Hs) as [A _]. destruct (rank_spec labs t Ht) as [B _]. rewrite E in A. congruence. Qed.

  Lemma index_singles : forall labs i s, nth_error labs i = Some s ->
    let u := labels_of leb text labs in
    group_index (combine u (map qn (seq 0 (List.length u)))) (kept_groups (singles labs)) i = qn (rank labs s).
  Proof.
    intros labs i s H u. rewrite kept_singles. unfold group_index.
    assert (Is : In s labs) by (eapply nth_error_In; eauto). destruct (rank_spec labs s Is) as [A _]. fold u in A.
    destruct (combine u (map qn (seq 0 (List.length u)))) as [|e l] eqn:EC.
    - exfalso. destruct u; [destruct (rank labs s); discriminate|discriminate].
    - rewrite <- EC. unfold singles. rewrite nth_error_map, H. cbn [option_map commas].
      rewrite (combine_aget u (rank labs s) s); [reflexivity|apply labels_NoDup|exact A].
  Qed.
  Lemma combine_len : forall u : list string, List.length (combine u (map qn (seq 0 (List.length u)))) = List.length u.
  Proof. intros u. rewrite combine_length, map_length, seq_length. lia. Qed.

  Lemma cells_In : forall ny nx r c, In (r, c) (cells ny nx) <-> r < Nat.max ny 1 /\ c < Nat.max nx 1.
  Proof.
    intros ny nx r c. unfold cells. rewrite in_flat_map. split.
    - intros [r' [H1 H2]]. apply in_map_iff in H2 as [c' [E H2]]. injection E as -> ->. apply in_seq in H1. apply in_seq in H2. lia.
    - intros [A B]. exists r. split; [apply in_seq; lia|]. apply in_map_iff. exists c. split; [reflexivity|apply in_seq; lia].
  Qed.
  Lemma qn_eqb : forall a b, Qeq_bool (qn a) (inject_Z (Z.of_nat b)) = true <-> a = b.
  Proof.
    intros a b. rewrite Qeq_bool_iff. unfold qn, Qeq, inject_Z. cbn [Qnum Qden]. lia.
  Qed.
  Lemma qn_eq : forall a b, (qn a == qn b)%Q <-> a = b.
  Proof. intros a b. unfold qn, Qeq, inject_Z. cbn [Qnum Qden]. lia. Qed.
  Lemma labels_len : forall labs s, In s labs -> rank labs s < List.length (labels_of leb text labs).
  Proof. intros labs s H. apply nth_error_Some. destruct (rank_spec labs s H) as [A _]. congruence. Qed.
  Lemma rank_onto : forall labs k, k < List.length (labels_of leb text labs) -> exists s, In s labs /\ rank labs s = k.
  Proof.
    intros labs k H. destruct (nth_error (labels_of leb text labs) k) as [s|] eqn:E; [|apply nth_error_None in E; lia].
    assert (I : In s labs) by (apply nth_error_In in E; apply labels_In in E as [x [Hx Ex]]; injection Ex as <-; exact Hx).
    exists s. split; [exact I|]. unfold rank. rewrite (index_nth _ s k (labels_NoDup leb text labs) E). reflexivity.
  Qed.

  (** One grouping variable on each axis: [ly] and [lx] are the values of the
      points. *)
  Lemma grid_used : forall ly lx n, List.length ly = n -> List.length lx = n -> 0 < n ->
    exists used, List.length used = n /\
      (forall i y x, nth_error ly i = Some y -> nth_error lx i = Some x ->
         nth_error used i = Some (qn (rank ly y), qn (rank lx x))) /\
      subplots leb (singles ly) (singles lx) n =
        if forallb (fun rc => existsb (fun u => Qeq_bool (fst u) (inject_Z (Z.of_nat (fst rc)))
                                    && Qeq_bool (snd u) (inject_Z (Z.of_nat (snd rc)))) used)
             (cells (List.length (labels_of leb text ly)) (List.length (labels_of leb text lx)))
        then Ok used else Raise EKey.
  Proof.
    intros ly lx n Ly Lx N. assert (NY : ly <> []) by (intros ->; cbn in Ly; lia). assert (NX : lx <> []) by (intros ->; cbn in Lx; lia).
    eexists. split; [|split]; [| |unfold subplots; rewrite (map_singles lx NX), (map_singles ly NY); cbn [rbind]; rewrite !combine_len; reflexivity].
    - rewrite map_length, seq_length. reflexivity.
    - intros i y x Hy Hx. assert (Hi : i < n) by (rewrite <- Ly; apply nth_error_Some; congruence).
      rewrite nth_error_map. rewrite (nth_error_nth' _ 0) by (rewrite seq_length; exact Hi). rewrite seq_nth by exact Hi. cbn [plus option_map].
      rewrite (index_singles ly i y Hy), (index_singles lx i x Hx). reflexivity.
  Qed.
  Lemma grid_cover : forall ly lx n used, List.length ly = n -> List.length lx = n -> List.length used = n -> 0 < n ->
    (forall i y x, nth_error ly i = Some y -> nth_error lx i = Some x -> nth_error used i = Some (qn (rank ly y), qn (rank lx x))) ->
    (forallb (fun rc => existsb (fun u => Qeq_bool (fst u) (inject_Z (Z.of_nat (fst rc)))
                                    && Qeq_bool (snd u) (inject_Z (Z.of_nat (snd rc)))) used)
             (cells (List.length (labels_of leb text ly)) (List.length (labels_of leb text lx))) = true
     <-> forall y x, In y ly -> In x lx -> exists i, nth_error ly i = Some y /\ nth_error lx i = Some x).
  Proof.
    intros ly lx n used Ly Lx Lu N U. rewrite forallb_forall. split.
    - intros H y x Hy Hx. specialize (H (rank ly y, rank lx x)). rewrite existsb_exists in H. destruct H as [u [Iu Eu]].
      { apply cells_In. pose proof (labels_len ly y Hy). pose proof (labels_len lx x Hx). lia. }
      apply In_nth_error in Iu as [i Ei]. assert (Hi : i < n) by (rewrite <- Lu; apply nth_error_Some; congruence).
      destruct (nth_error ly i) as [y'|] eqn:Ey; [|apply nth_error_None in Ey; lia].
      destruct (nth_error lx i) as [x'|] eqn:Ex; [|apply nth_error_None in Ex; lia].
      rewrite (U i y' x' Ey Ex) in Ei. injection Ei as <-. cbn [fst snd] in Eu. apply andb_true_iff in Eu as [E1 E2].
      apply qn_eqb in E1. apply qn_eqb in E2. exists i. rewrite Ey, Ex. split; f_equal.
      + apply (rank_inj ly); [eapply nth_error_In; eauto|exact Hy|exact E1].
      + apply (rank_inj lx); [eapply nth_error_In; eauto|exact Hx|exact E2].
    - intros H [r c] Hrc. apply cells_In in Hrc as [Hr Hc].
      assert (LY : 0 < List.length (labels_of leb text ly)).
      { destruct ly as [|y l]; [cbn in Ly; lia|]. pose proof (labels_len (y :: l) y (or_introl eq_refl)). lia. }
      assert (LX : 0 < List.length (labels_of leb text lx)).
      { destruct lx as [|x l]; [cbn in Lx; lia|]. pose proof (labels_len (x :: l) x (or_introl eq_refl)). lia. }
      destruct (rank_onto ly r) as [y [Iy Ey]]; [lia|]. destruct (rank_onto lx c) as [x [Ix Ex]]; [lia|].
      destruct (H y x Iy Ix) as [i [E1 E2]]. rewrite existsb_exists. eexists. split; [eapply nth_error_In; apply (U i y x E1 E2)|].
      cbn [fst snd]. rewrite Ey, Ex. apply andb_true_iff. split; apply qn_eqb; reflexivity.
  Qed.

  (** The figure is drawn when every row value appears with every column value;
      then two points share a subplot exactly when both of their values agree. *)
  Theorem C165_grid_partial : forall ly lx n, List.length ly = n -> List.length lx = n -> 0 < n ->
    (forall y x, In y ly -> In x lx -> exists i, nth_error ly i = Some y /\ nth_error lx i = Some x) ->
    exists used, subplots leb (singles ly) (singles lx) n = Ok used /\ List.length used = n /\
      forall i j y x y' x', nth_error ly i = Some y -> nth_error lx i = Some x -> nth_error ly j = Some y' -> nth_error lx j = Some x' ->
        exists r c r' c', nth_error used i = Some (r, c) /\ nth_error used j = Some (r', c') /\
          ((r == r' /\ c == c')%Q <-> y = y' /\ x = x').
  Proof.
    intros ly lx n Ly Lx N H. destruct (grid_used ly lx n Ly Lx N) as [used [Lu [U E]]]. exists used.
    rewrite (proj2 (grid_cover ly lx n used Ly Lx Lu N U) H) in E. split; [exact E|]. split; [exact Lu|].
    intros i j y x y' x' Hy Hx Hy' Hx'. exists (qn (rank ly y)), (qn (rank lx x)), (qn (rank ly y')), (qn (rank lx x')).
    split; [apply U; assumption|]. split; [apply U; assumption|]. rewrite !qn_eq. split.
    - intros [A B]. split; [apply (rank_inj ly)|apply (rank_inj lx)]; auto; eapply nth_error_In; eauto.
    - intros [-> ->]. auto.
  Qed.

  (** A row value and a column value that no point has together: nothing is
      drawn. *)
  Theorem C165_missing_combination_refuted : forall ly lx n y x, List.length ly = n -> List.length lx = n ->
    In y ly -> In x lx -> (forall i, ~ (nth_error ly i = Some y /\ nth_error lx i = Some x)) ->
    subplots leb (singles ly) (singles lx) n = Raise EKey.
  Proof.
    intros ly lx n y x Ly Lx Hy Hx NO. assert (N : 0 < n) by (destruct ly; [contradiction|cbn in Ly; lia]).
    destruct (grid_used ly lx n Ly Lx N) as [used [Lu [U E]]]. rewrite E.
    destruct (forallb _ (cells _ _)) eqn:F; [|reflexivity]. exfalso.
    apply (grid_cover ly lx n used Ly Lx Lu N U) with (y := y) (x := x) in F; [|assumption|assumption].
    destruct F as [i Hi]. exact (NO i Hi).
  Qed.

  (** One grouping variable, on the rows only: always drawn, one row for each
      value, and the rows follow the order of the values. *)
  Theorem C165_rows : forall ly n, total_order leb -> (forall s t, leb s t = true -> leb t s = true -> s = t) ->
    List.length ly = n -> 0 < n ->
    exists used, subplots leb (singles ly) (nothing n) n = Ok used /\ List.length used = n /\
      forall i j y y', nth_error ly i = Some y -> nth_error ly j = Some y' ->
        exists r r', nth_error used i = Some (r, 0%Q) /\ nth_error used j = Some (r', 0%Q) /\
          ((r == r')%Q <-> y = y') /\ ((r < r')%Q <-> leb y' y = false).
  Proof.
    intros ly n TO AS Ly N. assert (NY : ly <> []) by (intros ->; cbn in Ly; lia).
    set (u := labels_of leb text ly).
    set (used := map (fun i => (group_index (combine u (map qn (seq 0 (List.length u)))) (kept_groups (singles ly)) i, 0%Q)) (seq 0 n)).
    assert (U : forall i y, nth_error ly i = Some y -> nth_error used i = Some (qn (rank ly y), 0%Q)).
    { intros i y Hy. assert (Hi : i < n) by (rewrite <- Ly; apply nth_error_Some; congruence). unfold used.
      rewrite nth_error_map. rewrite (nth_error_nth' _ 0) by (rewrite seq_length; exact Hi). rewrite seq_nth by exact Hi. cbn [plus option_map].
      unfold u. rewrite (index_singles ly i y Hy). reflexivity. }
    exists used. split; [|split].
    - unfold subplots. unfold group_map at 1. rewrite kept_nothing. cbn [rbind]. rewrite (map_singles ly NY). cbn [rbind]. fold u.
      cbn [group_index]. fold used. rewrite combine_len.
      replace (forallb _ (cells _ _)) with true; [reflexivity|]. symmetry. apply forallb_forall. intros [r c] H.
      apply cells_In in H as [Hr Hc]. cbn [List.length] in Hc.
      assert (LY : 0 < List.length u).
      { unfold u. destruct ly as [|y l]; [congruence|]. pose proof (labels_len (y :: l) y (or_introl eq_refl)). lia. }
      destruct (rank_onto ly r) as [y [Iy Ey]]; [fold u; lia|]. apply In_nth_error in Iy as [i Hi].
      rewrite existsb_exists. exists (qn (rank ly y), 0%Q). split; [eapply nth_error_In; apply (U i y Hi)|].
      cbn [fst snd]. apply andb_true_iff. split; [apply qn_eqb; exact Ey|]. assert (c = 0) by (cbn in Hc; lia). subst c. reflexivity.
    - unfold used. rewrite map_length, seq_length. reflexivity.
    - intros i j y y' Hy Hy'. exists (qn (rank ly y)), (qn (rank ly y')). split; [auto|]. split; [auto|].
      assert (Iy : In y ly) by (eapply nth_error_In; eauto). assert (Iy' : In y' ly) by (eapply nth_error_In; eauto).
      assert (EQ : (qn (rank ly y) == qn (rank ly y'))%Q <-> y = y').
      { rewrite qn_eq. split; [apply rank_inj; assumption|intros ->; reflexivity]. }
      split; [exact EQ|].
      assert (ORD : forall s t, In s ly -> In t ly -> leb t s = false -> (qn (rank ly s) < qn (rank ly t))%Q).
      { intros s t Is It L. destruct (labels_order leb text TO ly s t s t) as (a & b & Ea & Eb & Lab); auto.
        - intros p q w _ _ Ep Eq. injection Ep as ->. injection Eq as ->. destruct TO as [T _]. destruct (T w w); assumption.
        - destruct (rank_spec ly s Is) as [_ Rs]. destruct (rank_spec ly t It) as [_ Rt].
          rewrite Rs in Ea. rewrite Rt in Eb. injection Ea as ->. injection Eb as ->.
          unfold qn. rewrite <- Zlt_Qlt. lia. }
      split; [|apply ORD; assumption]. intros L. destruct (leb y' y) eqn:E; [|reflexivity]. exfalso.
      destruct (leb y y') eqn:E2.
      + assert (y = y') by (apply AS; assumption). subst y'. elim (Qlt_irrefl _ L).
      + pose proof (ORD y' y Iy' Iy E2) as L2. elim (Qlt_irrefl (qn (rank ly y))). eapply Qlt_trans; eauto.
  Qed.

  (** Two grouping variables: there is one subplot for everything. *)
  Theorem C165_two_variables_refuted : forall (l : list (string * string)) n, List.length l = n -> 0 < n ->
    subplots leb (map (fun p => [fst p; snd p]) l) (nothing n) n = Ok (repeat (0%Q, 0%Q) n).
  Proof.
    intros l n L N. unfold subplots. unfold group_map at 1. rewrite kept_nothing. cbn [rbind].
    set (gs := map (fun p => [fst p; snd p]) l).
    assert (K : kept_groups gs = gs). { unfold gs. clear. induction l as [|p l IH]; [reflexivity|]. cbn. unfold kept_groups in IH. rewrite IH. reflexivity. }
    assert (GM : group_map leb gs = Ok []).
    { rewrite group_map_eq; [|exact K|unfold gs; destruct l; [cbn in L; lia|discriminate]]. unfold gs.
      assert (EL : exists p, In p l) by (destruct l as [|p l0]; [cbn in L; lia|exists p; now left]). destruct EL as [p EL].
      unfold discrete_ticks.
      assert (M : minors (map group_point (map (fun p => [fst p; snd p]) l)) = Some (map snd l)).
      { clear. induction l as [|p l IH]; [reflexivity|]. cbn [map group_point]. unfold minors in *. cbn [fold_right snd]. rewrite IH. reflexivity. }
      rewrite M. unfold level_of at 1.
      assert (I1 : In (snd p) (labels_of leb text (map snd l))) by (apply labels_In; exists (snd p); split; [apply in_map; exact EL|reflexivity]).
      destruct (labels_of leb text (map snd l)) as [|v0 vr]; [contradiction|]. cbn [loc_list rbind].
      assert (MF : map fst (map group_point (map (fun p => [fst p; snd p]) l)) = map fst l).
      { clear. induction l as [|p l IH]; [reflexivity|]. cbn [map group_point fst]. rewrite IH. reflexivity. }
      rewrite MF. unfold level_of.
      assert (I2 : In (fst p) (labels_of leb text (map fst l))) by (apply labels_In; exists (fst p); split; [apply in_map; exact EL|reflexivity]).
      destruct (labels_of leb text (map fst l)) as [|u0 ur]; [contradiction|]. cbn [loc_list rbind l_unique snd].
      f_equal. unfold hashmap.
      assert (P : forall es, (forall e, In e es -> snd (snd e) <> None) -> forall h, fold_left (put NoVar) es h = h).
      { induction es as [|[[i m] [j t]] es IH]; intros H h; [reflexivity|]. cbn [fold_left].
        assert (T : t <> None) by (apply (H ((i, m), (j, t))); now left). destruct t as [t|]; [|congruence].
        cbn [put place loc_list]. apply IH. intros e He. apply H. now right. }
      apply P. intros [[i m] [j t]] I. apply pairs_In in I as [_ I]. cbn [snd]. apply map_some_nth in I as [s' [-> _]]. discriminate. }
    rewrite GM. cbn [rbind]. cbn [group_index].
    assert (R : map (fun _ : nat => (0%Q, 0%Q)) (seq 0 n) = repeat (0%Q, 0%Q) n).
    { clear. assert (G : forall s, map (fun _ : nat => (0%Q, 0%Q)) (seq s n) = repeat (0%Q, 0%Q) n); [|apply G].
      induction n as [|n IH]; intros s; [reflexivity|]. cbn [seq map repeat]. now rewrite IH. }
    rewrite R. destruct n as [|n]; [lia|]. reflexivity.
  Qed.
End Groups.
Print Assumptions C165_grid_partial.
Print Assumptions C165_missing_combination_refuted.
Print Assumptions C165_rows.
Print Assumptions C165_two_variables_refuted.

Example C165_nonvacuous :
  subplots String.leb (singles ["b"; "a"; "b"; "a"]) (singles ["u"; "u"; "v"; "v"]) 4
    = Ok [(1%Q, 0%Q); (0%Q, 0%Q); (1%Q, 1%Q); (0%Q, 1%Q)]
  /\ subplots String.leb (singles ["b"; "a"]) (singles ["u"; "v"]) 2 = Raise EKey
  /\ subplots String.leb (singles ["b"; "a"]) (nothing 2) 2 = Ok [(1%Q, 0%Q); (0%Q, 0%Q)].
Proof. repeat split. Qed.
