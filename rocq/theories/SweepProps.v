(** Properties C42 (sweep configurations), C43 (experiment configurations) and
    C44 (resuming a sweep). *)
From Coq Require Import List ZArith Lia Bool Arith String Ascii.
From Verif Require Import Base ConfigTree ConfigSpec ConfigProps ConfigModify Sweep.
Import ListNotations.
Local Open Scope nat_scope.

(** * Specification *)
(** Row [k] of a coupled group: the [k]-th value of every parameter. *)
Definition is_row {A} (group : list (list A)) (row : list A) : Prop :=
  exists k, Forall2 (fun x values => nth_error values k = Some x) row group.

(** A combination: one value per isolated parameter, one row per group. *)
Definition is_combination {A} (isolated : list (list A)) (coupled : list (list (list A)))
    (c : list A) : Prop :=
  exists xs rows, c = xs ++ List.concat rows /\
    Forall2 (fun x values => In x values) xs isolated /\
    Forall2 (fun row group => is_row group row) rows coupled.

(** Sweep values that are not tuples, as given to the code. *)
Definition atoms1 {A} (l : list (list A)) : list (list (item A)) := map (map Atom) l.
Definition atoms2 {A} (l : list (list (list A))) : list (list (list (item A))) := map atoms1 l.

Definition nat_prod (l : list nat) : nat := fold_right Nat.mul 1 l.

(** * Products *)
Lemma product_In : forall (X : Type) (ls : list (list X)) c,
  In c (product ls) <-> Forall2 (fun x l => In x l) c ls.
Proof.
  induction ls as [|l ls IH]; intros c; cbn.
  - split; [intros [<-|[]]; constructor|inversion 1; auto].
  - rewrite in_flat_map. split.
    + intros (x & Hx & Hc). apply in_map_iff in Hc as (c' & <- & Hc'). constructor; auto. now apply IH.
    + inversion 1; subst. exists x. split; auto. apply in_map. now apply IH.
Qed.

Lemma flat_map_const_length : forall (X Y : Type) (f : X -> list Y) n l,
  (forall x, List.length (f x) = n) -> List.length (flat_map f l) = List.length l * n.
Proof.
  intros X Y f n l H; induction l as [|x l IH]; cbn; [reflexivity|].
  now rewrite app_length, H, IH.
Qed.

Lemma product_length : forall (X : Type) (ls : list (list X)),
  List.length (product ls) = nat_prod (map (@List.length X) ls).
Proof.
  induction ls as [|l ls IH]; cbn; [reflexivity|].
  rewrite (flat_map_const_length _ _ _ (List.length (product ls))); [now rewrite IH|].
  intros x; now rewrite map_length.
Qed.

Lemma NoDup_app_intro' : forall (A : Type) (a b : list A),
  NoDup a -> NoDup b -> (forall x, In x a -> ~ In x b) -> NoDup (a ++ b).
Proof.
  induction a as [|x a IH]; intros b Ha Hb H; cbn; auto.
  inversion Ha; subst. constructor.
  - rewrite in_app_iff. intros [|Hx]; auto. apply (H x); [left|]; auto.
  - apply IH; auto. intros y Hy. apply H; right; auto.
Qed.

Lemma product_NoDup : forall (X : Type) (ls : list (list X)),
  Forall (@NoDup X) ls -> NoDup (product ls).
Proof.
  induction ls as [|l ls IH]; intros H; cbn; [repeat constructor; cbn; tauto|].
  inversion H as [|? ? Hl Hls]; subst. specialize (IH Hls).
  clear H Hls. induction l as [|x l IHl]; cbn; [constructor|].
  inversion Hl; subst. apply NoDup_app_intro'; auto.
  - apply FinFun.Injective_map_NoDup; auto. intros a b E; congruence.
  - intros c Hc Hc2. apply in_map_iff in Hc as (c' & <- & _).
    apply in_flat_map in Hc2 as (y & Hy & Hc2). apply in_map_iff in Hc2 as (c2 & E & _).
    injection E as -> _. auto.
Qed.

Lemma product_map : forall (X Y : Type) (f : X -> Y) ls,
  map (map f) (product ls) = product (map (map f) ls).
Proof.
  induction ls as [|l ls IH]; cbn; [reflexivity|].
  rewrite <- IH. clear IH. induction l as [|x l IHl]; cbn; [reflexivity|].
  rewrite map_app, IHl, !map_map. f_equal.
Qed.

(** * Rows *)
Lemma zip_star_In : forall (X : Type) (g : list (list X)) r, g <> [] ->
  (In r (zip_star g) <-> is_row g r).
Proof.
  intros X g. induction g as [|l [|l2 g] IH]; intros r Hg; [congruence| |].
  - cbn. rewrite in_map_iff. split.
    + intros (x & <- & Hx). apply In_nth_error in Hx as [k Hk]. exists k; repeat constructor; auto.
    + intros [k H]. inversion H as [|x ? ? ? Hx H2]; subst. inversion H2; subst.
      exists x; split; auto. eapply nth_error_In; eauto.
  - cbn [zip_star]. rewrite in_map_iff. fold (zip_star (l2 :: g)).
    assert (Hrow : forall g : list (list X), g <> [] -> forall k r, nth_error (zip_star g) k = Some r <->
              Forall2 (fun x values => nth_error values k = Some x) r g).
    { clear. induction g as [|l [|l2 g] IH]; intros Hg k r; [congruence| |].
      - cbn. rewrite nth_error_map. split.
        + destruct (nth_error l k) as [x|] eqn:E; [|discriminate]. intros H; injection H as <-.
          repeat constructor; auto.
        + inversion 1 as [|x ? ? ? Hx H2]; subst. inversion H2; subst. now rewrite Hx.
      - change (zip_star (l :: l2 :: g)) with (map (fun p => fst p :: snd p) (combine l (zip_star (l2 :: g)))).
        rewrite nth_error_map.
        assert (Hc : forall (A B : Type) (a : list A) (b : list B) k, nth_error (combine a b) k =
          match nth_error a k, nth_error b k with Some x, Some y => Some (x, y) | _, _ => None end).
        { clear. induction a as [|x a IH]; intros b k; [destruct k; reflexivity|].
          destruct b as [|y b]; [destruct k; cbn; auto; destruct (nth_error a k); auto|].
          destruct k; cbn; auto. }
        rewrite Hc. split.
        + destruct (nth_error l k) as [x|] eqn:E; [|discriminate].
          destruct (nth_error (zip_star (l2 :: g)) k) as [r'|] eqn:E2; [|discriminate].
          cbn. intros H; injection H as <-. constructor; auto. now apply IH.
        + inversion 1 as [|x ? r' ? Hx H2]; subst. rewrite Hx.
          apply IH in H2; [|discriminate]. rewrite H2. reflexivity. }
    unfold is_row. split.
    + intros ([x r'] & <- & Hin). cbn [fst snd].
      assert (Hin' : In (x :: r') (zip_star (l :: l2 :: g))).
      { change (zip_star (l :: l2 :: g)) with (map (fun p => fst p :: snd p) (combine l (zip_star (l2 :: g)))).
        apply in_map_iff. exists (x, r'); auto. }
      apply In_nth_error in Hin' as [k Hk]. exists k. apply Hrow; auto.
    + intros [k H]. apply Hrow in H; auto.
      change (zip_star (l :: l2 :: g)) with (map (fun p => fst p :: snd p) (combine l (zip_star (l2 :: g)))) in H.
      apply nth_error_In in H. apply in_map_iff in H. exact H.
Qed.

Lemma zip_star_map : forall (X Y : Type) (f : X -> Y) g,
  zip_star (map (map f) g) = map (map f) (zip_star g).
Proof.
  intros X Y f. induction g as [|l [|l2 g] IH]; cbn [map]; [reflexivity| |].
  - cbn. rewrite !map_map. reflexivity.
  - change (zip_star (map f l :: map f l2 :: map (map f) g)) with
      (map (fun p => fst p :: snd p) (combine (map f l) (zip_star (map (map f) (l2 :: g))))).
    rewrite IH.
    change (zip_star (l :: l2 :: g)) with (map (fun p => fst p :: snd p) (combine l (zip_star (l2 :: g)))).
    generalize (zip_star (l2 :: g)). induction l as [|x l IHl]; intros z; cbn; [reflexivity|].
    destruct z as [|r z]; cbn; [reflexivity|]. now rewrite IHl.
Qed.

Lemma index_of_spec : forall l x, In x l -> nth_error l (index_of x l) = Some x.
Proof.
  induction l as [|y l IH]; intros x H; cbn in *; [tauto|].
  destruct (String.eqb_spec y x) as [->|Hne]; [reflexivity|]. cbn. apply IH.
  destruct H; [congruence|auto].
Qed.

(** The pairs (position, row) that are kept: the first occurrences. *)
Lemma unique_rows_eq : forall (X : Type) (str : X -> string) rows,
  unique_rows str rows =
  map snd (filter (fun p => fst p =? index_of (join_str str (snd p)) (map (join_str str) rows))
             (combine (seq 0 (List.length rows)) rows)).
Proof.
  intros X str rows. unfold unique_rows. f_equal. apply filter_ext_in.
  intros [i r] Hin. cbn [fst snd].
  assert (Hnth : nth_error (map (join_str str) rows) i = Some (join_str str r)).
  { rewrite nth_error_map.
    assert (H : forall (l : list (list X)) k, In (i, r) (combine (seq k (List.length l)) l) ->
                nth_error l (i - k) = Some r /\ k <= i).
    { clear. induction l as [|y l IH]; intros k H; cbn in *; [tauto|].
      destruct H as [E|H]; [injection E as <- <-; rewrite Nat.sub_diag; auto|].
      apply IH in H as [H1 H2]. replace (i - k) with (S (i - S k)) by lia. cbn. split; [auto|lia]. }
    apply H in Hin as [Hin _]. rewrite Nat.sub_0_r in Hin. now rewrite Hin. }
  set (strs := map (join_str str) rows) in *.
  destruct (Nat.eqb_spec i (index_of (join_str str r) strs)) as [E|Hne].
  - apply existsb_exists. exists i. split; [|apply Nat.eqb_refl].
    apply in_map_iff. exists (join_str str r). split; [auto|].
    apply nodup_In. eapply nth_error_In; eauto.
  - destruct (existsb _ _) eqn:Ex; [|reflexivity]. exfalso.
    apply existsb_exists in Ex as (j & Hj & Ej). apply Nat.eqb_eq in Ej; subst j.
    apply in_map_iff in Hj as (s & Es & Hs). apply nodup_In in Hs.
    apply index_of_spec in Hs. rewrite Es, Hnth in Hs. injection Hs as <-. congruence.
Qed.

Lemma combine_seq_fst_NoDup : forall (X : Type) (rows : list X) k,
  NoDup (map fst (combine (seq k (List.length rows)) rows)).
Proof.
  induction rows as [|r rows IH]; intros k; cbn; [constructor|]. constructor; auto.
  intros H. apply in_map_iff in H as ([i x] & E & Hin). cbn in E; subst i.
  apply in_combine_l, in_seq in Hin. lia.
Qed.

Lemma NoDup_map_filter : forall (X Y : Type) (f : X -> Y) p l,
  NoDup (map f l) -> NoDup (map f (filter p l)).
Proof.
  intros X Y f p l; induction l as [|x l IH]; intros H; cbn; auto.
  cbn in H. inversion H; subst. destruct (p x); cbn; auto. constructor; auto.
  intros Hin. apply in_map_iff in Hin as (y & E & Hy). apply filter_In in Hy as [Hy _].
  apply H2. rewrite <- E. now apply in_map.
Qed.

Lemma unique_rows_NoDup_printed : forall (X : Type) (str : X -> string) rows,
  NoDup (map (join_str str) (unique_rows str rows)).
Proof.
  intros X str rows. rewrite unique_rows_eq.
  set (strs := map (join_str str) rows).
  set (ps := filter _ _).
  assert (H : NoDup (map fst ps)).
  { unfold ps. apply NoDup_map_filter, combine_seq_fst_NoDup. }
  apply (NoDup_map_inv (fun s => index_of s strs)). rewrite !map_map.
  rewrite (map_ext_in _ fst); auto.
  intros [i r] Hin. unfold ps in Hin. apply filter_In in Hin as [_ Hin]. cbn [fst snd] in *.
  apply Nat.eqb_eq in Hin. auto.
Qed.

Lemma unique_rows_NoDup : forall (X : Type) (str : X -> string) rows, NoDup (unique_rows str rows).
Proof. intros. eapply NoDup_map_inv. apply unique_rows_NoDup_printed. Qed.

Lemma unique_rows_sub : forall (X : Type) (str : X -> string) rows r,
  In r (unique_rows str rows) -> In r rows.
Proof.
  intros X str rows r H. rewrite unique_rows_eq in H.
  apply in_map_iff in H as ([i r'] & <- & Hin). apply filter_In in Hin as [Hin _].
  now apply in_combine_r in Hin.
Qed.

Lemma unique_rows_complete : forall (X : Type) (str : X -> string) rows r,
  In r rows -> exists r', In r' (unique_rows str rows) /\ join_str str r' = join_str str r.
Proof.
  intros X str rows r Hr. set (strs := map (join_str str) rows).
  assert (Hs : In (join_str str r) strs) by (now apply in_map).
  pose proof (index_of_spec _ _ Hs) as Hi.
  set (i := index_of (join_str str r) strs) in *.
  unfold strs in Hi. rewrite nth_error_map in Hi.
  destruct (nth_error rows i) as [r'|] eqn:E; [|discriminate]. injection Hi as Hi.
  exists r'. split; auto. rewrite unique_rows_eq. apply in_map_iff. exists (i, r'). split; [reflexivity|].
  apply filter_In. split.
  - assert (H : forall (l : list (list X)) k j x, nth_error l j = Some x ->
              In (k + j, x) (combine (seq k (List.length l)) l)).
    { clear. induction l as [|y l IH]; intros k [|j] x H; cbn in *; try discriminate.
      - injection H as ->. left. f_equal. lia.
      - right. replace (k + S j) with (S k + j) by lia. auto. }
    apply (H rows 0 i r' E).
  - cbn [fst snd]. rewrite Hi. fold strs. apply Nat.eqb_refl.
Qed.

Lemma unique_rows_map : forall (X Y : Type) (f : X -> Y) (str : Y -> string) rows,
  unique_rows str (map (map f) rows) = map (map f) (unique_rows (fun x => str (f x)) rows).
Proof.
  intros X Y f str rows. rewrite !unique_rows_eq, map_length.
  assert (Hj : forall r, join_str str (map f r) = join_str (fun x => str (f x)) r).
  { intros r. unfold join_str. now rewrite map_map. }
  rewrite map_map. rewrite (map_ext (fun x => join_str str (map f x)) _ Hj).
  set (strs := map (join_str (fun x => str (f x))) rows). clearbody strs.
  generalize 0. induction rows as [|r rows IH]; intros k; cbn [List.length seq map combine filter]; [reflexivity|].
  cbn [fst snd]. rewrite Hj.
  destruct (k =? index_of (join_str (fun x => str (f x)) r) strs); cbn [map snd]; now rewrite IH.
Qed.

(** * prepare_sweep_configurations *)
Section Configurations.
Context {A : Type}.
Variable str : item A -> string.
Variable str_atom : A -> string.

Let pr (a : A) : string := str (Atom a).

(** The factors of the product, as lists of blocks of values. *)
Definition factors (iso : list (list A)) (cou : list (list (list A))) : list (list (list A)) :=
  map (map (fun a => [a])) iso ++ map (fun g => unique_rows pr (zip_star g)) cou.

Lemma expand_Atoms : forall r : list A, flat_map expand (map Atom r) = r.
Proof. induction r as [|x r IH]; cbn; [reflexivity|now rewrite IH]. Qed.

Lemma flat_map_concat : forall (X Y : Type) (f : X -> list Y) l, flat_map f l = List.concat (map f l).
Proof. intros; now rewrite flat_map_concat_map. Qed.

Lemma confs_eq : forall iso cou, (iso <> [] \/ cou <> []) ->
  prepare_sweep_configurations str str_atom (atoms1 iso) (atoms2 cou) =
  let confs := map (@List.concat A) (product (factors iso cou)) in
  let printed := map (join_str str_atom) confs in
  if List.length printed =? List.length (nodup string_dec printed) then Ok confs else Raise EExn.
Proof.
  intros iso cou Hne. unfold prepare_sweep_configurations.
  assert (H : map expand_tuple
     (if 0 <? List.length (atoms2 cou)
      then product (atoms1 iso ++ map (fun g => map Tup (unique_rows str (zip_star g))) (atoms2 cou))
      else if 0 <? List.length (atoms1 iso) then product (atoms1 iso) else [])
     = map (@List.concat A) (product (factors iso cou))).
  { assert (Hc : (if 0 <? List.length (atoms2 cou)
      then product (atoms1 iso ++ map (fun g => map Tup (unique_rows str (zip_star g))) (atoms2 cou))
      else if 0 <? List.length (atoms1 iso) then product (atoms1 iso) else [])
      = product (atoms1 iso ++ map (fun g => map Tup (unique_rows str (zip_star g))) (atoms2 cou))).
    { destruct cou as [|g cou]; [|reflexivity]. cbn [atoms2 map List.length].
      destruct iso as [|l iso]; [destruct Hne; congruence|]. cbn [atoms1 map List.length].
      rewrite app_nil_r. reflexivity. }
    rewrite Hc. unfold expand_tuple.
    rewrite (map_ext (fun t => flat_map expand t) (fun t => List.concat (map expand t)))
      by (intros; apply flat_map_concat).
    rewrite <- map_map. f_equal. rewrite product_map. f_equal. unfold factors.
    rewrite map_app. f_equal.
    - unfold atoms1. rewrite map_map. apply map_ext. intros l. rewrite map_map. reflexivity.
    - unfold atoms2. rewrite !map_map. apply map_ext. intros g. rewrite map_map.
      unfold atoms1. rewrite zip_star_map, unique_rows_map, map_map.
      rewrite (map_ext _ (fun r => r)); [apply map_id|]. intros r. cbn. apply expand_Atoms. }
  rewrite H. reflexivity.
Qed.

Lemma nodup_length_iff : forall l : list string,
  List.length l = List.length (nodup string_dec l) <-> NoDup l.
Proof.
  assert (Hle : forall l : list string, List.length (nodup string_dec l) <= List.length l).
  { induction l as [|x l IH]; cbn; [lia|]. destruct (in_dec string_dec x l); cbn; lia. }
  induction l as [|x l IH]; cbn; [split; [constructor|reflexivity]|].
  destruct (in_dec string_dec x l) as [Hin|Hni].
  - split; [specialize (Hle l); lia|]. inversion 1; contradiction.
  - cbn. split.
    + intros H. constructor; auto. apply IH; lia.
    + inversion 1; subst. f_equal. now apply IH.
Qed.

Lemma Forall2_map_r : forall (X Y Z : Type) (P : X -> Z -> Prop) (f : Y -> Z) a b,
  Forall2 P a (map f b) <-> Forall2 (fun x y => P x (f y)) a b.
Proof.
  intros X Y Z P f a b. revert a. induction b as [|y b IH]; intros a; cbn.
  - split; inversion 1; constructor.
  - split; inversion 1; subst; constructor; auto; now apply IH.
Qed.

Lemma singles_concat : forall (iso : list (list A)) cs,
  Forall2 (fun (c : list A) l => In c (map (fun a => [a]) l)) cs iso <->
  exists xs, cs = map (fun a => [a]) xs /\ Forall2 (fun x l => In x l) xs iso.
Proof.
  induction iso as [|l iso IH]; intros cs; split.
  - inversion 1; subst. exists []; split; [reflexivity|constructor].
  - intros (xs & -> & H). inversion H; subst. constructor.
  - inversion 1 as [|c ? cs' ? Hc Hcs]; subst. apply in_map_iff in Hc as (x & <- & Hx).
    apply IH in Hcs as (xs & -> & Hxs). exists (x :: xs). split; [reflexivity|constructor; auto].
  - intros (xs & -> & H). inversion H as [|x ? xs' ? Hx Hxs]; subst. cbn. constructor.
    + apply in_map_iff; eauto.
    + apply IH; eauto.
Qed.

Lemma concat_singles : forall xs : list A, List.concat (map (fun a => [a]) xs) = xs.
Proof. induction xs as [|x xs IH]; cbn; [reflexivity|now rewrite IH]. Qed.

Lemma confs_In : forall iso cou c,
  In c (map (@List.concat A) (product (factors iso cou))) <->
  exists xs rows, c = xs ++ List.concat rows /\
    Forall2 (fun x l => In x l) xs iso /\
    Forall2 (fun row g => In row (unique_rows pr (zip_star g))) rows cou.
Proof.
  intros iso cou c. rewrite in_map_iff. split.
  - intros (cs & <- & Hcs). apply product_In in Hcs. unfold factors in Hcs.
    apply Forall2_app_inv_r in Hcs as (c1 & rows & H1 & H2 & ->).
    rewrite Forall2_map_r in H1, H2. apply singles_concat in H1 as (xs & -> & Hxs).
    exists xs, rows. split; [now rewrite concat_app, concat_singles|auto].
  - intros (xs & rows & -> & Hxs & Hrows).
    exists (map (fun a => [a]) xs ++ rows). split; [now rewrite concat_app, concat_singles|].
    apply product_In. unfold factors. apply Forall2_app; rewrite Forall2_map_r; auto.
    apply singles_concat. eauto.
Qed.

End Configurations.

Lemma Forall2_in_impl : forall (X Y : Type) (P Q : X -> Y -> Prop) a b,
  (forall x y, In y b -> P x y -> Q x y) -> Forall2 P a b -> Forall2 Q a b.
Proof.
  intros X Y P Q a b H F. induction F; constructor.
  - apply H; [left; auto|auto].
  - apply IHF. intros x0 y0 Hy. apply H. right; auto.
Qed.

(** C42: if the values of the coupled groups print differently when they
    differ, an accepted sweep consists of exactly the combinations, each once,
    and their number is the product of the numbers of values and rows. *)
Theorem C42_configurations_are_the_product_partial :
  forall (A : Type) (str : item A -> string) (str_atom : A -> string)
         (iso : list (list A)) (cou : list (list (list A))) (confs : list (list A)),
  iso <> [] \/ cou <> [] ->
  Forall (fun g => g <> []) cou ->
  (forall g r1 r2, In g cou -> is_row g r1 -> is_row g r2 ->
     join_str (fun a => str (Atom a)) r1 = join_str (fun a => str (Atom a)) r2 -> r1 = r2) ->
  prepare_sweep_configurations str str_atom (atoms1 iso) (atoms2 cou) = Ok confs ->
  (forall c, In c confs <-> is_combination iso cou c) /\
  NoDup confs /\
  (exists groups_rows,
     Forall2 (fun rs g => NoDup rs /\ forall r, In r rs <-> is_row g r) groups_rows cou /\
     List.length confs = nat_prod (map (@List.length A) iso) * nat_prod (map (@List.length (list A)) groups_rows)).
Proof.
  intros A str str_atom iso cou confs Hne Hg Hsep H. rewrite confs_eq in H by exact Hne. cbn zeta in H.
  destruct (List.length _ =? List.length _) eqn:E in H; [|discriminate]. injection H as <-.
  assert (Hrow : forall g, In g cou -> forall r,
            In r (unique_rows (fun a => str (Atom a)) (zip_star g)) <-> is_row g r).
  { intros g Hin r. rewrite Forall_forall in Hg. specialize (Hg g Hin). split.
    - intros Hr. apply unique_rows_sub in Hr. now apply zip_star_In.
    - intros Hr. apply (zip_star_In A g r Hg) in Hr as Hr'.
      apply (unique_rows_complete _ (fun a => str (Atom a))) in Hr' as (r' & Hr' & Hj).
      assert (Hrr : r' = r); [|now subst].
      apply (Hsep g); auto. apply unique_rows_sub in Hr'. now apply zip_star_In. }
  split; [|split].
  - intros c. rewrite confs_In. unfold is_combination. split.
    + intros (xs & rows & -> & H1 & H2). exists xs, rows. split; [auto|split; [auto|]].
      eapply Forall2_in_impl; [|exact H2]. cbn. intros r g Hin Hr. now apply Hrow.
    + intros (xs & rows & -> & H1 & H2). exists xs, rows. split; [auto|split; [auto|]].
      eapply Forall2_in_impl; [|exact H2]. cbn. intros r g Hin Hr. now apply Hrow.
  - apply Nat.eqb_eq, nodup_length_iff, NoDup_map_inv in E. exact E.
  - exists (map (fun g => unique_rows (fun a => str (Atom a)) (zip_star g)) cou). split.
    + clear -Hrow. induction cou as [|g cou IH]; cbn; constructor.
      * split; [apply unique_rows_NoDup|]. apply Hrow. left; auto.
      * apply IH. intros g' Hin. apply Hrow. right; auto.
    + rewrite map_length, product_length. unfold factors. rewrite map_app.
      assert (Hp : forall a b, nat_prod (a ++ b) = nat_prod a * nat_prod b).
      { unfold nat_prod. induction a as [|x a IH]; intros b; cbn [app fold_right]; [lia|]. rewrite IH. lia. }
      rewrite Hp. f_equal. f_equal. rewrite map_map. apply map_ext. intros l. apply map_length.
Qed.
Print Assumptions C42_configurations_are_the_product_partial.

(** Without any hypothesis on printing: every configuration is a combination
    (coupled values stay in one row) and none occurs twice. *)
Theorem C42_configurations_are_combinations :
  forall (A : Type) (str : item A -> string) (str_atom : A -> string)
         (iso : list (list A)) (cou : list (list (list A))) (confs : list (list A)),
  iso <> [] \/ cou <> [] -> Forall (fun g => g <> []) cou ->
  prepare_sweep_configurations str str_atom (atoms1 iso) (atoms2 cou) = Ok confs ->
  NoDup confs /\ forall c, In c confs -> is_combination iso cou c.
Proof.
  intros A str str_atom iso cou confs Hne Hg H. rewrite confs_eq in H by exact Hne. cbn zeta in H.
  destruct (List.length _ =? List.length _) eqn:E in H; [|discriminate]. injection H as <-.
  split.
  - apply Nat.eqb_eq, nodup_length_iff, NoDup_map_inv in E. exact E.
  - intros c Hc. apply confs_In in Hc as (xs & rows & -> & H1 & H2). exists xs, rows.
    split; [auto|split; [auto|]]. eapply Forall2_in_impl; [|exact H2]. cbn. intros r g Hin Hr.
    rewrite Forall_forall in Hg. apply unique_rows_sub in Hr. apply zip_star_In; auto.
Qed.
Print Assumptions C42_configurations_are_combinations.

Lemma Forall2_len : forall (X Y : Type) (P : X -> Y -> Prop) a b, Forall2 P a b -> List.length a = List.length b.
Proof. intros X Y P a b F; induction F; cbn; auto. Qed.

Lemma concat_inj : forall (A : Type) (a b : list (list A)) ns,
  Forall2 (fun x n => List.length x = n) a ns -> Forall2 (fun x n => List.length x = n) b ns ->
  List.concat a = List.concat b -> a = b.
Proof.
  induction a as [|x a IH]; intros b ns Ha Hb E; inversion Ha; subst; inversion Hb as [|y n b' ns' Hy Hb'];
    subst; auto.
  cbn in E. assert (x = y).
  { apply (f_equal (firstn (List.length x))) in E.
    rewrite firstn_app, Nat.sub_diag, firstn_all, app_nil_r in E.
    rewrite <- Hy in E. rewrite firstn_app, Nat.sub_diag, firstn_all, app_nil_r in E. exact E. }
  subst y. f_equal. apply app_inv_head in E. eapply IH; eauto.
Qed.

(** Distinct values are accepted ... *)
Theorem C42_distinct_values_accepted :
  forall (A : Type) (str : item A -> string) (str_atom : A -> string)
         (iso : list (list A)) (cou : list (list (list A))),
  iso <> [] \/ cou <> [] -> Forall (fun g => g <> []) cou ->
  Forall (@NoDup A) iso ->
  (forall c1 c2, is_combination iso cou c1 -> is_combination iso cou c2 ->
     join_str str_atom c1 = join_str str_atom c2 -> c1 = c2) ->
  exists confs, prepare_sweep_configurations str str_atom (atoms1 iso) (atoms2 cou) = Ok confs.
Proof.
  intros A str str_atom iso cou Hne Hg Hnd Hsep. rewrite confs_eq by exact Hne. cbn zeta.
  set (confs := map (@List.concat A) (product (factors str iso cou))).
  assert (Hcomb : forall c, In c confs -> is_combination iso cou c).
  { intros c Hc. apply confs_In in Hc as (xs & rows & -> & H1 & H2). exists xs, rows.
    split; [auto|split; [auto|]]. eapply Forall2_in_impl; [|exact H2]. cbn. intros r g Hin Hr.
    rewrite Forall_forall in Hg. apply unique_rows_sub in Hr. apply zip_star_In; auto. }
  assert (Hn : NoDup confs).
  { unfold confs.
    assert (Hp : NoDup (product (factors str iso cou))).
    { apply product_NoDup. unfold factors. apply Forall_app. split.
      - apply Forall_map. eapply Forall_impl; [|exact Hnd]. intros l Hl.
        apply FinFun.Injective_map_NoDup; auto. intros a b E; congruence.
      - apply Forall_map. apply Forall_forall. intros g _. apply unique_rows_NoDup. }
    assert (Hlen : forall cs, In cs (product (factors str iso cou)) ->
       Forall2 (fun x n => List.length x = n) cs (map (fun _ => 1) iso ++ map (@List.length (list A)) cou)).
    { intros cs Hcs. apply product_In in Hcs. unfold factors in Hcs.
      apply Forall2_app_inv_r in Hcs as (c1 & rows & H1 & H2 & ->).
      apply Forall2_app; rewrite Forall2_map_r.
      - rewrite Forall2_map_r in H1. eapply Forall2_in_impl; [|exact H1]. cbn.
        intros x l _ Hx. apply in_map_iff in Hx as (a & <- & _). reflexivity.
      - rewrite Forall2_map_r in H2. eapply Forall2_in_impl; [|exact H2]. cbn.
        intros x g Hin Hx. apply unique_rows_sub in Hx. rewrite Forall_forall in Hg.
        apply zip_star_In in Hx as [k Hk]; auto. eapply Forall2_len; eauto. }
    revert Hp Hlen. generalize (product (factors str iso cou)) as P.
    induction P as [|cs P IH]; intros Hp Hlen; cbn; [constructor|].
    inversion Hp; subst. constructor.
    - intros Hin. apply in_map_iff in Hin as (cs' & E & Hin').
      assert (cs' = cs); [|now subst].
      eapply concat_inj; [apply Hlen; right; auto|apply Hlen; left; auto|exact E].
    - apply IH; auto. intros cs' Hcs'. apply Hlen. right; auto. }
  assert (Hpn : NoDup (map (join_str str_atom) confs)).
  { revert Hn Hcomb. generalize confs. clear -Hsep. induction confs as [|c confs IH]; intros Hn Hcomb; cbn; [constructor|].
    inversion Hn; subst. constructor.
    - intros Hin. apply in_map_iff in Hin as (c' & E & Hin').
      assert (c' = c); [|now subst]. apply Hsep; auto; apply Hcomb; [right|left]; auto.
    - apply IH; auto. intros c' Hc'. apply Hcomb. right; auto. }
  apply nodup_length_iff in Hpn. apply Nat.eqb_eq in Hpn. rewrite Hpn. eauto.
Qed.
Print Assumptions C42_distinct_values_accepted.

(** ... and a repeated value of an isolated parameter is refused (unless some
    list is empty, when there are no configurations at all). *)
Theorem C42_repeated_value_refused :
  forall (A : Type) (str : item A -> string) (str_atom : A -> string)
         (iso1 iso2 : list (list A)) (v1 v2 v3 : list A) (a : A) (cou : list (list (list A))),
  Forall (fun l => l <> []) (iso1 ++ iso2) ->
  Forall (fun g => exists r, g <> [] /\ is_row g r) cou ->
  prepare_sweep_configurations str str_atom
    (atoms1 (iso1 ++ (v1 ++ a :: v2 ++ a :: v3) :: iso2)) (atoms2 cou) = Raise EExn.
Proof.
  intros A str str_atom iso1 iso2 v1 v2 v3 a cou Hl Hg.
  rewrite confs_eq by (left; destruct iso1; discriminate). cbn zeta.
  set (l := v1 ++ a :: v2 ++ a :: v3).
  destruct (List.length _ =? List.length _) eqn:E; [|reflexivity]. exfalso.
  apply Nat.eqb_eq, nodup_length_iff, NoDup_map_inv, NoDup_map_inv in E.
  assert (Hbad : forall (X : Type) (F1 F2 : list (list X)) u1 u2 u3 (x : X),
     Forall (fun l => l <> []) (F1 ++ F2) -> ~ NoDup (product (F1 ++ (u1 ++ x :: u2 ++ x :: u3) :: F2))).
  { clear. intros X F1. induction F1 as [|f F1 IH]; intros F2 u1 u2 u3 x Hne Hn.
    - cbn in Hn, Hne.
      assert (Hex : exists c, In c (product F2)).
      { clear -Hne. induction F2 as [|f F2 IH]; [exists []; left; auto|].
        inversion Hne as [|? ? Hf HF]; subst. destruct (IH HF) as [c Hc]. destruct f as [|y f]; [congruence|].
        exists (y :: c). cbn. apply in_or_app; left. now apply in_map. }
      destruct Hex as [c Hc]. rewrite flat_map_app in Hn. cbn in Hn. rewrite flat_map_app in Hn. cbn in Hn.
      assert (Hs : forall (Y : Type) (p q r s t : list Y) y, NoDup (p ++ (q ++ (r ++ (s ++ t)))) ->
                In y q -> In y s -> False).
      { clear. intros Y p q r s t y H Hq Hs.
        assert (H2 : NoDup (q ++ (r ++ (s ++ t)))).
        { clear -H. induction p as [|z p IH]; auto. inversion H; auto. }
        apply in_split in Hq as (q1 & q2 & ->). rewrite <- app_assoc in H2. cbn in H2.
        apply NoDup_remove_2 in H2. apply H2. rewrite !in_app_iff. auto. }
      eapply (Hs _ _ _ _ _ _ (x :: c)); [exact Hn|now apply in_map|now apply in_map].
    - inversion Hne as [|? ? Hf HF]; subst. destruct f as [|y f]; [congruence|].
      cbn in Hn. apply (IH F2 u1 u2 u3 x); auto.
      set (P := product (F1 ++ (u1 ++ x :: u2 ++ x :: u3) :: F2)) in *.
      assert (H2 : NoDup (map (cons y) P)).
      { clear -Hn. revert Hn. generalize (map (cons y) P) as q, (flat_map (fun x0 : X => map (cons x0) P) f) as r.
        induction q as [|z q IH]; intros r H; [constructor|]. inversion H; subst. constructor.
        - intros Hin. apply H2. apply in_or_app; auto.
        - eapply IH; eauto. }
      now apply NoDup_map_inv in H2. }
  unfold factors in E. rewrite map_app in E. cbn [map] in E. rewrite <- app_assoc in E. cbn [app] in E.
  unfold l in E. rewrite map_app in E. cbn [map] in E. rewrite map_app in E. cbn [map] in E.
  revert E. apply Hbad.
  rewrite app_assoc, <- map_app. apply Forall_app. split.
  - apply Forall_map. eapply Forall_impl; [|exact Hl]. cbn. intros v Hv. destruct v; [congruence|discriminate].
  - apply Forall_map. eapply Forall_impl; [|exact Hg]. cbn. intros g (r & Hgne & Hr).
    apply zip_star_In in Hr; auto.
    apply (unique_rows_complete _ (fun a => str (Atom a))) in Hr as (r' & Hr' & _).
    intros E2. rewrite E2 in Hr'. destruct Hr'.
Qed.
Print Assumptions C42_repeated_value_refused.

(** Printing matters: the distinct coupled rows (1) and ("1") are merged and
    the combination with "1" is never run. *)
Theorem C42_rows_printing_alike_lost_refuted :
  exists (iso : list (list node)) (cou : list (list (list node))) confs c,
    Forall (fun g => g <> []) cou /\
    prepare_sweep_configurations py_str_item py_str (atoms1 iso) (atoms2 cou) = Ok confs /\
    is_combination iso cou c /\ ~ In c confs.
Proof.
  exists [], [[[Leaf (LNum 1); Leaf (LStr "1")]]], [[Leaf (LNum 1)]], [Leaf (LStr "1")].
  split; [repeat constructor; discriminate|]. split; [reflexivity|]. split.
  - exists [], [[Leaf (LStr "1")]]. split; [reflexivity|split; [constructor|]].
    repeat constructor. exists 1. repeat constructor.
  - intros [E|[]]. discriminate.
Qed.
Print Assumptions C42_rows_printing_alike_lost_refuted.

(** Tuple values are flattened: the configuration then has more entries than
    parameters, so later parameters get the wrong value. *)
Theorem C42_tuple_values_misaligned_refuted :
  exists (iso : list (list (item node))) confs,
    prepare_sweep_configurations py_str_item py_str iso [] = Ok confs /\
    exists c, In c confs /\ List.length c <> List.length iso.
Proof.
  exists [[Tup [Atom (Leaf (LNum 1)); Atom (Leaf (LNum 2))]]; [Atom (Leaf (LNum 3))]],
         [[Leaf (LNum 1); Leaf (LNum 2); Leaf (LNum 3)]].
  split; [reflexivity|]. eexists. split; [left; reflexivity|]. cbn. lia.
Qed.
Print Assumptions C42_tuple_values_misaligned_refuted.

Example C42_nonvacuous :
  let iso := [[Leaf (LNum 1); Leaf (LNum 2)]; [Leaf (LStr "a")]] in
  let cou := [[[Leaf (LNum 5); Leaf (LNum 6)]; [Leaf (LStr "x"); Leaf (LStr "y")]]] in
  prepare_sweep_configurations py_str_item py_str (atoms1 iso) (atoms2 cou)
  = Ok [[Leaf (LNum 1); Leaf (LStr "a"); Leaf (LNum 5); Leaf (LStr "x")];
        [Leaf (LNum 1); Leaf (LStr "a"); Leaf (LNum 6); Leaf (LStr "y")];
        [Leaf (LNum 2); Leaf (LStr "a"); Leaf (LNum 5); Leaf (LStr "x")];
        [Leaf (LNum 2); Leaf (LStr "a"); Leaf (LNum 6); Leaf (LStr "y")]].
Proof. reflexivity. Qed.

(** * prepare_experiment_config *)
Lemma set_params_ok : forall params c i s sweep,
  wf s -> Forall wf c ->
  Forall (fun p => holder s (snd p)) params ->
  ForallOrdPairs (fun p q => unrelated (snd p) (snd q)) params ->
  i + List.length params <= List.length c ->
  exists s' sweep', set_params params (ATuple c) i s sweep = Ok (s', sweep') /\ wf s' /\
    (forall j p, nth_error params j = Some p -> lookup s' (snd p) = nth_error c (i + j)) /\
    (forall q, Forall (fun p => unrelated (snd p) q) params -> lookup s' q = lookup s q) /\
    (NoDup (map fst params) ->
     forall j p, nth_error params j = Some p -> dget (KS (fst p)) sweep' = nth_error c (i + j)) /\
    (forall v, ~ In v (map fst params) -> dget (KS v) sweep' = dget (KS v) sweep).
Proof.
  induction params as [|[var path] params IH]; intros c i s sweep W Wc Hh Hu Hlen.
  - exists s, sweep. cbn. split; [reflexivity|split; [exact W|split; [|split; [auto|split; [|auto]]]]];
      intros; destruct j; discriminate.
  - cbn [set_params conf_item]. cbn [List.length] in Hlen.
    destruct (nth_error c i) as [v|] eqn:Ev; [|apply nth_error_None in Ev; lia]. cbn [rbind].
    inversion Hh as [|? ? Hh1 Hh2]; subst. inversion Hu as [|? ? Hu1 Hu2]; subst. cbn [snd] in *.
    assert (Wv : wf v) by (rewrite Forall_forall in Wc; apply Wc; eapply nth_error_In; eauto).
    destruct (path_set_effect path s v Hh1) as (s1 & E & Hl & Hq & Hw & Hp2).
    rewrite E. cbn [rbind fst].
    destruct (IH c (S i) s1 (dset (KS var) v sweep)) as (s' & sweep' & E' & W' & H1 & H2 & H3 & H4); auto.
    { rewrite Forall_forall in *. intros [x p] Hin. cbn [snd]. apply Hp2; [|apply (Hh2 (x, p) Hin)].
      apply (Hu1 (x, p)); auto. }
    { lia. }
    exists s', sweep'. split; [exact E'|split; [exact W'|split; [|split; [|split]]]].
    + intros [|j] p Hp; cbn in Hp.
      * injection Hp as <-. cbn [snd]. rewrite H2, Hl, Nat.add_0_r; [auto|].
        eapply Forall_impl; [|exact Hu1]. cbn. intros [x p] [Ha Hb]. split; auto.
      * rewrite (H1 j p Hp). f_equal. lia.
    + intros q Hall. inversion Hall; subst. rewrite H2 by auto. now apply Hq.
    + cbn [map fst]. intros Hnd. inversion Hnd; subst. intros [|j] p Hp; cbn in Hp.
      * injection Hp as <-. cbn [fst]. rewrite H4 by auto. rewrite dget_dset_same, Nat.add_0_r. auto.
      * rewrite (H3 ltac:(auto) j p Hp). f_equal. lia.
    + cbn [map fst]. intros x Hx. rewrite H4 by (intros Hin; apply Hx; right; auto).
      apply dget_dset_other. intros Ex. apply Hx. left. congruence.
Qed.

(** C43, for parameters whose paths run through dictionaries and do not
    contain each other: the experiment's configuration has every swept path at
    the value of the combination, the two switches set, and everything else
    as before; the sweep dictionary names the same values. *)
Theorem C43_experiment_config_partial : forall l params c,
  wf (Dict l) -> Forall wf c ->
  Forall (fun p => holder_exists (Dict l) (snd p)) params ->
  ForallOrdPairs (fun p q => unrelated (snd p) (snd q)) params ->
  Forall (fun p => unrelated [KS "sweep_mode"] (snd p) /\ unrelated [KS "export_samples"] (snd p)) params ->
  List.length c = List.length params ->
  exists s' sweep, prepare_experiment_config (Dict l) params (ATuple c) = Ok (s', sweep) /\
    (forall j var path v, nth_error params j = Some (var, path) -> nth_error c j = Some v ->
       reaches s' path v) /\
    reaches s' [KS "sweep_mode"] (Leaf (LBool false)) /\
    reaches s' [KS "export_samples"] (Leaf (LBool true)) /\
    (forall q w, unrelated [KS "sweep_mode"] q -> unrelated [KS "export_samples"] q ->
       Forall (fun p => unrelated (snd p) q) params -> (reaches s' q w <-> reaches (Dict l) q w)) /\
    (NoDup (map fst params) ->
     forall j var path v, nth_error params j = Some (var, path) -> nth_error c j = Some v ->
       dget (KS var) sweep = Some v).
Proof.
  intros l params c W Wc Hh Hu Hsm Hlen.
  unfold prepare_experiment_config. cbn [set_item rbind].
  set (l1 := dset (KS "sweep_mode") (Leaf (LBool false)) l).
  set (l2 := dset (KS "export_samples") (Leaf (LBool true)) l1).
  assert (W1 : wf (Dict l1)) by (apply wf_dict_dset; [exact W|constructor]).
  assert (W2 : wf (Dict l2)) by (apply wf_dict_dset; [exact W1|constructor]).
  destruct (path_set_effect [KS "sweep_mode"] (Dict l) (Leaf (LBool false)) I) as (x1 & E1 & _ & Hq1 & _ & Hp1).
  cbn in E1. injection E1 as <-. fold l1 in Hq1, Hp1.
  destruct (path_set_effect [KS "export_samples"] (Dict l1) (Leaf (LBool true)) I) as (x2 & E2 & _ & Hq2 & _ & Hp2).
  cbn in E2. injection E2 as <-. fold l2 in Hq2, Hp2.
  destruct (set_params_ok params c 0 (Dict l2) []) as (s' & sweep & E & W' & H1 & H2 & H3 & _); auto.
  { rewrite Forall_forall in *. intros p Hin. destruct (Hsm p Hin) as [Ha Hb].
    apply Hp2, Hp1; auto. apply holder_iff; auto. }
  { lia. }
  exists s', sweep. split; [exact E|split; [|split; [|split; [|split]]]].
  - intros j var path v Hj Hv. apply lookup_reaches; auto. pose proof (H1 j (var, path) Hj) as H. cbn [snd] in H. rewrite H. exact Hv.
  - apply lookup_reaches; auto. rewrite H2.
    + unfold l2, l1. cbn [lookup]. rewrite dget_dset_other by discriminate. now rewrite dget_dset_same.
    + eapply Forall_impl; [|exact Hsm]. cbn. intros p [[Ha Hb] _]. split; auto.
  - apply lookup_reaches; auto. rewrite H2.
    + unfold l2. cbn [lookup]. now rewrite dget_dset_same.
    + eapply Forall_impl; [|exact Hsm]. cbn. intros p [_ [Ha Hb]]. split; auto.
  - intros q w Ha Hb Hall. rewrite <- !lookup_reaches by auto. rewrite H2, Hq2, Hq1 by auto. tauto.
  - intros Hnd j var path v Hj Hv. pose proof (H3 Hnd j (var, path) Hj) as H. cbn [fst] in H. rewrite H. exact Hv.
Qed.
Print Assumptions C43_experiment_config_partial.

(** A swept path that passes through a list (an experiment's own settings)
    cannot be set: building the configuration raises. *)
Theorem C43_path_through_list_refuted : exists l params c w,
  wf (Dict l) /\ List.length c = List.length params /\
  Forall (fun p => reaches (Dict l) (snd p) w) params /\ params <> [] /\
  prepare_experiment_config (Dict l) params (ATuple c) = Raise EAttr.
Proof.
  set (l := [(KS "experiments", LList [Dict [(KS "seed", Leaf (LNum 7))]])]).
  exists l, [("seed"%string, [KS "experiments"; KI 0; KS "seed"])], [Leaf (LNum 1)], (Leaf (LNum 7)).
  assert (W : wf (Dict l)).
  { constructor; [repeat constructor; cbn; tauto|].
    intros k c [E|[]]; injection E as <- <-. constructor. intros c [<-|[]].
    constructor; [repeat constructor; cbn; tauto|].
    intros k c [E|[]]; injection E as <- <-; constructor. }
  split; [exact W|]. split; [reflexivity|]. split; [|split; [discriminate|reflexivity]].
  repeat constructor. cbn [snd]. now apply lookup_reaches.
Qed.
Print Assumptions C43_path_through_list_refuted.

Example C43_nonvacuous :
  let l := [(KS "inputs", Dict [(KS "seed", Dict [(KS "sweep", Leaf LNone)]); (KS "device", Leaf (LStr "cpu"))])] in
  wf (Dict l) /\
  Forall (fun p => holder_exists (Dict l) (snd p)) [("seed"%string, [KS "inputs"; KS "seed"])] /\
  prepare_experiment_config (Dict l) [("seed"%string, [KS "inputs"; KS "seed"])] (ATuple [Leaf (LNum 3)])
  = Ok (Dict [(KS "inputs", Dict [(KS "seed", Leaf (LNum 3)); (KS "device", Leaf (LStr "cpu"))]);
              (KS "sweep_mode", Leaf (LBool false)); (KS "export_samples", Leaf (LBool true))],
        [(KS "seed", Leaf (LNum 3))]).
Proof.
  intros l. assert (W : wf (Dict l)).
  { constructor; [repeat constructor; cbn; tauto|].
    intros k c [E|[]]; injection E as <- <-.
    constructor; [repeat constructor; cbn; intuition congruence|].
    intros k c [E|[E|[]]]; injection E as <- <-; [|constructor].
    constructor; [repeat constructor; cbn; tauto|].
    intros k c [E|[]]; injection E as <- <-; constructor. }
  split; [exact W|]. split; [|reflexivity].
  repeat constructor. apply holder_iff; [exact W|exact I].
Qed.

(** * Resuming *)
(** C44 is false of the code for every sweep with at least one parameter and
    one configuration, whatever files exist: resuming raises KeyError before
    anything is run. *)
Theorem C44_resume_always_fails_refuted :
  forall stringify names is_file l var path params conf confs,
  sweep_to_run true stringify names is_file (Dict l) ((var, path) :: params) (conf :: confs) = Raise EKey.
Proof. reflexivity. Qed.
Print Assumptions C44_resume_always_fails_refuted.

(** Even where trimming returns, the list that is run is the full list. *)
Theorem C44_trimmed_list_is_not_used_refuted :
  forall load stringify names is_file settings params confs run,
  sweep_to_run load stringify names is_file settings params confs = Ok run -> run = confs.
Proof.
  intros load stringify names is_file settings params confs run H. unfold sweep_to_run in H.
  destruct load; [|congruence].
  destruct (trim_sweep_configurations _ _ _ _ _ _); cbn in H; congruence.
Qed.
Print Assumptions C44_trimmed_list_is_not_used_refuted.

(** The existence test looks at the log only: missing metadata and data are
    not noticed. *)
Theorem C44_existence_test_ignores_data_refuted : exists is_file sweep_id,
  is_file ["samples"; sweep_id; "data.h5"]%string = false /\
  is_file ["samples"; sweep_id; "metadata.json"]%string = false /\
  data_exists is_file sweep_id = true.
Proof.
  exists (fun p => match p with [_; _; f] => String.eqb f "outputs.log" | _ => false end), "x"%string.
  repeat split.
Qed.
Print Assumptions C44_existence_test_ignores_data_refuted.

(** What holds: a sweep that is not resumed runs every configuration, once, in
    the order of the enumeration. *)
Theorem C44_fresh_sweep_runs_everything_partial :
  forall (str : item node -> string) stringify names is_file settings params iso cou confs,
  iso <> [] \/ cou <> [] -> Forall (fun g => g <> []) cou ->
  (forall g r1 r2, In g cou -> is_row g r1 -> is_row g r2 ->
     join_str (fun a => str (Atom a)) r1 = join_str (fun a => str (Atom a)) r2 -> r1 = r2) ->
  prepare_sweep_configurations str py_str (atoms1 iso) (atoms2 cou) = Ok confs ->
  exists run, sweep_to_run false stringify names is_file settings params confs = Ok run /\
    NoDup run /\ forall c, In c run <-> is_combination iso cou c.
Proof.
  intros str stringify names is_file settings params iso cou confs Hne Hg Hsep H.
  exists confs. split; [reflexivity|].
  destruct (C42_configurations_are_the_product_partial _ _ _ _ _ _ Hne Hg Hsep H) as (H1 & H2 & _). auto.
Qed.
Print Assumptions C44_fresh_sweep_runs_everything_partial.
