(** C193, C194, C195: sweeping the arguments of functions over a loaded array,
    slices of samples, application by group.  Theorems about FunctionSweep.v. *)
From Coq Require Import List ZArith Lia Bool Arith String Reals Lra FunctionalExtensionality.
From Verif Require Import Base PyMonad CommandLine FunctionSweep.
Import ListNotations.
Local Open Scope string_scope.
Local Open Scope Z_scope.
Local Open Scope list_scope.

(** ** Specification *)

(** One value for every swept argument. *)
Definition choice (iso : swept) (vs : list value) : Prop := Forall2 (fun kv v => In v (snd kv)) iso vs.

(** The argument [k] of the function [name] under a choice: the swept value, else
    the fixed one. *)
Definition argument (fixed : list (string * kwargs)) (iso : swept) (vs : list value) (name k : string) : option value :=
  match sget k (combine (map fst iso) vs) with
  | Some v => Some v
  | None => match sget name fixed with Some kw => sget k kw | None => None end
  end.

Definition accepts {X} (f : fn X) (k : string) : Prop := k <> f_first f /\ (f_any f = true \/ In k (f_params f)).

(** The functions applied one after the other, each to what the one before gave,
    each with its own arguments. *)
Inductive applied {X} (args : string -> string -> option value) : list (fn X) -> arr X -> arr X -> Prop :=
| applied_none : forall x, applied args [] x x
| applied_one : forall f fs x y z, (forall k, args (f_name f) k <> None -> accepts f k) ->
    f_run f (args (f_name f)) x = Ok y -> applied args fs y z -> applied args (f :: fs) x z.

(** Labels of an array: as many as levels, no two entries with the same. *)
Definition proper {X} (x : arr X) : Prop :=
  NoDup (map fst (a_rows x)) /\ forall l c, In (l, c) (a_rows x) -> List.length l = List.length (a_levels x).

(** ** Lists *)

Lemma in_strs_spec : forall k l, in_strs k l = true <-> In k l.
Proof.
  intros k l. unfold in_strs. rewrite existsb_exists. split.
  - intros (y & H & E). apply String.eqb_eq in E. subst. exact H.
  - intro H. exists k. split; [exact H|apply String.eqb_refl].
Qed.

Lemma sget_app : forall A k (a b : list (string * A)),
  sget k (a ++ b) = match sget k a with Some v => Some v | None => sget k b end.
Proof. intros A k a b. induction a as [|[k' v] a IH]; cbn; [reflexivity|]. destruct (k =? k')%string; [reflexivity|exact IH]. Qed.

Lemma sget_none : forall A k (a : list (string * A)), sget k a = None <-> ~ In k (map fst a).
Proof.
  intros A k a. induction a as [|[k' v] a IH]; cbn; [tauto|].
  destruct (String.eqb_spec k k') as [->|N].
  - split; [discriminate|intro H; destruct H; left; reflexivity].
  - rewrite IH. split; intro H; intro Q; apply H; [destruct Q as [Q|Q]; [subst; congruence|exact Q]|right; exact Q].
Qed.

Lemma sget_filter : forall A k (P : string -> bool) (a : list (string * A)),
  sget k (filter (fun kv => P (fst kv)) a) = if P k then sget k a else None.
Proof.
  intros A k P a. induction a as [|[k' v] a IH]; cbn; [destruct (P k); reflexivity|].
  destruct (P k') eqn:E; cbn.
  - destruct (String.eqb_spec k k') as [->|N]; [rewrite E; reflexivity|exact IH].
  - rewrite IH. destruct (String.eqb_spec k k') as [->|N]; [rewrite E; reflexivity|reflexivity].
Qed.

Lemma sget_merged : forall k a b, sget k (merged a b) = match sget k b with Some v => Some v | None => sget k a end.
Proof.
  intros k a b. unfold merged. rewrite sget_app. destruct (sget k b) as [v|] eqn:E; [reflexivity|].
  rewrite (sget_filter _ k (fun s => negb (in_strs s (map fst b)))).
  apply sget_none in E. destruct (in_strs k (map fst b)) eqn:Q; [apply in_strs_spec in Q; contradiction|reflexivity].
Qed.

Lemma in_product : forall A (ls : list (list A)) l, In l (prod ls) <-> Forall2 (fun s a => In a s) ls l.
Proof.
  intros A ls. induction ls as [|s ls IH]; intro l; cbn.
  - split; [intros [<-|[]]; constructor|intro H; inversion H; left; reflexivity].
  - rewrite in_flat_map. split.
    + intros (a & Ha & H). apply in_map_iff in H as (r & <- & Hr). constructor; [exact Ha|apply IH; exact Hr].
    + intro H. inversion H as [|s' a ls' r Ha Hr]; subst. exists a. split; [exact Ha|].
      apply in_map. apply IH. exact Hr.
Qed.

Lemma choice_prod : forall iso vs, choice iso vs <-> In vs (prod (map snd iso)).
Proof.
  intros iso vs. rewrite in_product. unfold choice. split; intro H.
  - induction H; cbn; constructor; assumption.
  - revert vs H. induction iso as [|kv iso IH]; intros vs H; inversion H; subst; constructor; [assumption|apply IH; assumption].
Qed.

Lemma choice_length : forall iso vs, choice iso vs -> List.length vs = List.length iso.
Proof. intros iso vs H. induction H; cbn; congruence. Qed.

Lemma lget_in : forall A l (m : list (list value * A)) a, lget l m = Some a -> In (l, a) m.
Proof.
  intros A l m a. induction m as [|[l' b] m IH]; cbn; [discriminate|].
  destruct (labels_eq_dec l l') as [->|N]; [intro H; injection H as ->; left; reflexivity|intro H; right; apply IH; exact H].
Qed.

Lemma lget_some : forall A l (m : list (list value * A)), In l (map fst m) -> exists a, lget l m = Some a.
Proof.
  intros A l m. induction m as [|[l' b] m IH]; cbn; [tauto|].
  intros H. destruct (labels_eq_dec l l') as [->|N]; [eexists; reflexivity|].
  destruct H as [H|H]; [congruence|apply IH; exact H].
Qed.

Lemma lget_nodup : forall A l (m : list (list value * A)) a, NoDup (map fst m) -> In (l, a) m -> lget l m = Some a.
Proof.
  intros A l m a ND H. destruct (lget_some _ l m) as (b & B).
  { apply (in_map fst) in H. exact H. }
  rewrite B. f_equal. apply lget_in in B. induction m as [|[l' c] m IH]; [destruct H|].
  cbn in ND. inversion ND as [|q w N1 N2]; subst. destruct H as [H|H]; destruct B as [B|B].
  - congruence.
  - injection H as -> ->. destruct N1. apply (in_map fst) in B. exact B.
  - injection B as -> ->. destruct N1. apply (in_map fst) in H. exact H.
  - apply IH; assumption.
Qed.

Lemma app_same_length : forall A (a b c d : list A), List.length a = List.length c -> a ++ b = c ++ d -> a = c /\ b = d.
Proof.
  intros A a. induction a as [|x a IH]; intros b [|y c] d L H; cbn in *; try discriminate; [split; [reflexivity|exact H]|].
  injection H as -> H. destruct (IH b c d) as [-> ->]; [lia|exact H|]. split; reflexivity.
Qed.

(** ** The composition *)

Lemma call_ok : forall X (f : fn X) kw x,
  call f kw x = if forallb (fun k => negb (String.eqb k (f_first f)) && (f_any f || in_strs k (f_params f))) (map fst kw)
                then f_run f (fun k => sget k kw) x else Raise EType.
Proof.
  intros X f kw x. unfold call. replace (forallb _ (map fst kw)) with
    (forallb (fun kv : string * value => negb (fst kv =? f_first f)%string && (f_any f || in_strs (fst kv) (f_params f))) kw); [reflexivity|].
  induction kw as [|[k v] kw IH]; cbn; [reflexivity|rewrite IH; reflexivity].
Qed.

Lemma accepted_spec : forall X (f : fn X) ks,
  forallb (fun k => negb (String.eqb k (f_first f)) && (f_any f || in_strs k (f_params f))) ks = true
  <-> forall k, In k ks -> accepts f k.
Proof.
  intros X f ks. rewrite forallb_forall. unfold accepts. split; intros H k Hk; specialize (H k Hk).
  - apply andb_true_iff in H as [H1 H2]. split.
    + intros ->. rewrite String.eqb_refl in H1. discriminate.
    + apply orb_true_iff in H2 as [H2|H2]; [left; exact H2|right; apply in_strs_spec; exact H2].
  - destruct H as [H1 H2]. apply andb_true_iff. split.
    + apply negb_true_iff. apply String.eqb_neq. exact H1.
    + apply orb_true_iff. destruct H2 as [H2|H2]; [left; exact H2|right; apply in_strs_spec; exact H2].
Qed.

Lemma keys_given : forall k (kw : list (string * value)), In k (map fst kw) <-> sget k kw <> None.
Proof.
  intros k kw. split; intro H.
  - intro N. apply sget_none in N. contradiction.
  - destruct (in_dec string_dec k (map fst kw)) as [I|I]; [exact I|]. apply sget_none in I. contradiction.
Qed.

Lemma merged_argument : forall fixed iso vs name k,
  sget k (merged (match sget name fixed with Some kw => kw | None => [] end) (combine (map fst iso) vs))
  = argument fixed iso vs name k.
Proof.
  intros. rewrite sget_merged. unfold argument. destruct (sget k (combine (map fst iso) vs)); [reflexivity|].
  destruct (sget name fixed); reflexivity.
Qed.

Lemma compose_applied : forall X fixed iso vs (fs : list (fn X)) x y,
  compose fixed (combine (map fst iso) vs) fs x = Ok y <-> applied (argument fixed iso vs) fs x y.
Proof.
  intros X fixed iso vs fs. induction fs as [|f fs IH]; intros x y; cbn [compose].
  - split; [intro H; injection H as ->; constructor|intro H; inversion H; reflexivity].
  - set (kw := merged _ _).
    assert (E : (fun k => sget k kw) = argument fixed iso vs (f_name f)).
    { apply functional_extensionality. intro k. apply merged_argument. }
    rewrite call_ok, E.
    assert (A : forallb (fun k => negb (String.eqb k (f_first f)) && (f_any f || in_strs k (f_params f))) (map fst kw) = true
      <-> forall k, argument fixed iso vs (f_name f) k <> None -> accepts f k).
    { rewrite accepted_spec. split; intros H k Hk; apply H.
      - apply keys_given. rewrite <- E in Hk. exact Hk.
      - rewrite <- E. apply keys_given. exact Hk. }
    destruct (forallb _ (map fst kw)).
    + destruct (f_run f (argument fixed iso vs (f_name f)) x) as [z|e] eqn:Z.
      * rewrite IH. split.
        -- intro H. econstructor; [apply A; reflexivity|exact Z|exact H].
        -- intro H. inversion H; subst. replace z with y0 by congruence. assumption.
      * split; [discriminate|]. intro H. inversion H; subst. congruence.
    + split; [discriminate|]. intro H. inversion H; subst.
      assert (F : false = true) by (apply A; assumption). discriminate F.
Qed.

Lemma compose_error : forall X fixed args (fs : list (fn X)) x e, compose fixed args fs x = Raise e -> e = EExn.
Proof.
  intros X fixed args fs. induction fs as [|f fs IH]; intros x e; cbn [compose]; [discriminate|].
  destruct (call f _ x) as [y|e']; [apply IH|intro H; injection H as <-; reflexivity].
Qed.

Lemma outputs_ok : forall X fixed keys (fs : list (fn X)) x vals os, outputs fixed keys fs x vals = Ok os ->
  map fst os = vals /\ forall vs y, In (vs, y) os -> compose fixed (combine keys vs) fs x = Ok y
    /\ fs <> [] /\ forall k, In k keys -> ~ In k (a_index y :: a_levels y ++ a_others y).
Proof.
  intros X fixed keys fs x vals. induction vals as [|vs vals IH]; intros os H; cbn [outputs] in H.
  - assert (os = []) by congruence. subst. split; [reflexivity|intros ? ? []].
  - unfold rbind in H. destruct (one_output fixed keys fs x vs) as [o|e] eqn:O; [|discriminate].
    destruct (outputs fixed keys fs x vals) as [os'|e] eqn:R; [|discriminate].
    assert (os = o :: os') by congruence. subst. destruct (IH os' eq_refl) as [M Q].
    unfold one_output, rbind in O. destruct (compose fixed (combine keys vs) fs x) as [y|e] eqn:C; [|discriminate].
    destruct fs as [|f fs']; [discriminate|].
    destruct (existsb _ keys) eqn:EX; [discriminate|].
    assert (o = (vs, y)) by congruence. subst o. split; [cbn; rewrite M; reflexivity|].
    intros us z [H1|H1]; [|apply Q; exact H1]. injection H1 as <- <-. split; [exact C|]. split; [discriminate|].
    intros k Hk N. assert (existsb (fun k => in_strs k (a_index y :: a_levels y ++ a_others y)) keys = true); [|congruence].
    apply existsb_exists. exists k. split; [exact Hk|apply in_strs_spec; exact N].
Qed.

Lemma combined_ok : forall X (os cs : list (list value * arr X)), combined os = Ok cs ->
  (forall o, In o cs <-> In o os) /\ cs <> [] /\
  forall vs y us z, In (vs, y) os -> In (us, z) os ->
    a_index y = a_index z /\ a_levels y = a_levels z /\ map fst (a_rows y) = map fst (a_rows z).
Proof.
  intros X os cs H. destruct os as [|[vs y] [|o2 r]]; cbn [combined] in H; [discriminate| |].
  - assert (cs = [(vs, y)]) by congruence. subst. split; [tauto|]. split; [discriminate|].
    intros a b c d [H1|[]] [H2|[]]. injection H1 as <- <-. injection H2 as <- <-. auto.
  - set (os := (vs, y) :: o2 :: r) in *.
    destruct (forallb _ (o2 :: r)); [discriminate|].
    destruct (forallb (fun o => same_index y (snd o)) (o2 :: r)) eqn:S; [|discriminate].
    assert (OI : forall A (a b : A), Ok a = Ok b -> a = b) by (intros A a b E; injection E; auto).
    apply OI in H. rewrite <- H. clear H cs. split; [intro o; rewrite <- in_rev; tauto|].
    split. { intro N. apply (f_equal (@List.length _)) in N. rewrite rev_length in N. discriminate N. }
    assert (B : forall us z, In (us, z) os ->
      a_index y = a_index z /\ a_levels y = a_levels z /\ map fst (a_rows y) = map fst (a_rows z)).
    { intros us z [Q|Q]; [injection Q as <- <-; auto|].
      rewrite forallb_forall in S. apply S in Q. unfold same_index in Q. cbn [snd] in Q.
      apply andb_true_iff in Q as [Q Q3]. apply andb_true_iff in Q as [Q1 Q2].
      apply String.eqb_eq in Q1. split; [exact Q1|].
      destruct (list_eq_dec string_dec (a_levels y) (a_levels z)); [|discriminate].
      destruct (list_eq_dec labels_eq_dec (map fst (a_rows y)) (map fst (a_rows z))); [|discriminate]. auto. }
    intros a b c d H1 H2. destruct (B a b H1) as (B1 & B2 & B3). destruct (B c d H2) as (D1 & D2 & D3).
    repeat split; congruence.
Qed.

(** ** The restacking *)

Lemma labels_at_spec : forall A (rows : list (list value * A)) i v,
  In v (labels_at rows i) <-> exists l c, In (l, c) rows /\ nth_error l i = Some v.
Proof.
  intros A rows i v. unfold labels_at. rewrite nodup_In, in_flat_map. split.
  - intros ([l c] & H & V). exists l, c. split; [exact H|]. cbn in V. destruct (nth_error l i) as [w|]; [destruct V as [->|[]]; reflexivity|destruct V].
  - intros (l & c & H & V). exists (l, c). split; [exact H|]. cbn. rewrite V. left. reflexivity.
Qed.

Lemma Forall2_seq : forall A (P : nat -> A -> Prop) l s,
  Forall2 P (seq s (List.length l)) l <-> forall i a, nth_error l i = Some a -> P (s + i)%nat a.
Proof.
  intros A P l. induction l as [|b l IH]; intro s; cbn.
  - split; [intros _ i a H; destruct i; discriminate|constructor].
  - split.
    + intros H i a E. inversion H as [|q w e t H1 H2]; subst. destruct i as [|i]; cbn in E.
      * injection E as ->. rewrite Nat.add_0_r. exact H1.
      * rewrite IH in H2. replace (s + S i)%nat with (S s + i)%nat by lia. apply H2. exact E.
    + intro H. constructor; [rewrite <- (Nat.add_0_r s); apply H; reflexivity|].
      apply IH. intros i a E. replace (S s + i)%nat with (s + S i)%nat by lia. apply H. exact E.
Qed.

Lemma Forall2_len : forall A B (P : A -> B -> Prop) l m, Forall2 P l m -> List.length l = List.length m.
Proof. intros A B P l m H. induction H; cbn; congruence. Qed.

Lemma in_grid : forall A (rows : list (list value * A)) n l,
  In l (prod (map (labels_at rows) (seq 0 n))) <->
  List.length l = n /\ forall i v, nth_error l i = Some v -> exists l' c, In (l', c) rows /\ nth_error l' i = Some v.
Proof.
  intros A rows n l. rewrite in_product.
  assert (M : forall ns, Forall2 (fun s a => In a s) (map (labels_at rows) ns) l <-> Forall2 (fun i a => In a (labels_at rows i)) ns l).
  { intro ns. split; intro H.
    - remember (map (labels_at rows) ns) as m. revert ns Heqm. induction H; intros [|i ns] E; try discriminate; constructor.
      + cbn in E. injection E as -> _. assumption.
      + apply IHForall2. cbn in E. injection E as _ E. exact E.
    - induction H; cbn; constructor; assumption. }
  rewrite M. split.
  - intro H. assert (L : List.length l = n) by (apply Forall2_len in H; rewrite seq_length in H; congruence).
    split; [exact L|]. rewrite <- L, Forall2_seq in H. intros i v E. apply labels_at_spec. apply (H i v E).
  - intros [L H]. rewrite <- L. apply Forall2_seq. intros i v E. cbn. apply labels_at_spec. apply H. exact E.
Qed.

Lemma lget_pairs : forall A (F : list value * list value -> A) n (ps : list (list value * list value)) p,
  (forall q, In q ps -> List.length (fst q) = n) -> In p ps ->
  lget (fst p ++ snd p) (map (fun q => (fst q ++ snd q, F q)) ps) = Some (F p).
Proof.
  intros A F n ps p L H. induction ps as [|q ps IH]; [destruct H|]. cbn.
  destruct (labels_eq_dec (fst p ++ snd p) (fst q ++ snd q)) as [E|N].
  - apply app_same_length in E; [|rewrite (L q), (L p); [reflexivity|exact H|left; reflexivity]].
    destruct E as [E1 E2]. f_equal. destruct p, q. cbn in *. subst. reflexivity.
  - destruct H as [->|H]; [congruence|]. apply IH; [intros r Hr; apply L; right; exact Hr|exact H].
Qed.

(** ** C193 *)

Section Sweeps.
  Context {X : Type} (x : arr X) (fs : list (fn X)) (fixed : list (string * kwargs)) (iso : swept) (dim : string).

  Lemma run_inv : forall out, apply_and_combine x fs fixed iso [] dim = Ok out ->
    exists os cs, outputs fixed (map fst iso) fs x (prod (map snd iso)) = Ok os /\ combined os = Ok cs
      /\ restack dim (map fst iso) cs = Ok out /\ iso <> [] /\ forall k, In k (map fst iso) -> ~ In k (map fst fixed).
  Proof.
    intros out H. unfold apply_and_combine in H. cbn [sweep_vals map app] in H. rewrite app_nil_r in H. unfold rbind in H.
    assert (NE : iso <> []).
    { intros ->. cbn in H. discriminate. }
    destruct iso as [|kv r] eqn:I; [contradiction|]. rewrite <- I in *. clear kv r I.
    destruct (existsb _ (map fst iso)) eqn:EX; [discriminate|].
    destruct (outputs fixed (map fst iso) fs x (prod (map snd iso))) as [os|e] eqn:O; [|discriminate].
    destruct (combined os) as [cs|e] eqn:C; [|discriminate].
    exists os, cs. repeat split; auto.
    intros k Hk N. assert (existsb (fun k => in_strs k (map fst fixed)) (map fst iso) = true); [|congruence].
    apply existsb_exists. exists k. split; [exact Hk|apply in_strs_spec; exact N].
  Qed.
End Sweeps.

(** What comes out holds, for every choice of values of the swept arguments, the
    composition of the functions under that choice, and nothing else. *)
Theorem C193_swept_partial : forall X (x : arr X) fs fixed iso dim out,
  apply_and_combine x fs fixed iso [] dim = Ok out ->
  (forall vs y, choice iso vs -> applied (argument fixed iso vs) fs x y -> proper y) ->
  (forall vs, choice iso vs -> exists y, applied (argument fixed iso vs) fs x y
     /\ a_index y = dim /\ a_levels out = a_levels y ++ map fst iso
     /\ forall ls c, List.length ls = List.length (a_levels y) ->
          (lget (ls ++ vs) (a_rows out) = Some (Some c) <-> In (ls, c) (a_rows y)))
  /\ (forall l c, In (l, Some c) (a_rows out) -> exists ls vs, l = ls ++ vs /\ choice iso vs).
Proof.
  intros X x fs fixed iso dim out H P. destruct (run_inv x fs fixed iso dim out H) as (os & cs & O & C & R & NE & _). clear H.
  destruct (outputs_ok _ _ _ _ _ _ _ O) as [M Q]. destruct (combined_ok _ _ _ C) as (IN & CN & SI).
  destruct cs as [|[v0 y0] cs']; [contradiction|]. set (cs := (v0, y0) :: cs') in *.
  assert (I0 : In (v0, y0) os) by (apply IN; left; reflexivity).
  assert (RO : a_index y0 = dim /\ out = Arr dim (a_levels y0 ++ map fst iso) (a_others y0)
     (map (fun p => (fst p ++ snd p, match lget (snd p) cs with Some z => lget (fst p) (a_rows z) | None => None end))
        (list_prod (prod (map (labels_at (a_rows y0)) (seq 0 (List.length (a_levels y0)))))
                   (prod (map (labels_at cs) (seq 0 (List.length (map fst iso)))))))).
  { unfold restack in R. unfold cs at 1 in R. destruct (String.eqb_spec dim (a_index y0)) as [E|E]; [|discriminate].
    cbn [negb] in R. split; [congruence|]. congruence. }
  destruct RO as [D RO]. clear R.
  set (old := prod (map (labels_at (a_rows y0)) (seq 0 (List.length (a_levels y0))))) in *.
  set (new := prod (map (labels_at cs) (seq 0 (List.length (map fst iso))))) in *.
  assert (PR : forall vs y, In (vs, y) os -> proper y /\ choice iso vs).
  { intros vs y I. destruct (Q _ _ I) as [Q1 _]. assert (CH : choice iso vs).
    { apply choice_prod. rewrite <- M. apply (in_map fst) in I. exact I. }
    split; [|exact CH]. apply (P vs); [exact CH|]. apply compose_applied. exact Q1. }
  assert (OL : forall ls, In ls old -> List.length ls = List.length (a_levels y0)) by (intros ls HL; apply in_grid in HL; apply HL).
  split.
  - intros vs CH. assert (V : In vs (map fst os)) by (rewrite M; apply choice_prod; exact CH).
    apply in_map_iff in V as ([vs' y] & E & I). cbn in E. subst vs'. exists y.
    destruct (Q _ _ I) as [Q1 _]. destruct (PR _ _ I) as [[ND LN] _]. destruct (SI _ _ _ _ I I0) as (S1 & S2 & S3).
    split; [apply compose_applied; exact Q1|]. split; [congruence|]. split; [rewrite RO, S2; reflexivity|].
    assert (G : lget vs cs = Some y).
    { destruct (lget_some _ vs cs) as (z & Z).
      { apply in_map_iff. exists (vs, y). split; [reflexivity|apply IN; exact I]. }
      rewrite Z. f_equal. apply lget_in in Z. apply IN in Z. destruct (Q _ _ Z) as [Q2 _]. congruence. }
    intros ls c L. rewrite RO. cbn [a_rows]. split.
    + intro E. apply lget_in in E. apply in_map_iff in E as ([ls' vs'] & E & HP). 
      cbn [fst snd] in E. apply pair_equal_spec in E as [E1 E2].
      assert (HO : In ls' old) by (apply in_prod_iff in HP; apply HP).
      apply app_same_length in E1; [|rewrite (OL _ HO), L, S2; reflexivity]. destruct E1 as [-> ->].
      rewrite G in E2. apply lget_in in E2. exact E2.
    + intro E. pose proof (lget_pairs _ (fun p => match lget (snd p) cs with Some z => lget (fst p) (a_rows z) | None => None end)
        (List.length (a_levels y0)) (list_prod old new) (ls, vs)) as LP. cbn [fst snd] in LP. rewrite LP; clear LP.
      * rewrite G. f_equal. apply lget_nodup; assumption.
      * intros [a b] HP. cbn. apply OL. apply in_prod_iff in HP. apply HP.
      * apply in_prod_iff. split.
        -- apply in_grid. split; [congruence|]. intros i v N.
           assert (LL : In ls (map fst (a_rows y0))) by (rewrite <- S3; apply (in_map fst) in E; exact E).
           apply in_map_iff in LL as ([l' c'] & E' & I'). cbn in E'. subst l'. exists ls, c'. split; assumption.
        -- apply in_grid. split; [rewrite map_length; apply choice_length; exact CH|].
           intros i v N. exists vs, y. split; [apply IN; exact I|exact N].
  - intros l c I. rewrite RO in I. cbn [a_rows] in I. apply in_map_iff in I as ([ls vs] & E & _).
    cbn [fst snd] in E. apply pair_equal_spec in E as [E1 E2]. exists ls, vs. split; [congruence|].
    destruct (lget vs cs) as [z|] eqn:G; [|discriminate]. apply lget_in in G. apply IN in G. apply (PR _ _ G).
Qed.
Print Assumptions C193_swept_partial.

Lemma outputs_defined : forall X fixed keys (fs : list (fn X)) x vals, fs <> [] ->
  (forall vs, In vs vals -> exists y, compose fixed (combine keys vs) fs x = Ok y /\
     forall k, In k keys -> ~ In k (a_index y :: a_levels y ++ a_others y)) ->
  exists os, outputs fixed keys fs x vals = Ok os.
Proof.
  intros X fixed keys fs x vals NE. induction vals as [|vs vals IH]; intro H; cbn [outputs]; [eexists; reflexivity|].
  destruct (H vs) as (y & C & F); [left; reflexivity|].
  assert (O : one_output fixed keys fs x vs = Ok (vs, y)).
  { unfold one_output, rbind. rewrite C. destruct fs as [|f fs']; [contradiction|].
    destruct (existsb _ keys) eqn:EX; [|reflexivity]. apply existsb_exists in EX as (k & K & S). apply in_strs_spec in S.
    destruct (F k K S). }
  rewrite O. destruct IH as (os & OS); [intros us U; apply H; right; exact U|].
  unfold rbind. rewrite OS. eexists; reflexivity.
Qed.

(** Something comes out when an argument is swept, each over some value, the
    choices are one or not all alike, no swept argument has the name of a function
    with fixed arguments, and for every choice the functions run, leave the entries
    of the multi-index and have no dimension or level named like a swept argument. *)
Theorem C193_defined : forall X (x : arr X) fs fixed iso dim levels labels,
  fs <> [] -> iso <> [] -> (forall kv, In kv iso -> snd kv <> []) ->
  ((forall kv, In kv iso -> List.length (snd kv) = 1%nat) \/ (exists vs us, choice iso vs /\ choice iso us /\ vs <> us)) ->
  (forall k, In k (map fst iso) -> ~ In k (map fst fixed)) ->
  (forall vs, choice iso vs -> exists y, applied (argument fixed iso vs) fs x y /\
     a_index y = dim /\ a_levels y = levels /\ map fst (a_rows y) = labels /\
     forall k, In k (map fst iso) -> ~ In k (a_index y :: a_levels y ++ a_others y)) ->
  exists out, apply_and_combine x fs fixed iso [] dim = Ok out.
Proof.
  intros X x fs fixed iso dim levels labels NF NI NV AL NC H. unfold apply_and_combine. cbn [map app sweep_vals]. rewrite app_nil_r.
  destruct iso as [|kv r] eqn:I; [contradiction|]. rewrite <- I in *. unfold rbind at 1.
  assert (EX : existsb (fun k => in_strs k (map fst fixed)) (map fst iso) = false).
  { destruct (existsb _ _) eqn:E; [|reflexivity]. apply existsb_exists in E as (k & K & S). apply in_strs_spec in S. destruct (NC k K S). }
  rewrite EX. clear EX NC.
  destruct (outputs_defined X fixed (map fst iso) fs x (prod (map snd iso)) NF) as (os & O).
  { intros vs V. apply choice_prod in V. destruct (H vs V) as (y & A & _ & _ & _ & F). exists y. split; [apply compose_applied; exact A|exact F]. }
  rewrite O. unfold rbind at 1. destruct (outputs_ok _ _ _ _ _ _ _ O) as [M Q].
  assert (G : forall vs y, In (vs, y) os -> a_index y = dim /\ a_levels y = levels /\ map fst (a_rows y) = labels).
  { intros vs y IY. destruct (Q _ _ IY) as [C _]. assert (V : choice iso vs).
    { apply choice_prod. rewrite <- M. apply (in_map fst) in IY. exact IY. }
    destruct (H vs V) as (z & A & D). apply compose_applied in A. assert (z = y) by congruence. subst. tauto. }
  assert (CB : exists cs, combined os = Ok cs /\ cs <> [] /\ forall o, In o cs -> In o os).
  { assert (CH : exists vs, choice iso vs).
    { clear - NV. induction iso as [|kv iso IH]; [exists []; constructor|].
      destruct IH as (vs & V); [intros q Hq; apply NV; right; exact Hq|].
      destruct (snd kv) as [|v l] eqn:E; [destruct (NV kv); [left; reflexivity|exact E]|].
      exists (v :: vs). constructor; [rewrite E; left; reflexivity|exact V]. }
    destruct os as [|[v0 y0] [|o2 q]].
    - destruct CH as (vs & V). apply choice_prod in V. rewrite <- M in V. destruct V.
    - eexists. split; [reflexivity|]. split; [discriminate|tauto].
    - cbn [combined]. set (os := (v0, y0) :: o2 :: q) in *.
      destruct (forallb (fun o => if labels_eq_dec v0 (fst o) then true else false) (o2 :: q)) eqn:S.
      + exfalso. destruct AL as [AL|(vs & us & V & U & N)].
        * assert (L : List.length (prod (map snd iso)) = 1%nat).
          { clear - AL. induction iso as [|kv iso IH]; [reflexivity|]. cbn.
            assert (L1 := AL kv (or_introl eq_refl)). destruct (snd kv) as [|v [|w l]]; try discriminate. cbn.
            rewrite app_nil_r, map_length. apply IH. intros p Hp. apply AL. right. exact Hp. }
          rewrite <- M in L. unfold os in L. cbn in L. lia.
        * apply N. assert (E : forall w, choice iso w -> w = v0).
          { intros w W. apply choice_prod in W. rewrite <- M in W. apply in_map_iff in W as (o & <- & W).
            destruct W as [<-|W]; [reflexivity|]. rewrite forallb_forall in S. apply S in W.
            destruct (labels_eq_dec v0 (fst o)); [congruence|discriminate]. }
          rewrite (E vs V), (E us U). reflexivity.
      + assert (T : forallb (fun o => same_index y0 (snd o)) (o2 :: q) = true).
        { apply forallb_forall. intros [w z] W. unfold same_index. cbn [snd].
          destruct (G v0 y0) as (G1 & G2 & G3); [left; reflexivity|]. destruct (G w z) as (J1 & J2 & J3); [right; exact W|].
          rewrite G1, J1, G2, J2, G3, J3, String.eqb_refl.
          destruct (list_eq_dec string_dec levels levels); [|contradiction].
          destruct (list_eq_dec labels_eq_dec labels labels); [|contradiction]. reflexivity. }
        rewrite T. exists (rev os). split; [reflexivity|]. split.
        * intro N. apply (f_equal (@List.length _)) in N. rewrite rev_length in N. discriminate N.
        * intros o Ho. apply in_rev. exact Ho. }
  destruct CB as (cs & CB & CN & CI). rewrite CB. unfold rbind.
  destruct cs as [|[v y] cs']; [contradiction|]. destruct (G v y) as (G1 & _); [apply CI; left; reflexivity|].
  unfold restack. rewrite G1, String.eqb_refl. cbn [negb]. eexists; reflexivity.
Qed.
Print Assumptions C193_defined.

(** The size of what comes out: every combination of the labels of every level,
    run or not. *)
Theorem C193_missing_refuted : exists (x : arr Z) fs iso out,
  apply_and_combine x fs [] iso [] "sweep" = Ok out /\ proper x /\ List.length (a_rows x) = 2%nat /\
  List.length (snd (hd ("", []) iso)) = 2%nat /\ List.length iso = 1%nat /\
  List.length (a_rows out) = 8%nat /\ List.length (filter (fun r => match snd r with None => true | Some _ => false end) (a_rows out)) = 4%nat.
Proof.
  exists (Arr "sweep" ["sigma"; "loss"] ["id"] [([Num 1; Num 1], 10); ([Num 2; Num 2], 20)]),
    [Fn "shift" "data" ["by"] false (fun kw x => match kw "by" with
       | Some (Num b) => Ok (Arr (a_index x) (a_levels x) (a_others x) (map (fun r => (fst r, snd r + b)) (a_rows x)))
       | _ => Raise EType end)], [("by", [Num 1; Num 2])].
  eexists. split; [vm_compute; reflexivity|]. split.
  { split; [cbn; repeat constructor; cbn; intuition discriminate|]. intros l c [H|[H|[]]]; injection H as <- <-; reflexivity. }
  repeat split.
Qed.
Print Assumptions C193_missing_refuted.

(** A fixed value for an argument that is swept is never used, and nothing is said. *)
Lemma call_fixed : forall X (f : fn X) (kw kw' args : kwargs) x,
  (forall k, sget k args = None -> sget k kw = sget k kw') -> call f (merged kw args) x = call f (merged kw' args) x.
Proof.
  intros X f kw kw' args x H. rewrite !call_ok.
  assert (E : (fun k => sget k (merged kw args)) = (fun k => sget k (merged kw' args))).
  { apply functional_extensionality. intro k. rewrite !sget_merged. destruct (sget k args) eqn:S; [reflexivity|apply H; exact S]. }
  rewrite E.
  match goal with |- (if ?a then _ else _) = (if ?b then _ else _) => assert (AB : a = b) end.
  { apply eq_true_iff_eq. rewrite !accepted_spec. split; intros Q k Hk; apply Q; apply keys_given; apply keys_given in Hk.
    - rewrite (f_equal (fun g => g k) E). exact Hk.
    - rewrite <- (f_equal (fun g => g k) E). exact Hk. }
  rewrite AB. reflexivity.
Qed.

Theorem C193_fixed_ignored_refuted : forall X (x : arr X) fs fixed fixed' iso dim,
  map fst fixed = map fst fixed' ->
  (forall name k, ~ In k (map fst iso) ->
     (match sget name fixed with Some kw => sget k kw | None => None end) = (match sget name fixed' with Some kw => sget k kw | None => None end)) ->
  apply_and_combine x fs fixed iso [] dim = apply_and_combine x fs fixed' iso [] dim.
Proof.
  intros X x fs fixed fixed' iso dim M H. unfold apply_and_combine. rewrite M.
  destruct (sweep_vals iso []) as [vals|e] eqn:SV; [|reflexivity]. unfold rbind at 1 3. cbn [map app]. rewrite app_nil_r.
  assert (LV : forall vs, In vs vals -> List.length vs = List.length iso).
  { intros vs V. cbn in SV. destruct iso as [|kv r]; [assert (vals = []) by congruence; subst; destruct V|].
    assert (vals = prod (map snd (kv :: r))) by congruence. subst. apply choice_length. apply choice_prod. exact V. }
  assert (C : forall vs, List.length vs = List.length iso -> forall (gs : list (fn X)) y,
    compose fixed (combine (map fst iso) vs) gs y = compose fixed' (combine (map fst iso) vs) gs y).
  { intros vs L gs. induction gs as [|f gs IH]; intro y; cbn [compose]; [reflexivity|].
    assert (CF : call f (merged (match sget (f_name f) fixed with Some kw => kw | None => [] end) (combine (map fst iso) vs)) y
               = call f (merged (match sget (f_name f) fixed' with Some kw => kw | None => [] end) (combine (map fst iso) vs)) y).
    { apply call_fixed. intros k K. apply sget_none in K. specialize (H (f_name f) k).
      assert (K' : ~ In k (map fst iso)).
      { intro I. apply K. clear - L I. revert vs L. induction iso as [|[a b] r IH]; intros [|v vs] L; try discriminate; [destruct I|].
        cbn. destruct I as [I|I]; [left; exact I|right; apply IH; [exact I|cbn in L; lia]]. }
      specialize (H K'). destruct (sget (f_name f) fixed), (sget (f_name f) fixed'); exact H. }
    rewrite CF. clear CF. destruct (call f _ y) as [z|e]; [apply IH|reflexivity]. }
  assert (O : outputs fixed (map fst iso) fs x vals = outputs fixed' (map fst iso) fs x vals).
  { clear SV. induction vals as [|vs vals IH]; cbn [outputs]; [reflexivity|]. unfold one_output at 1 2. unfold rbind.
    rewrite (C vs); [|apply LV; left; reflexivity]. destruct (compose fixed' _ fs x) as [y|e]; [|reflexivity].
    destruct fs as [|f fs']; [reflexivity|]. destruct (existsb _ (map fst iso)); [reflexivity|].
    rewrite IH; [reflexivity|]. intros us U. apply LV. right. exact U. }
  rewrite O. reflexivity.
Qed.
Print Assumptions C193_fixed_ignored_refuted.

(** No coupled sweep is ever run, alone or with others. *)
Theorem C193_coupled_refuted : forall X (x : arr X) fs fixed iso cpl dim, cpl <> [] ->
  apply_and_combine x fs fixed iso cpl dim = Raise EType.
Proof. intros X x fs fixed iso [|c cpl] dim H; [contradiction|reflexivity]. Qed.
Print Assumptions C193_coupled_refuted.

(** Without a sweep the functions are not applied: the result is an error. *)
Theorem C193_nothing_swept_refuted : forall X (x : arr X) fs fixed dim,
  apply_and_combine x fs fixed [] [] dim = Raise EKey.
Proof. reflexivity. Qed.
Print Assumptions C193_nothing_swept_refuted.

(** A function that does not take every swept argument, whether or not the argument
    is meant for it, makes the whole fail. *)
Theorem C193_strict_function_refuted : forall X (x : arr X) fs fixed iso dim f k,
  In f fs -> In k (map fst iso) -> ~ accepts f k -> (forall kv, In kv iso -> snd kv <> []) ->
  apply_and_combine x fs fixed iso [] dim = Raise EExn.
Proof.
  intros X x fs fixed iso dim f k F K NA NV. unfold apply_and_combine. cbn [map app sweep_vals]. rewrite app_nil_r.
  destruct iso as [|kv r] eqn:I; [destruct K|]. rewrite <- I in *. unfold rbind at 1.
  destruct (existsb _ (map fst iso)); [reflexivity|].
  destruct (prod (map snd iso)) as [|vs vals] eqn:P.
  { exfalso. assert (CH : exists vs, choice iso vs).
    { clear - NV. induction iso as [|q iso IH]; [exists []; constructor|].
      destruct IH as (vs & V); [intros p Hp; apply NV; right; exact Hp|].
      destruct (snd q) as [|v l] eqn:E; [destruct (NV q); [left; reflexivity|exact E]|].
      exists (v :: vs). constructor; [rewrite E; left; reflexivity|exact V]. }
    destruct CH as (vs & V). apply choice_prod in V. rewrite P in V. destruct V. }
  cbn [outputs]. unfold one_output.
  assert (V : choice iso vs) by (apply choice_prod; rewrite P; left; reflexivity).
  destruct (compose fixed (combine (map fst iso) vs) fs x) as [y|e] eqn:C.
  - exfalso. apply compose_applied in C. apply NA.
    assert (G : sget k (combine (map fst iso) vs) <> None).
    { rewrite sget_none. intro N. apply N. clear - K V. revert vs V. induction iso as [|[a b] q IH]; intros vs V; inversion V; subst; [destruct K|].
      cbn. destruct K as [K|K]; [left; exact K|right; apply IH; assumption]. }
    clear - C F G. induction C as [z|g gs a b c AC RU AP IH]; [destruct F|].
    destruct F as [->|F]; [|apply IH; exact F]. apply AC. unfold argument. destruct (sget k (combine (map fst iso) vs)); [discriminate|contradiction].
  - unfold rbind. rewrite (compose_error _ _ _ _ _ _ C). reflexivity.
Qed.
Print Assumptions C193_strict_function_refuted.

(** roundint of math_utils takes the data only, so it can never be in the list. *)
Corollary C193_roundint_refuted : forall A (round : A -> A) x fs fixed iso dim,
  iso <> [] -> (forall kv, In kv iso -> snd kv <> []) -> In (roundint_fn round) fs ->
  apply_and_combine x fs fixed iso [] dim = Raise EExn.
Proof.
  intros A round x fs fixed iso dim N V F. destruct iso as [|[k l] r]; [contradiction|].
  apply (C193_strict_function_refuted _ x fs fixed _ dim (roundint_fn round) k F); [left; reflexivity| |exact V].
  intros [_ [H|[]]]. discriminate H.
Qed.
Print Assumptions C193_roundint_refuted.

(** An argument named like a function with fixed arguments is taken for a clash. *)
Theorem C193_name_clash_refuted : forall X (x : arr X) fs fixed iso dim k,
  In k (map fst iso) -> In k (map fst fixed) -> apply_and_combine x fs fixed iso [] dim = Raise EExn.
Proof.
  intros X x fs fixed iso dim k K F. unfold apply_and_combine. cbn [map app sweep_vals]. rewrite app_nil_r.
  destruct iso as [|kv r] eqn:I; [destruct K|]. rewrite <- I in *. unfold rbind at 1.
  replace (existsb (fun k => in_strs k (map fst fixed)) (map fst iso)) with true; [reflexivity|].
  symmetry. apply existsb_exists. exists k. split; [exact K|apply in_strs_spec; exact F].
Qed.
Print Assumptions C193_name_clash_refuted.

(** No function at all, an empty composition, is an UnboundLocalError. *)
Theorem C193_no_function_refuted : forall X (x : arr X) fixed iso dim,
  iso <> [] -> (forall kv, In kv iso -> snd kv <> []) -> (forall k, In k (map fst iso) -> ~ In k (map fst fixed)) ->
  apply_and_combine x [] fixed iso [] dim = Raise EUnbound.
Proof.
  intros X x fixed iso dim N NV NC. unfold apply_and_combine. cbn [map app sweep_vals]. rewrite app_nil_r.
  destruct iso as [|kv r] eqn:I; [contradiction|]. rewrite <- I in *. unfold rbind at 1.
  assert (EX : existsb (fun k => in_strs k (map fst fixed)) (map fst iso) = false).
  { destruct (existsb _ _) eqn:E; [|reflexivity]. apply existsb_exists in E as (k & K & S). apply in_strs_spec in S. destruct (NC k K S). }
  rewrite EX. destruct (prod (map snd iso)) as [|vs vals] eqn:P; [|reflexivity].
  exfalso. assert (CH : exists vs, choice iso vs).
  { clear - NV. induction iso as [|q iso IH]; [exists []; constructor|].
    destruct IH as (vs & V); [intros p Hp; apply NV; right; exact Hp|].
    destruct (snd q) as [|v l] eqn:E; [destruct (NV q); [left; reflexivity|exact E]|].
    exists (v :: vs). constructor; [rewrite E; left; reflexivity|exact V]. }
  destruct CH as (vs & V). apply choice_prod in V. rewrite P in V. destruct V.
Qed.
Print Assumptions C193_no_function_refuted.

(** ** C194 *)

Definition natural (v : value) : Prop := exists n, v = Num (Z.of_nat n).

Lemma nth_select : forall A (l : list A) ps k p, (forall q, In q ps -> 0 <= q < Z.of_nat (List.length l)) ->
  nth_error ps k = Some p -> nth_error (select l ps) k = nth_error l (Z.to_nat p).
Proof.
  intros A l ps. induction ps as [|q ps IH]; intros k p B H; [destruct k; discriminate|].
  unfold select. cbn [flat_map]. destruct (nth_error l (Z.to_nat q)) as [a|] eqn:E.
  - destruct k as [|k]; cbn.
    + cbn in H. injection H as <-. congruence.
    + apply IH; [intros r R; apply B; right; exact R|exact H].
  - apply nth_error_None in E. specialize (B q (or_introl eq_refl)). lia.
Qed.

Lemma select_length : forall A (l : list A) ps, (forall q, In q ps -> 0 <= q < Z.of_nat (List.length l)) ->
  List.length (select l ps) = List.length ps.
Proof.
  intros A l ps. induction ps as [|q ps IH]; intro B; [reflexivity|]. unfold select. cbn [flat_map].
  rewrite app_length. change (flat_map _ ps) with (select l ps). rewrite IH; [|intros r R; apply B; right; exact R].
  destruct (nth_error l (Z.to_nat q)) eqn:E; [reflexivity|]. apply nth_error_None in E.
  specialize (B q (or_introl eq_refl)). lia.
Qed.

Lemma nth_map_seq : forall B (f : nat -> B) n k, nth_error (map f (seq 0 n)) k = if (k <? n)%nat then Some (f k) else None.
Proof.
  intros B f n k. destruct (Nat.ltb_spec k n) as [H|H].
  - rewrite nth_error_map, (nth_error_nth' _ 0%nat); [|rewrite seq_length; exact H]. rewrite seq_nth by exact H. reflexivity.
  - apply nth_error_None. rewrite map_length, seq_length. exact H.
Qed.

(** Element [k] of a slice from [s] to [e] in steps of [st] is element s + k st of
    the samples, as long as that is before [e] and among the samples. *)
Theorem C194_slice_elements : forall A (l : list A) s e st k, 0 <= s -> 0 <= e -> 0 < st ->
  nth_error (select l (slice_positions (Z.of_nat (List.length l)) s e st)) k =
  if s + Z.of_nat k * st <? Z.min e (Z.of_nat (List.length l)) then nth_error l (Z.to_nat (s + Z.of_nat k * st)) else None.
Proof.
  intros A l s e st k Hs He Hst. set (n := Z.of_nat (List.length l)). assert (Hn : 0 <= n) by (unfold n; lia).
  unfold slice_positions. replace (0 <? st) with true by (symmetry; apply Z.ltb_lt; lia).
  replace (s <? 0) with false by (symmetry; apply Z.ltb_ge; lia). replace (e <? 0) with false by (symmetry; apply Z.ltb_ge; lia).
  rewrite (Z.min_comm n e). destruct (Z.ltb_spec (Z.min n s) (Z.min e n)) as [H|H].
  - assert (M : Z.min n s = s) by lia. rewrite M in *.
    set (c := Z.to_nat ((Z.min e n - s - 1) / st + 1)).
    assert (C : forall j, (j < c)%nat <-> s + Z.of_nat j * st < Z.min e n).
    { intro j. unfold c. assert (Q : 0 <= (Z.min e n - s - 1) / st) by (apply Z.div_pos; lia).
      pose proof (Z.div_mod (Z.min e n - s - 1) st ltac:(lia)) as D. pose proof (Z.mod_pos_bound (Z.min e n - s - 1) st Hst) as MB.
      set (q := (Z.min e n - s - 1) / st) in *. clearbody q.
      split; intro J.
      - assert (Z.of_nat j <= q) by lia. nia.
      - assert (Z.of_nat j <= q); [|lia]. destruct (Z_le_gt_dec (Z.of_nat j) q) as [G|G]; [exact G|]. exfalso. nia. }
    assert (B : forall p, In p (map (fun j => s + Z.of_nat j * st) (seq 0 c)) -> 0 <= p < Z.of_nat (List.length l)).
    { intros p P. apply in_map_iff in P as (j & <- & J). apply in_seq in J. cbn in J. assert (J' : (j < c)%nat) by lia.
      apply C in J'. fold n. nia. }
    destruct (Z.ltb_spec (s + Z.of_nat k * st) (Z.min e n)) as [K|K].
    + rewrite (nth_select _ _ _ _ (s + Z.of_nat k * st) B); [reflexivity|].
      rewrite nth_map_seq. apply C in K. apply Nat.ltb_lt in K. rewrite K. reflexivity.
    + apply nth_error_None. rewrite select_length by exact B. rewrite map_length, seq_length.
      destruct (le_lt_dec c k) as [G|G]; [exact G|]. apply C in G. lia.
  - destruct (Z.ltb_spec (s + Z.of_nat k * st) (Z.min e n)) as [K|K]; [|destruct k; reflexivity].
    exfalso. assert (0 <= Z.of_nat k * st) by nia. lia.
Qed.
Print Assumptions C194_slice_elements.

Lemma nth_firstn : forall A (l : list A) n k, nth_error (firstn n l) k = if (k <? n)%nat then nth_error l k else None.
Proof.
  intros A l. induction l as [|a l IH]; intros [|n] [|k]; try reflexivity; cbn.
  - destruct n; [reflexivity|]. destruct (k <=? n)%nat; reflexivity.
  - rewrite IH. reflexivity.
Qed.

Lemma nth_ext : forall A (l m : list A), (forall k, nth_error l k = nth_error m k) -> l = m.
Proof.
  intros A l. induction l as [|a l IH]; intros [|b m] H; [reflexivity|specialize (H 0%nat); discriminate|specialize (H 0%nat); discriminate|].
  f_equal; [specialize (H 0%nat); cbn in H; congruence|]. apply IH. intro k. apply (H (S k)).
Qed.

Lemma select_first : forall A (l : list A) n,
  select l (slice_positions (Z.of_nat (List.length l)) 0 (Z.of_nat n) 1) = firstn n l.
Proof.
  intros A l n. apply nth_ext. intro k. rewrite C194_slice_elements by lia. rewrite nth_firstn.
  replace (0 + Z.of_nat k * 1) with (Z.of_nat k) by lia. rewrite Nat2Z.id.
  destruct (Z.ltb_spec (Z.of_nat k) (Z.min (Z.of_nat n) (Z.of_nat (List.length l)))) as [H|H];
    destruct (Nat.ltb_spec k n) as [K|K]; try reflexivity; try lia.
  symmetry. apply nth_error_None. lia.
Qed.

(** The slice that ends at [n] keeps the first [n] samples of every entry. *)
Theorem C194_first_samples_partial : forall A (x : arr (list A)) kw d n,
  kw "dim" = Some (Text d) -> In d (a_index x :: a_others x) -> kw "start" = None -> kw "step" = None -> kw "end" = Some (Num (Z.of_nat n)) ->
  exists y, islice kw x = Ok y /\ a_index y = a_index x /\ a_levels y = a_levels x /\ a_others y = a_others x
    /\ a_rows y = map (fun r => (fst r, firstn n (snd r))) (a_rows x).
Proof.
  intros A x kw d n D I S T E. unfold islice. rewrite D, S, T, E.
  assert (M : in_strs d (a_index x :: a_others x) = true) by (apply in_strs_spec; exact I). rewrite M. cbn [negb rbind].
  change (1 =? 0) with false. cbn match. eexists. split; [reflexivity|]. cbn [a_index a_levels a_others a_rows].
  split; [reflexivity|]. split; [reflexivity|]. split; [reflexivity|].
  apply map_ext. intros [l c]. cbn [fst snd]. rewrite select_first. reflexivity.
Qed.
Print Assumptions C194_first_samples_partial.

(** Without an end, the default, the slice fails. *)
Theorem C194_no_end_refuted : forall A (x : arr (list A)) kw d,
  kw "dim" = Some (Text d) -> In d (a_index x :: a_others x) -> (kw "start" = None \/ exists s, kw "start" = Some (Num s)) ->
  kw "end" = None \/ kw "end" = Some Nothing -> islice kw x = Raise EType.
Proof.
  intros A x kw d D I S E. unfold islice. rewrite D.
  assert (M : in_strs d (a_index x :: a_others x) = true) by (apply in_strs_spec; exact I). rewrite M. cbn [negb].
  destruct S as [S|(s & S)]; rewrite S; cbn [rbind]; destruct E as [E|E]; rewrite E; reflexivity.
Qed.
Print Assumptions C194_no_end_refuted.

(** A step of zero is refused, as is a step or a start that is not a number. *)
Theorem C194_bad_step_refused : forall A (x : arr (list A)) kw d e,
  kw "dim" = Some (Text d) -> In d (a_index x :: a_others x) -> kw "end" = Some (Num e) ->
  (kw "step" = Some (Num 0) -> is_ok (islice kw x) = false) /\
  (forall t, kw "step" = Some (Text t) -> is_ok (islice kw x) = false) /\
  (forall t, kw "start" = Some (Text t) -> is_ok (islice kw x) = false).
Proof.
  intros A x kw d e D I E. unfold islice. rewrite D, E.
  assert (M : in_strs d (a_index x :: a_others x) = true) by (apply in_strs_spec; exact I). rewrite M. cbn [negb].
  split; [|split]; intros.
  - rewrite H. destruct (kw "start") as [[z|t|]|]; reflexivity.
  - rewrite H. destruct (kw "start") as [[z|t'|]|]; reflexivity.
  - rewrite H. reflexivity.
Qed.
Print Assumptions C194_bad_step_refused.

(** The mean of a list of samples. *)
Definition mean_is (l : list R) (m : list R) : Prop :=
  match l with [] => m = [] | _ => exists v, m = [v] /\ (v * INR (List.length l) = fold_right Rplus 0 l)%R end.

Lemma mean_of_is : forall l, mean_is l (mean_of l).
Proof.
  intros [|a l]; [reflexivity|]. unfold mean_is, mean_of. eexists. split; [reflexivity|]. field.
  apply not_0_INR. discriminate.
Qed.

(** The sweep of figure 2: over the number of samples, the mean of the samples so
    far.  What comes out holds at every entry and every number of samples [n] the
    mean of the first [n] samples of the entry. *)
Theorem C194_cumulative_mean : forall (x : arr (list R)) ends,
  proper x -> In "id" (a_others x) -> ~ In "end" (a_index x :: a_levels x ++ a_others x) ->
  ends <> [] -> Forall natural ends -> NoDup ends ->
  exists out, apply_and_combine x [islice_fn; sample_mean_fn] [("islice", [("dim", Text "id")]); ("sample_mean", [("dim", Text "id")])]
      [("end", ends)] [] (a_index x) = Ok out /\ a_levels out = a_levels x ++ ["end"] /\
    forall ls samples n, In (ls, samples) (a_rows x) -> In (Num (Z.of_nat n)) ends ->
      exists m, lget (ls ++ [Num (Z.of_nat n)]) (a_rows out) = Some (Some m) /\ mean_is (firstn n samples) m.
Proof.
  intros x ends PX ID NE EN NAT ND.
  set (fixed := [("islice", [("dim", Text "id")]); ("sample_mean", [("dim", Text "id")])]).
  set (cut := fun n => Arr (a_index x) (a_levels x) (filter (fun o => negb (String.eqb "id" o)) (a_others x))
      (map (fun r => (fst r, mean_of (firstn n (snd r)))) (a_rows x))).
  assert (RUN : forall n y, applied (argument fixed [("end", ends)] [Num (Z.of_nat n)]) [islice_fn; sample_mean_fn] x y <-> y = cut n).
  { intros n y.
    destruct (C194_first_samples_partial R x (argument fixed [("end", ends)] [Num (Z.of_nat n)] "islice") "id" n) as (z & Z & Z1 & Z2 & Z3 & Z4); try reflexivity.
    { right. exact ID. }
    assert (SM : sample_mean (argument fixed [("end", ends)] [Num (Z.of_nat n)] "sample_mean") z = Ok (cut n)).
    { unfold sample_mean. change (argument fixed [("end", ends)] [Num (Z.of_nat n)] "sample_mean" "dim") with (Some (Text "id")). cbn match.
      assert (M : in_strs "id" (a_others z) = true) by (apply in_strs_spec; rewrite Z3; exact ID). rewrite M. cbn [negb].
      rewrite Z1, Z2, Z3, Z4, map_map. reflexivity. }
    split.
    - intro H. inversion H as [|f fs a b c AC RU AP]; subst. inversion AP as [|f' fs' a' b' c' AC' RU' AP']; subst. inversion AP'; subst.
      cbn [f_run islice_fn f_name] in RU. rewrite Z in RU. assert (z = b) by congruence. subst.
      cbn [f_run sample_mean_fn f_name] in RU'. rewrite SM in RU'. congruence.
    - intros ->. econstructor; [|exact Z|econstructor; [|exact SM|constructor]].
      + intros k Hk. unfold accepts. cbn [islice_fn f_first f_any]. split; [|left; reflexivity]. intros ->. apply Hk. reflexivity.
      + intros k Hk. unfold accepts. cbn [sample_mean_fn f_first f_any]. split; [|left; reflexivity]. intros ->. apply Hk. reflexivity. }
  assert (CH : forall vs, choice [("end", ends)] vs -> exists n, vs = [Num (Z.of_nat n)] /\ In (Num (Z.of_nat n)) ends).
  { intros vs V. inversion V as [|kv v r vs' IV RV]; subst. inversion RV; subst. cbn in IV.
    rewrite Forall_forall in NAT. destruct (NAT _ IV) as (n & ->). exists n. split; [reflexivity|exact IV]. }
  assert (HC : forall v, In v ends -> choice [("end", ends)] [v]) by (intros v V; constructor; [exact V|constructor]).
  assert (KEYS : forall n, map fst (a_rows (cut n)) = map fst (a_rows x)).
  { intro n. cbn. rewrite map_map. reflexivity. }
  destruct (C193_defined _ x [islice_fn; sample_mean_fn] fixed [("end", ends)] (a_index x) (a_levels x) (map fst (a_rows x))) as (out & OUT).
  - discriminate.
  - discriminate.
  - intros kv [<-|[]]. exact EN.
  - destruct ends as [|a [|b r]]; [contradiction| |].
    + left. intros kv [<-|[]]. reflexivity.
    + right. exists [a], [b]. split; [apply HC; left; reflexivity|]. split; [apply HC; right; left; reflexivity|].
      intro Q. inversion ND as [|q w N1 N2]; subst. apply N1. injection Q as ->. left. reflexivity.
  - intros k [<-|[]]. cbn. intros [Q|[Q|[]]]; discriminate.
  - intros vs V. destruct (CH vs V) as (n & -> & _). exists (cut n). split; [apply RUN; reflexivity|].
    split; [reflexivity|]. split; [reflexivity|]. split; [apply KEYS|].
    intros k [<-|[]] Q. apply NE. destruct Q as [Q|Q]; [left; exact Q|]. right. apply in_app_iff in Q. apply in_app_iff.
    destruct Q as [Q|Q]; [left; exact Q|right]. cbn in Q. apply filter_In in Q. apply Q.
  - exists out. split; [exact OUT|].
    assert (PC : forall n, proper (cut n)).
    { intro n. destruct PX as [P1 P2]. split; [rewrite KEYS; exact P1|]. intros l c I. cbn in I. apply in_map_iff in I as ([l' c'] & E & I).
      apply pair_equal_spec in E as [<- _]. apply (P2 l' c' I). }
    destruct (C193_swept_partial _ _ _ _ _ _ _ OUT) as [SW _].
    { intros vs y V A. destruct (CH vs V) as (n & -> & _). apply RUN in A. subst. apply PC. }
    split.
    + destruct ends as [|v0 r0]; [contradiction|]. destruct (SW [v0]) as (y & A & _ & L & _); [apply HC; left; reflexivity|].
      rewrite L. rewrite Forall_forall in NAT. destruct (NAT v0) as (n & ->); [left; reflexivity|]. apply RUN in A. subst. reflexivity.
    + intros ls samples n I J. destruct (SW [Num (Z.of_nat n)]) as (y & A & _ & _ & E); [apply HC; exact J|].
      apply RUN in A. subst. exists (mean_of (firstn n samples)). split; [|apply mean_of_is].
      apply E; [destruct PX as [_ P2]; apply (P2 ls samples I)|]. cbn. apply in_map_iff. exists (ls, samples). split; [reflexivity|exact I].
Qed.
Print Assumptions C194_cumulative_mean.

(** A number of samples beyond those there are is accepted as a label: the entry
    repeats the mean of all the samples. *)
Theorem C194_beyond_refuted : forall (x : arr (list R)) ends out ls samples n n',
  proper x -> In "id" (a_others x) -> ~ In "end" (a_index x :: a_levels x ++ a_others x) ->
  Forall natural ends -> NoDup ends -> In (ls, samples) (a_rows x) ->
  apply_and_combine x [islice_fn; sample_mean_fn] [("islice", [("dim", Text "id")]); ("sample_mean", [("dim", Text "id")])]
      [("end", ends)] [] (a_index x) = Ok out ->
  In (Num (Z.of_nat n)) ends -> In (Num (Z.of_nat n')) ends -> (List.length samples <= n)%nat -> (List.length samples <= n')%nat ->
  exists m, lget (ls ++ [Num (Z.of_nat n)]) (a_rows out) = Some (Some m) /\ lget (ls ++ [Num (Z.of_nat n')]) (a_rows out) = Some (Some m)
    /\ mean_is samples m.
Proof.
  intros x ends out ls samples n n' PX ID NE NAT ND I OUT J J' L L'.
  destruct (C194_cumulative_mean x ends PX ID NE) as (out' & OUT' & _ & G); [intros ->; destruct J|exact NAT|exact ND|].
  assert (out' = out) by congruence. subst. destruct (G ls samples n I J) as (m & E & M). destruct (G ls samples n' I J') as (m' & E' & M').
  rewrite firstn_all2 in M by exact L. rewrite firstn_all2 in M' by exact L'. exists m. split; [exact E|]. split; [|exact M].
  rewrite E'. do 2 f_equal. destruct samples as [|a s]; [cbn in *; congruence|]. destruct M as (v & -> & V). destruct M' as (v' & -> & V').
  f_equal. apply (Rmult_eq_reg_r (INR (List.length (a :: s)))); [congruence|]. apply not_0_INR. discriminate.
Qed.
Print Assumptions C194_beyond_refuted.

(** ** C195 *)

Definition plain (t : argtree) : Prop := exists a, t = Dict a /\ forall k s, In (k, s) a -> exists v, s = Value v.

(** Grouping by levels of the sweep, with one group: the arguments given under the
    labels of the group at those levels. *)
Lemma all_some_map : forall A B (f : A -> option B) l, (forall a, In a l -> f a <> None) ->
  exists bs, all_some (map f l) = Some bs /\ Forall2 (fun a b => f a = Some b) l bs.
Proof.
  intros A B f l. induction l as [|a l IH]; intro H; cbn.
  - exists []. split; [reflexivity|constructor].
  - destruct (f a) as [b|] eqn:E; [|destruct (H a (or_introl eq_refl) E)].
    destruct IH as (bs & Q & F); [intros c C; apply H; right; exact C|]. rewrite Q. exists (b :: bs). split; [reflexivity|constructor; assumption].
Qed.

Lemma position_spec : forall d l, In d l -> (position d l < List.length l)%nat /\ nth_error l (position d l) = Some d.
Proof.
  intros d l. induction l as [|k l IH]; intro H; [destruct H|]. cbn. destruct (String.eqb_spec d k) as [->|N].
  - split; [lia|reflexivity].
  - destruct H as [H|H]; [congruence|]. destruct (IH H) as [I1 I2]. split; [lia|exact I2].
Qed.

Lemma filter_all : forall A (P : A -> bool) l, (forall a, In a l -> P a = true) -> filter P l = l.
Proof.
  intros A P l. induction l as [|a l IH]; intro H; [reflexivity|]. cbn. rewrite H by (left; reflexivity).
  f_equal. apply IH. intros b B. apply H. right. exact B.
Qed.
Lemma filter_none : forall A (P : A -> bool) l, (forall a, In a l -> P a = false) -> filter P l = [].
Proof.
  intros A P l. induction l as [|a l IH]; intro H; [reflexivity|]. cbn. rewrite H by (left; reflexivity).
  apply IH. intros b B. apply H. right. exact B.
Qed.

Theorem C195_one_group_partial : forall G levels others dims d label (g : G),
  (forall k, In k dims -> In k levels) -> (forall k, In k levels -> ~ In k others) -> List.length label = List.length levels ->
  (forall k s, In (k, s) d -> exists a, s = Dict a) -> NoDup (map fst d) ->
  forall key a, In (key, Dict a) d ->
  Forall2 (fun dim v => exists i, nth_error levels i = Some dim /\ nth_error label i = Some v) dims key ->
  NoDup levels ->
  apply_by_group levels others dims (Dict d) [(label, g)] = Ok [(g, Dict a)].
Proof.
  intros G levels others dims d label g S O L FD ND key a I F NL. unfold apply_by_group. cbn [by_group].
  assert (SL : sublabel levels others dims label = Ok key).
  { unfold sublabel, group_dimensions. rewrite (filter_all _ (fun k => in_strs k levels) dims) by (intros k K; apply in_strs_spec; apply S; exact K).
    rewrite (filter_none _ _ dims).
    2:{ intros k K. apply andb_false_iff. left. destruct (in_strs k others) eqn:E; [|reflexivity]. apply in_strs_spec in E. destruct (O k (S k K) E). }
    rewrite app_nil_r.
    assert (M : forall ks vs, (forall k, In k ks -> In k levels) -> Forall2 (fun dim v => exists i, nth_error levels i = Some dim /\ nth_error label i = Some v) ks vs ->
      all_some (map (fun d0 => if in_strs d0 levels then nth_error label (position d0 levels) else nth_error label (List.length levels - 1 + position d0 [])) ks) = Some vs).
    { intros ks vs SS H. induction H as [|k v ks vs (i & E1 & E2) H IH]; cbn [map all_some]; [reflexivity|].
      assert (K : In k levels) by (apply SS; left; reflexivity).
      rewrite (proj2 (in_strs_spec k levels) K).
      destruct (position_spec k levels K) as [P1 P2].
      assert (position k levels = i).
      { apply (proj1 (NoDup_nth_error levels) NL); [exact P1|congruence]. }
      subst i. rewrite E2, IH; [reflexivity|]. intros q Q. apply SS. right. exact Q. }
    rewrite (M dims key S F). reflexivity. }
  rewrite SL. cbn [rbind]. assert (E : lget key d = Some (Dict a)) by (apply lget_nodup; assumption). rewrite E. reflexivity.
Qed.
Print Assumptions C195_one_group_partial.

(** With more than one group nothing comes out, whatever the arguments given for
    the groups. *)
Theorem C195_groups_refuted : forall G levels others dims d (g1 g2 : list value * G) r, (forall k s, In (k, s) d -> plain s) ->
  forall out, apply_by_group levels others dims (Dict d) (g1 :: g2 :: r) <> Ok out.
Proof.
  intros G levels others dims d [l1 g1] [l2 g2] r P out H. unfold apply_by_group in H. cbn [by_group] in H. unfold rbind in H.
  destruct (sublabel levels others dims l1) as [k1|e]; [|discriminate].
  destruct (lget k1 d) as [[v|a]|] eqn:E; try discriminate.
  apply lget_in in E. destruct (P _ _ E) as (a' & Q & V). injection Q as <-.
  destruct (sublabel levels others dims l2) as [k2|e]; [|discriminate].
  destruct (lget k2 a) as [[v|b]|] eqn:E2; try discriminate. apply lget_in in E2. destruct (V _ _ E2) as (v & N). discriminate N.
Qed.
Print Assumptions C195_groups_refuted.

(** Grouped by a dimension outside the sweep, the arguments are looked up under the
    last label of the sweep instead of the label of the dimension. *)
Theorem C195_outside_refuted : forall levels others d label last v, In d others -> ~ In d levels ->
  S (List.length label) = List.length levels ->
  sublabel levels others [d] (label ++ [last; v]) = Ok [last].
Proof.
  intros levels others d label last v O N L. unfold sublabel, group_dimensions.
  assert (F : in_strs d levels = false) by (destruct (in_strs d levels) eqn:E; [apply in_strs_spec in E; contradiction|reflexivity]).
  cbn [filter]. rewrite F. assert (T : in_strs d others = true) by (apply in_strs_spec; exact O). rewrite T.
  cbn [in_strs existsb negb andb app map position all_some]. rewrite F, String.eqb_refl.
  replace (List.length levels - 1 + 0)%nat with (List.length label) by lia.
  rewrite nth_error_app2 by lia. rewrite Nat.sub_diag. reflexivity.
Qed.
Print Assumptions C195_outside_refuted.

(** ** The hypotheses are met *)

Definition scale_fn : fn Z := Fn "scale" "data" ["by"; "to"] false (fun kw x => match kw "by" with
  | Some (Num b) => Ok (Arr (a_index x) (a_levels x) (a_others x) (map (fun r => (fst r, snd r * b)) (a_rows x)))
  | _ => Raise EType end).
Definition shift_fn : fn Z := Fn "shift" "data" ["to"] true (fun kw x => match kw "to" with
  | Some (Num b) => Ok (Arr (a_index x) (a_levels x) (a_others x) (map (fun r => (fst r, snd r + b)) (a_rows x)))
  | _ => Raise EType end).
Definition two_runs : arr Z := Arr "sweep" ["sigma"] ["id"] [([Text "low"], 10); ([Text "high"], 20)].

(** (scaled by 2 or 3, then shifted by the swept amount; a fixed amount is ignored) *)
Example C193_nonvacuous :
  apply_and_combine two_runs [scale_fn; shift_fn] [("scale", [("by", Num 2)]); ("shift", [("to", Num 1000)])]
    [("to", [Num 1; Num 2])] [] "sweep"
  = Ok (Arr "sweep" ["sigma"; "to"] ["id"]
      [([Text "low"; Num 2], Some 22); ([Text "low"; Num 1], Some 21); ([Text "high"; Num 2], Some 42); ([Text "high"; Num 1], Some 41)])
  /\ proper two_runs
  /\ apply_and_combine two_runs [scale_fn; shift_fn] [("shift", [("to", Num 1000)])] [("by", [Num 2; Num 3])] [] "sweep"
  = Ok (Arr "sweep" ["sigma"; "by"] ["id"]
      [([Text "low"; Num 3], Some 1030); ([Text "low"; Num 2], Some 1020); ([Text "high"; Num 3], Some 1060); ([Text "high"; Num 2], Some 1040)])
  /\ apply_and_combine two_runs [shift_fn] [] [("to", [Num 1; Num 1])] [] "sweep" = Raise EValue
  /\ apply_and_combine two_runs [shift_fn] [] [("to", [Num 1; Num 1; Num 2])] [] "sweep"
     = Ok (Arr "sweep" ["sigma"; "to"] ["id"]
      [([Text "low"; Num 2], Some 12); ([Text "low"; Num 1], Some 11); ([Text "high"; Num 2], Some 22); ([Text "high"; Num 1], Some 21)])
  /\ apply_and_combine two_runs [shift_fn] [] [("sigma", [Num 1])] [] "sweep" = Raise EExn
  /\ apply_and_combine two_runs [shift_fn] [("shift", [("to", Num 1)])] [("sigma", [Num 1])] [] "sweep" = Raise EValue
  /\ apply_and_combine two_runs [shift_fn] [("other", [("to", Num 1)])] [("to", [Num 1])] [] "iter" = Raise EKey
  /\ apply_and_combine two_runs [shift_fn] [("to", [("to", Num 1)])] [("to", [Num 1])] [] "sweep" = Raise EExn
  /\ apply_and_combine two_runs [] [] [("to", [Num 1])] [] "sweep" = Raise EUnbound
  /\ apply_and_combine two_runs [shift_fn] [] [] [] "sweep" = Raise EKey
  /\ apply_and_combine two_runs [shift_fn] [] [("to", [Num 1])] [("both", [("by", [Num 1])])] "sweep" = Raise EType.
Proof.
  repeat split; try (vm_compute; reflexivity).
  - cbn. repeat constructor; cbn; intuition discriminate.
  - intros l c [H|[H|[]]]; injection H as <- <-; reflexivity.
Qed.
Print Assumptions C193_nonvacuous.

Example C194_nonvacuous :
  select [10; 20; 30; 40; 50] (slice_positions 5 1 4 2) = [20; 40] /\
  select [10; 20; 30; 40; 50] (slice_positions 5 0 9 1) = [10; 20; 30; 40; 50] /\
  select [10; 20; 30; 40; 50] (slice_positions 5 0 (-2) 1) = [10; 20; 30] /\
  select [10; 20; 30; 40; 50] (slice_positions 5 (-2) 5 1) = [40; 50] /\
  select [10; 20; 30; 40; 50] (slice_positions 5 3 0 (-1)) = [40; 30; 20] /\
  let x := Arr "sweep" ["sigma"] ["id"; "origin"] [([Num 1], [2%R; 4%R; 9%R])] in
  proper x /\ In "id" (a_others x) /\ ~ In "end" (a_index x :: a_levels x ++ a_others x) /\
  Forall natural [Num 2; Num 3; Num 8] /\ NoDup [Num 2; Num 3; Num 8].
Proof.
  repeat split; try reflexivity; cbn.
  - repeat constructor. intros [].
  - intros l c [H|[]]. injection H as <- <-. reflexivity.
  - left. reflexivity.
  - intuition discriminate.
  - constructor; [exists 2%nat; reflexivity|]. constructor; [exists 3%nat; reflexivity|]. constructor; [exists 8%nat; reflexivity|constructor].
  - repeat constructor; cbn; intuition discriminate.
Qed.
Print Assumptions C194_nonvacuous.

Example C195_nonvacuous :
  let d := [([Num 1], Dict [([Text "end"], Value (Num 10))]); ([Num 2], Dict [([Text "end"], Value (Num 20))])] in
  apply_by_group ["sigma"; "loss"] ["id"] ["sigma"] (Dict d) [([Num 1; Num 7], "a")]
    = Ok [("a", Dict [([Text "end"], Value (Num 10))])] /\
  apply_by_group ["sigma"; "loss"] ["id"] ["sigma"] (Dict d) [([Num 3; Num 7], "a")] = Raise EExn /\
  apply_by_group ["sigma"; "loss"] ["id"] ["sigma"] (Dict d) [([Num 1; Num 7], "a"); ([Num 2; Num 7], "b")] = Raise EExn /\
  sublabel ["sigma"; "loss"] ["seed"] ["loss"; "sigma"] [Num 1; Num 7; Num 3] = Ok [Num 7; Num 1] /\
  sublabel ["sigma"; "loss"] ["seed"] ["seed"; "sigma"] [Num 1; Num 7; Num 3] = Ok [Num 1; Num 7] /\
  (forall k s, In (k, s) d -> plain s).
Proof.
  repeat split; try reflexivity. intros k s [H|[H|[]]]; injection H as <- <-; eexists; (split; [reflexivity|]);
    intros k s [H|[]]; injection H as <- <-; eexists; reflexivity.
Qed.
Print Assumptions C195_nonvacuous.
