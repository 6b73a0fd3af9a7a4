(** Theorems about recording and learning: C50, C51, C58, C83. *)
From Coq Require Import List ZArith Lia Bool Arith String.
From Verif Require Import Base PyMonad Recorder.
Import ListNotations.
Local Open Scope string_scope.
Local Open Scope Z_scope.

(** * Specification vocabulary *)

(** Iteration number k (1, 2, ...) is to be recorded. *)
Definition on_schedule (start every k : Z) : bool := (start <=? k) && (k mod every =? 0).

(** The elements of [l], numbered 1, 2, ..., that are to be recorded. *)
Definition scheduled {A} (start every : Z) (l : list A) : list A :=
  map snd (filter (fun p => on_schedule start every (fst p))
                  (combine (map Z.of_nat (seq 1 (List.length l))) l)).

(** The rows one call of the writer adds to dataset [x] when the step is recorded:
    the component of theta stored there, and the sample of that name. *)
Definition component (names : list string) (vs : list Z) (x : string) : list Z :=
  map snd (filter (fun p => String.eqb (fst p) x) (combine names vs)).
Definition row_of (c : rec_settings) (kw : kwargs) (x : string) : list Z :=
  ((if mem_s "theta" (output_names c)
    then match kw_get kw "theta" with Some (Vec vs) => component (to_learn c) vs x | _ => [] end
    else []) ++
   (if mem_s x row_names && mem_s x (output_names c)
    then match kw_get kw x with Some (One v) => [v] | _ => [] end
    else []))%list.

(** Arguments the loops pass: no key called 'loss', theta is a vector with a
    component for every learned parameter, every other sample is one row. *)
Definition usual_kw (c : rec_settings) (kw : kwargs) : Prop :=
  kw_get kw "loss" = None /\
  (forall s, kw_get kw "theta" = Some s -> exists vs, s = Vec vs /\ (List.length (to_learn c) <= List.length vs)%nat) /\
  (forall x s, In x row_names -> kw_get kw x = Some s -> exists v, s = One v).

(** * The writer *)

Lemma push_default : forall x v st, push (-1) 1 x v st = Ok (set_rows st x (st x ++ [v])%list).
Proof.
  intros x v st. unfold push, push_row. cbn [repeat].
  set (r := (st x ++ [0])%list).
  assert (Hl : Z.of_nat (List.length r) = Z.of_nat (List.length (st x)) + 1).
  { unfold r. rewrite app_length. cbn. lia. }
  rewrite Hl.
  replace (- (Z.of_nat (List.length (st x)) + 1) <=? -1) with true by (symmetry; apply Z.leb_le; lia).
  replace (-1 <? Z.of_nat (List.length (st x)) + 1) with true by (symmetry; apply Z.ltb_lt; lia).
  change (-1 <? 0) with true. cbn [andb].
  replace (Z.to_nat (-1 + (Z.of_nat (List.length (st x)) + 1))) with (List.length (st x)) by lia.
  cbn [rbind]. do 2 f_equal. unfold r. clear.
  induction (st x) as [|y l IH]; cbn; [reflexivity|]. rewrite IH. reflexivity.
Qed.

Lemma set_rows_same : forall st x r, set_rows st x r x = r.
Proof. intros. unfold set_rows. rewrite String.eqb_refl. auto. Qed.
Lemma set_rows_other : forall st x r y, x <> y -> set_rows st x r y = st y.
Proof. intros. unfold set_rows. destruct (String.eqb_spec y x); congruence. Qed.

Lemma write_theta_spec : forall names vs st, (List.length names <= List.length vs)%nat ->
  exists st', write_theta (-1) 1 names vs st = Ok st' /\
    forall x, st' x = (st x ++ component names vs x)%list.
Proof.
  induction names as [|n names IH]; intros vs st H.
  - exists st. split; [reflexivity|]. intro x. cbn. rewrite app_nil_r. auto.
  - destruct vs as [|v vs]; cbn in H; [lia|]. cbn [write_theta]. rewrite push_default. cbn [rbind].
    destruct (IH vs (set_rows st n (st n ++ [v])%list) ltac:(lia)) as (st' & E & Hs).
    exists st'. split; auto. intro x. rewrite Hs. unfold component. cbn [combine filter fst].
    destruct (String.eqb_spec n x) as [->|Hne].
    + rewrite set_rows_same. cbn [map snd]. rewrite <- app_assoc. reflexivity.
    + rewrite set_rows_other by auto. reflexivity.
Qed.

Lemma write_rows_spec : forall outs kw names st, NoDup names ->
  (forall x s, In x names -> kw_get kw x = Some s -> exists v, s = One v) ->
  exists st', write_rows (-1) 1 outs kw names st = Ok st' /\
    forall x, st' x = (st x ++ (if mem_s x names && mem_s x outs
                        then match kw_get kw x with Some (One v) => [v] | _ => [] end else []))%list.
Proof.
  intros outs kw names. induction names as [|n names IH]; intros st Hnd Hk.
  - exists st. split; [reflexivity|]. intro x. cbn. rewrite app_nil_r. auto.
  - inversion Hnd as [|? ? Hnin Hnd']; subst.
    assert (Hmem : forall x, mem_s x (n :: names) = String.eqb x n || mem_s x names) by reflexivity.
    assert (Hn : mem_s n names = false).
    { destruct (mem_s n names) eqn:E; auto. apply existsb_exists in E as (y & Hy & E).
      apply String.eqb_eq in E; subst; contradiction. }
    cbn [write_rows].
    destruct (mem_s n outs) eqn:Ho.
    + destruct (kw_get kw n) as [s|] eqn:Ek.
      * destruct (Hk n s (or_introl eq_refl) Ek) as [v ->]. rewrite push_default. cbn [rbind].
        destruct (IH (set_rows st n (st n ++ [v])%list) Hnd') as (st' & E & Hs).
        { intros x s Hx. apply Hk. cbn; auto. }
        exists st'. split; auto. intro x. rewrite Hs, Hmem.
        destruct (String.eqb_spec x n) as [->|Hne].
        -- rewrite set_rows_same, Hn, Ho, Ek. cbn. rewrite app_nil_r. auto.
        -- rewrite set_rows_other by auto. reflexivity.
      * destruct (IH st Hnd') as (st' & E & Hs). { intros x s Hx. apply Hk. cbn; auto. }
        exists st'. split; auto. intro x. rewrite Hs, Hmem.
        destruct (String.eqb_spec x n) as [->|Hne]; auto.
        rewrite Hn, Ho, Ek. cbn. auto.
    + destruct (IH st Hnd') as (st' & E & Hs). { intros x s Hx. apply Hk. cbn; auto. }
      exists st'. split; auto. intro x. rewrite Hs, Hmem.
      destruct (String.eqb_spec x n) as [->|Hne]; auto.
      rewrite Hn, Ho. cbn. auto.
Qed.

Lemma recorded_spec : forall c t, write_every c <> 0 ->
  recorded c t = Ok (export_samples c && on_schedule (write_start c) (write_every c) t).
Proof.
  intros c t H. unfold recorded, on_schedule. destruct (export_samples c); auto.
  destruct (write_start c <=? t); auto.
  destruct (write_every c =? 0) eqn:E; auto. apply Z.eqb_eq in E. contradiction.
Qed.

Lemma row_names_nodup : NoDup row_names.
Proof. unfold row_names. repeat constructor; cbn; intuition discriminate. Qed.

Lemma write_spec : forall c t kw st, write_every c <> 0 -> usual_kw c kw ->
  exists st', write_default c t kw st = Ok st' /\
    forall x, st' x = (st x ++ (if export_samples c && on_schedule (write_start c) (write_every c) t
                                then row_of c kw x else []))%list.
Proof.
  intros c t kw st He (Hl & Ht & Hr). unfold write_default, write_data.
  rewrite recorded_spec by auto. cbn [rbind].
  destruct (export_samples c && on_schedule (write_start c) (write_every c) t).
  2:{ exists st. split; auto. intro x. rewrite app_nil_r. auto. }
  rewrite Hl, andb_false_r. cbn [rbind].
  assert (G : exists st1, (if mem_s "theta" (output_names c)
              then match kw_get kw "theta" with
                   | Some (Vec vs) => write_theta (-1) 1 (to_learn c) vs st
                   | Some (One _) => Raise EType
                   | None => Ok st
                   end
              else Ok st) = Ok st1 /\
     forall x, st1 x = (st x ++ (if mem_s "theta" (output_names c)
       then match kw_get kw "theta" with Some (Vec vs) => component (to_learn c) vs x | _ => [] end else []))%list).
  { destruct (mem_s "theta" (output_names c)).
    2:{ exists st. split; auto. intro. rewrite app_nil_r. auto. }
    destruct (kw_get kw "theta") as [s|] eqn:Ek.
    2:{ exists st. split; auto. intro. rewrite app_nil_r. auto. }
    destruct (Ht s eq_refl) as (vs & -> & Hlen). apply write_theta_spec; auto. }
  destruct G as (st1 & E1 & Hs1). rewrite E1. cbn [rbind].
  destruct (write_rows_spec (output_names c) kw row_names st1 row_names_nodup Hr) as (st2 & E2 & Hs2).
  exists st2. split; auto. intro x. rewrite Hs2, Hs1. unfold row_of. rewrite <- app_assoc. reflexivity.
Qed.

(** C50, one call: a recorded call appends exactly the samples it is given, each
    to the end of its own dataset, and an unrecorded call changes nothing. *)
Theorem C50_write_appends_partial : forall c t kw st, write_every c <> 0 -> usual_kw c kw ->
  exists st', write_default c t kw st = Ok st' /\
    (export_samples c = true -> on_schedule (write_start c) (write_every c) t = true ->
       (forall x v, In x row_names -> In x (output_names c) -> ~ In x (to_learn c) ->
          kw_get kw x = Some (One v) -> st' x = (st x ++ [v])%list) /\
       (forall x, In x row_names -> ~ In x (to_learn c) ->
          kw_get kw x = None \/ ~ In x (output_names c) -> st' x = st x) /\
       (forall vs i, In "theta" (output_names c) -> NoDup (to_learn c) -> (i < List.length (to_learn c))%nat ->
          ~ In (nth i (to_learn c) "") row_names ->
          kw_get kw "theta" = Some (Vec vs) ->
          st' (nth i (to_learn c) "") = (st (nth i (to_learn c) "") ++ [nth i vs 0])%list)) /\
    (export_samples c = false \/ on_schedule (write_start c) (write_every c) t = false ->
       forall x, st' x = st x).
Proof.
  intros c t kw st He Hu. destruct (write_spec c t kw st He Hu) as (st' & E & Hs).
  exists st'. split; auto.
  assert (Hmem : forall x l, In x l -> mem_s x l = true).
  { intros x l H. apply existsb_exists. exists x. split; auto. apply String.eqb_refl. }
  assert (Hmem' : forall x l, ~ In x l -> mem_s x l = false).
  { intros x l H. destruct (mem_s x l) eqn:E'; auto. apply existsb_exists in E' as (y & Hy & E').
    apply String.eqb_eq in E'; subst; contradiction. }
  assert (Hcomp : forall names vs x, ~ In x names -> component names vs x = []).
  { induction names as [|n names IH]; intros vs x H; cbn; auto. destruct vs; auto.
    unfold component. cbn [combine filter fst]. destruct (String.eqb_spec n x) as [->|Hne].
    - exfalso. apply H. cbn; auto.
    - apply IH. cbn in H; tauto. }
  split.
  - intros Hx Hsch. setoid_rewrite Hx in Hs. setoid_rewrite Hsch in Hs. cbn [andb] in Hs.
    split; [|split].
    + intros x v H1 H2 H3 H4. rewrite Hs. unfold row_of. rewrite (Hmem x row_names H1), (Hmem x (output_names c) H2), H4.
      cbn [andb]. f_equal.
      destruct (mem_s "theta" (output_names c)); auto.
      destruct (kw_get kw "theta") as [[|vs]|]; auto. rewrite Hcomp; auto.
    + intros x H1 H3 H4. rewrite Hs. unfold row_of.
      assert (E1 : (if mem_s "theta" (output_names c)
        then match kw_get kw "theta" with Some (Vec vs) => component (to_learn c) vs x | _ => [] end else []) = []).
      { destruct (mem_s "theta" (output_names c)); auto.
        destruct (kw_get kw "theta") as [[|vs]|]; auto. }
      rewrite E1. destruct H4 as [H4|H4].
      * rewrite H4. destruct (_ && _); cbn; rewrite app_nil_r; auto.
      * rewrite (Hmem' x (output_names c) H4), andb_false_r. cbn. rewrite app_nil_r; auto.
    + intros vs i H1 Hnd Hi Hnr H4. rewrite Hs. unfold row_of.
      rewrite (Hmem "theta" _ H1), H4, (Hmem' _ row_names Hnr). cbn [andb]. rewrite app_nil_r. f_equal.
      destruct Hu as (_ & Ht & _). destruct (Ht _ H4) as (vs' & Ev & Hlen). injection Ev as <-.
      clear - Hnd Hi Hlen Hcomp. revert vs i Hlen Hi. induction (to_learn c) as [|n names IH]; intros vs i Hlen Hi; cbn in Hi; [lia|].
      destruct vs as [|v vs]; cbn in Hlen; [lia|]. inversion Hnd; subst.
      unfold component. cbn [combine filter fst]. destruct i as [|i]; cbn [nth].
      * rewrite String.eqb_refl. cbn [map snd]. f_equal. apply (Hcomp names vs n); auto.
      * destruct (String.eqb_spec n (nth i names "")) as [E|Hne].
        -- exfalso. apply H1. rewrite E. apply nth_In. lia.
        -- apply IH; auto; lia.
  - intros [H|H] x; rewrite Hs, H; rewrite ?andb_false_r; cbn; apply app_nil_r.
Qed.
Print Assumptions C50_write_appends_partial.

(** * Loops *)

Lemma write_seq_spec : forall c t kws st, write_every c <> 0 -> (forall kw, In kw kws -> usual_kw c kw) ->
  exists st', write_seq c t kws st = Ok st' /\
    forall x, st' x = (st x ++ (if export_samples c && on_schedule (write_start c) (write_every c) t
                                then flat_map (fun kw => row_of c kw x) kws else []))%list.
Proof.
  intros c t kws. induction kws as [|kw kws IH]; intros st He Hu.
  - exists st. split; auto. intro x. cbn. destruct (_ && _); rewrite app_nil_r; auto.
  - destruct (write_spec c t kw st He (Hu kw (or_introl eq_refl))) as (st1 & E1 & Hs1).
    destruct (IH st1 He ltac:(intros; apply Hu; cbn; auto)) as (st2 & E2 & Hs2).
    exists st2. cbn [write_seq]. rewrite E1. cbn [rbind]. split; auto.
    intro x. rewrite Hs2, Hs1. cbn [flat_map]. rewrite <- app_assoc.
    destruct (_ && _); auto.
Qed.

Definition numbered {A} (s : Z) (l : list A) : list (Z * A) :=
  combine (map (fun k => s + Z.of_nat k) (seq 0 (List.length l))) l.

Lemma numbered_cons : forall {A} s (a : A) l, numbered s (a :: l) = (s, a) :: numbered (s + 1) l.
Proof.
  intros. unfold numbered. cbn [List.length seq map combine]. f_equal; [f_equal; lia|].
  f_equal. rewrite <- seq_shift, map_map. apply map_ext. intro; lia.
Qed.

Lemma scheduled_numbered : forall {A} s e (l : list A),
  scheduled s e l = map snd (filter (fun p => on_schedule s e (fst p)) (numbered 1 l)).
Proof.
  intros. unfold scheduled, numbered. do 3 f_equal.
  rewrite <- seq_shift, map_map. apply map_ext. intro; lia.
Qed.

Lemma mcmc_loop_spec : forall wt c its t st, write_every c <> 0 -> export_samples c = true ->
  (forall it kw, In it its -> In kw (iteration_kws wt it) -> usual_kw c kw) ->
  exists st', mcmc_loop wt c t its st = Ok st' /\
    forall x, st' x = (st x ++ flat_map (fun it => flat_map (fun kw => row_of c kw x) (iteration_kws wt it))
       (map snd (filter (fun p => on_schedule (write_start c) (write_every c) (fst p)) (numbered t its))))%list.
Proof.
  intros wt c its. induction its as [|it its IH]; intros t st He Hx Hu.
  - exists st. split; auto. intro x. cbn. rewrite app_nil_r; auto.
  - destruct (write_seq_spec c t (iteration_kws wt it) st He) as (st1 & E1 & Hs1).
    { intros kw Hkw. apply (Hu it); cbn; auto. }
    destruct (IH (t + 1) st1 He Hx) as (st2 & E2 & Hs2).
    { intros it' kw Hi. apply Hu; cbn; auto. }
    exists st2. cbn [mcmc_loop]. rewrite E1. cbn [rbind]. split; auto.
    intro x. rewrite Hs2, Hs1, Hx, <- app_assoc. f_equal. rewrite numbered_cons. cbn [filter fst andb].
    destruct (on_schedule _ _ t); cbn [map snd flat_map]; auto.
Qed.

Lemma flat_map_nil : forall {A B} (f : A -> list B) l, (forall a, In a l -> f a = []) -> flat_map f l = [].
Proof. induction l; intro H; cbn; auto. rewrite H, IHl; cbn; auto. intros; apply H; cbn; auto. Qed.

Lemma flat_map_single : forall {A B} (f : A -> list B) g l, (forall a, In a l -> f a = [g a]) -> flat_map f l = map g l.
Proof. induction l; intro H; cbn; auto. rewrite H, IHl; cbn; auto. intros; apply H; cbn; auto. Qed.

Lemma flat_map_ext_in : forall {A B} (f g : A -> list B) l, (forall a, In a l -> f a = g a) -> flat_map f l = flat_map g l.
Proof. induction l; intro H; cbn; auto. rewrite H, IHl; cbn; auto. intros; apply H; cbn; auto. Qed.

Lemma flat_map_map : forall {A B C} (f : B -> list C) (g : A -> B) l, flat_map f (map g l) = flat_map (fun a => f (g a)) l.
Proof. induction l; cbn; auto. rewrite IHl; auto. Qed.

Lemma component_nil : forall names vs x, ~ In x names -> component names vs x = [].
Proof.
  induction names as [|n names IH]; intros vs x H; cbn; auto. destruct vs; auto.
  unfold component. cbn [combine filter fst]. destruct (String.eqb_spec n x) as [->|Hne].
  - exfalso. apply H. cbn; auto.
  - apply IH. cbn in H; tauto.
Qed.

Lemma component_nth : forall names vs i, NoDup names -> (List.length names <= List.length vs)%nat ->
  (i < List.length names)%nat -> component names vs (nth i names "") = [nth i vs 0].
Proof.
  induction names as [|n names IH]; intros vs i Hnd Hlen Hi; cbn in Hi; [lia|].
  destruct vs as [|v vs]; cbn in Hlen; [lia|]. inversion Hnd; subst.
  unfold component. cbn [combine filter fst]. destruct i as [|i]; cbn [nth].
  - rewrite String.eqb_refl. cbn [map snd]. f_equal. apply (component_nil names vs n); auto.
  - destruct (String.eqb_spec n (nth i names "")) as [E|Hne].
    + exfalso. apply H1. rewrite E. apply nth_In. lia.
    + apply IH; auto; lia.
Qed.

(** Names of learned parameters: distinct, none the name of another dataset. *)
Definition plain_names (ps : list string) : Prop :=
  NoDup ps /\ forall x, In x ps -> ~ In x row_names.

Definition full_thetas (c : rec_settings) (its : list iteration) : Prop :=
  forall it th acc sg, In it its -> In (th, acc, sg) (it_theta it) -> List.length th = List.length (to_learn c).

Lemma usual_iteration : forall wt c its it kw, full_thetas c its -> In it its -> In kw (iteration_kws wt it) -> usual_kw c kw.
Proof.
  intros wt c its it kw Hf Hit Hkw. unfold iteration_kws in Hkw. rewrite !in_app_iff in Hkw.
  assert (G : forall kw, (exists th acc sg, kw = theta_kw (th, acc, sg) /\ List.length th = List.length (to_learn c)) \/
     (kw_get kw "theta" = None /\ kw_get kw "loss" = None /\ forall p, In p kw -> exists v, snd p = One v) -> usual_kw c kw).
  { intros k [(th & acc & sg & -> & Hl)|(Ht & Hl & Hv)].
    - split; [reflexivity|]. split.
      + intros s E. cbn in E. injection E as <-. exists th. split; auto. lia.
      + intros x s Hx E. unfold row_names in Hx. cbn [In] in Hx.
        repeat (destruct Hx as [<-|Hx]; [cbn in E; first [discriminate | injection E as <-; eauto]|]). destruct Hx.
    - split; [auto|]. split; [intros s E; congruence|].
      intros x s _ E. clear - Hv E. induction k as [|[y w] k IH]; cbn in E; [discriminate|].
      destruct (String.eqb x y).
      + injection E as <-. apply (Hv (y, w)). cbn; auto.
      + apply IH; auto. intros; apply Hv; cbn; auto. }
  apply G. destruct Hkw as [H|[H|[H|H]]].
  - left. apply in_map_iff in H as ([[th acc] sg] & <- & H). exists th, acc, sg. split; auto. eapply Hf; eauto.
  - right. apply in_map_iff in H as ([a b] & <- & H). cbn. split; [auto|]. split; [auto|].
    intros p [<-|[<-|[]]]; cbn; eauto.
  - right. destruct wt; [|destruct H]. apply in_map_iff in H as ([a b] & <- & H). cbn. split; [auto|]. split; [auto|].
    intros p [<-|[<-|[]]]; cbn; eauto.
  - right. destruct H as [<-|[]]. cbn. split; [auto|]. split; [auto|].
    intros p [<-|[]]; cbn; eauto.
Qed.

(** Rows of one iteration for a dataset other than the parameters. *)
Lemma iteration_rows : forall wt c it x, ~ In x (to_learn c) ->
  flat_map (fun kw => row_of c kw x) (iteration_kws wt it) =
  if mem_s x row_names && mem_s x (output_names c) then
    if String.eqb x "theta_acc" then map (fun s => snd (fst s)) (it_theta it)
    else if String.eqb x "sign" then map snd (it_theta it)
    else if String.eqb x "log_destination_attraction" then map fst (it_lda it)
    else if String.eqb x "log_destination_attraction_acc" then map snd (it_lda it)
    else if wt && String.eqb x "table" then map fst (it_table it)
    else if wt && String.eqb x "table_acc" then map snd (it_table it)
    else if String.eqb x "compute_time" then [it_time it] else []
  else [].
Proof.
  intros wt c it x Hx. unfold iteration_kws. rewrite !flat_map_app, !flat_map_map.
  assert (Hrow : forall kw, row_of c kw x = if mem_s x row_names && mem_s x (output_names c)
    then match kw_get kw x with Some (One v) => [v] | _ => [] end else []).
  { intro kw. unfold row_of. destruct (mem_s "theta" (output_names c)); auto.
    destruct (kw_get kw "theta") as [[|vs]|]; auto. rewrite component_nil; auto. }
  rewrite (flat_map_ext_in _ _ (it_theta it) (fun s _ => Hrow (theta_kw s))).
  rewrite (flat_map_ext_in _ _ (it_lda it) (fun s _ => Hrow (lda_kw s))).
  assert (Ht : flat_map (fun kw => row_of c kw x) (if wt then map table_kw (it_table it) else [])
     = if wt then flat_map (fun s => if mem_s x row_names && mem_s x (output_names c)
         then match kw_get (table_kw s) x with Some (One v) => [v] | _ => [] end else []) (it_table it) else []).
  { destruct wt; auto. rewrite flat_map_map. apply flat_map_ext_in. intros; apply Hrow. }
  rewrite Ht. cbn [flat_map]. rewrite Hrow, app_nil_r. clear Ht Hrow.
  destruct (mem_s x row_names) eqn:Hr; cbn [andb].
  2:{ destruct wt; rewrite ?flat_map_nil by auto; auto. }
  destruct (mem_s x (output_names c)).
  2:{ destruct wt; rewrite ?flat_map_nil by auto; auto. }
  unfold mem_s, row_names in Hr. cbn [existsb] in Hr. rewrite !orb_true_iff, !String.eqb_eq in Hr.
  destruct Hr as [->|[->|[->|[->|[->|[->|[->|[->|[->|[->|H]]]]]]]]]]; try discriminate;
    unfold theta_kw, lda_kw, table_kw; cbn [kw_get String.eqb Ascii.eqb Bool.eqb andb];
    repeat match goal with
    | |- context [flat_map (fun s : list Z * Z * Z => _) (it_theta it)] =>
        first [ rewrite (flat_map_nil _ (it_theta it)) by (intros [[? ?] ?] ?; reflexivity)
              | rewrite (flat_map_single _ (fun s => snd (fst s)) (it_theta it)) by (intros [[? ?] ?] ?; reflexivity)
              | rewrite (flat_map_single _ snd (it_theta it)) by (intros [[? ?] ?] ?; reflexivity) ]
    | |- context [flat_map (fun s : Z * Z => _) (it_lda it)] =>
        first [ rewrite (flat_map_nil _ (it_lda it)) by (intros [? ?] ?; reflexivity)
              | rewrite (flat_map_single _ fst (it_lda it)) by (intros [? ?] ?; reflexivity)
              | rewrite (flat_map_single _ snd (it_lda it)) by (intros [? ?] ?; reflexivity) ]
    | |- context [flat_map (fun s : Z * Z => _) (it_table it)] =>
        first [ rewrite (flat_map_nil _ (it_table it)) by (intros [? ?] ?; reflexivity)
              | rewrite (flat_map_single _ fst (it_table it)) by (intros [? ?] ?; reflexivity)
              | rewrite (flat_map_single _ snd (it_table it)) by (intros [? ?] ?; reflexivity) ]
    end; destruct wt; cbn [app andb]; rewrite ?app_nil_r; reflexivity.
Qed.

Lemma iteration_theta_rows : forall wt c its it i, plain_names (to_learn c) -> In "theta" (output_names c) ->
  full_thetas c its -> In it its -> (i < List.length (to_learn c))%nat ->
  flat_map (fun kw => row_of c kw (nth i (to_learn c) "")) (iteration_kws wt it)
  = map (fun s => nth i (fst (fst s)) 0) (it_theta it).
Proof.
  intros wt c its it i [Hnd Hpl] Ho Hf Hit Hi.
  assert (Hm : mem_s "theta" (output_names c) = true).
  { apply existsb_exists. exists "theta". split; auto. }
  assert (Hnr : mem_s (nth i (to_learn c) "") row_names = false).
  { destruct (mem_s (nth i (to_learn c) "") row_names) eqn:E; auto.
    apply existsb_exists in E as (y & Hy & E). apply String.eqb_eq in E.
    exfalso. apply (Hpl (nth i (to_learn c) "")); [apply nth_In; auto|congruence]. }
  assert (Hrow : forall kw, row_of c kw (nth i (to_learn c) "")
     = match kw_get kw "theta" with Some (Vec vs) => component (to_learn c) vs (nth i (to_learn c) "") | _ => [] end).
  { intro kw. unfold row_of. rewrite Hm, Hnr. cbn [andb]. apply app_nil_r. }
  unfold iteration_kws. rewrite !flat_map_app, !flat_map_map.
  rewrite (flat_map_single _ (fun s => nth i (fst (fst s)) 0) (it_theta it)).
  2:{ intros [[th acc] sg] Hin. rewrite Hrow. cbn [theta_kw kw_get fst]. rewrite String.eqb_refl.
      apply component_nth; auto. rewrite (Hf it th acc sg); auto. }
  rewrite (flat_map_nil _ (it_lda it)) by (intros [? ?] ?; rewrite Hrow; reflexivity).
  rewrite (flat_map_nil (fun kw => row_of c kw (nth i (to_learn c) "")) (if wt then _ else _)).
  2:{ intros kw Hkw. destruct wt; [|destruct Hkw]. apply in_map_iff in Hkw as ([? ?] & <- & _). rewrite Hrow; reflexivity. }
  cbn [flat_map app]. rewrite Hrow. cbn. apply app_nil_r.
Qed.

(** C50 for the joint sampler: with the class' output names, whatever the
    iterations are, every sampled quantity has, in order, exactly the samples of
    the recorded iterations (iteration k with k >= write_start and k a multiple
    of write_every). *)
Theorem C50_joint_rows : forall c its,
  export_samples c = true -> 1 <= write_every c -> output_names c = joint_mcmc_outputs ->
  plain_names (to_learn c) -> full_thetas c its ->
  exists st, joint_mcmc_run c its empty_store = Ok st /\
    let rec := scheduled (write_start c) (write_every c) its in
    (forall i, (i < List.length (to_learn c))%nat ->
       st (nth i (to_learn c) "") = flat_map (fun it => map (fun s => nth i (fst (fst s)) 0) (it_theta it)) rec) /\
    st "theta_acc" = flat_map (fun it => map (fun s => snd (fst s)) (it_theta it)) rec /\
    st "sign" = flat_map (fun it => map snd (it_theta it)) rec /\
    st "log_destination_attraction" = flat_map (fun it => map fst (it_lda it)) rec /\
    st "log_destination_attraction_acc" = flat_map (fun it => map snd (it_lda it)) rec /\
    st "table" = flat_map (fun it => map fst (it_table it)) rec /\
    st "table_acc" = flat_map (fun it => map snd (it_table it)) rec /\
    st "compute_time" = map it_time rec.
Proof.
  intros c its Hx He Ho [Hnd Hpl] Hf.
  destruct (mcmc_loop_spec true c its 1 empty_store) as (st & E & Hs); auto; [lia| |].
  { intros; eapply usual_iteration; eauto. }
  exists st. split; auto. rewrite <- scheduled_numbered in Hs.
  set (rec := scheduled (write_start c) (write_every c) its) in *. intro rec'. subst rec'.
  assert (Hrec : forall it, In it rec -> In it its).
  { intros it H. unfold rec, scheduled in H. apply in_map_iff in H as ([k it'] & <- & H).
    apply filter_In in H as [H _]. apply in_combine_r in H. auto. }
  assert (Hn : forall x, In x row_names -> ~ In x (to_learn c)) by (intros x H1 H2; apply (Hpl x); auto).
  split.
  { intros i Hi. rewrite Hs. cbn [empty_store app]. apply flat_map_ext_in. intros it Hit.
    eapply iteration_theta_rows; eauto. split; auto. rewrite Ho. cbn; auto. }
  assert (Hmap : map it_time rec = flat_map (fun it => [it_time it]) rec).
  { clear. induction rec; cbn; congruence. }
  rewrite Hmap.
  repeat split; rewrite Hs; cbn [empty_store app]; apply flat_map_ext_in; intros it Hit;
    rewrite iteration_rows by (apply Hn; cbn; tauto); rewrite Ho; reflexivity.
Qed.
Print Assumptions C50_joint_rows.

(** C50 for SIM_MCMC, the part that holds. *)
Theorem C50_sim_rows_partial : forall c its,
  export_samples c = true -> 1 <= write_every c -> output_names c = sim_mcmc_outputs ->
  plain_names (to_learn c) -> full_thetas c its ->
  exists st, sim_mcmc_run c its empty_store = Ok st /\
    let rec := scheduled (write_start c) (write_every c) its in
    (forall i, (i < List.length (to_learn c))%nat ->
       st (nth i (to_learn c) "") = flat_map (fun it => map (fun s => nth i (fst (fst s)) 0) (it_theta it)) rec) /\
    st "sign" = flat_map (fun it => map snd (it_theta it)) rec /\
    st "log_destination_attraction" = flat_map (fun it => map fst (it_lda it)) rec /\
    st "log_destination_attraction_acc" = flat_map (fun it => map snd (it_lda it)) rec /\
    (* recorded never, for lack of a comma in the output names *)
    st "theta_acc" = [] /\ st "compute_time" = [].
Proof.
  intros c its Hx He Ho [Hnd Hpl] Hf.
  destruct (mcmc_loop_spec false c its 1 empty_store) as (st & E & Hs); auto; [lia| |].
  { intros; eapply usual_iteration; eauto. }
  exists st. split; auto. rewrite <- scheduled_numbered in Hs.
  set (rec := scheduled (write_start c) (write_every c) its) in *. intro rec'. subst rec'.
  assert (Hrec : forall it, In it rec -> In it its).
  { intros it H. unfold rec, scheduled in H. apply in_map_iff in H as ([k it'] & <- & H).
    apply filter_In in H as [H _]. apply in_combine_r in H. auto. }
  assert (Hn : forall x, In x row_names -> ~ In x (to_learn c)) by (intros x H1 H2; apply (Hpl x); auto).
  split.
  { intros i Hi. rewrite Hs. cbn [empty_store app]. apply flat_map_ext_in. intros it Hit.
    eapply iteration_theta_rows; eauto. split; auto. rewrite Ho. cbn; auto. }
  split; [|split; [|split; [|split]]]; rewrite Hs; cbn [empty_store app].
  1-3: apply flat_map_ext_in; intros it Hit;
    rewrite iteration_rows by (apply Hn; cbn; tauto); rewrite Ho; reflexivity.
  all: apply flat_map_nil; intros it Hit;
    rewrite iteration_rows by (apply Hn; cbn; tauto); rewrite Ho; reflexivity.
Qed.
Print Assumptions C50_sim_rows_partial.

(** C50 for the table sampler, what is true: its clock stands still at 1, so
    either every table is recorded (write_start at most 1, write_every 1) or none
    is; the acceptance indicator never is. *)
Theorem C50_table_rows_partial : forall c samples,
  export_samples c = true -> 1 <= write_every c -> output_names c = table_mcmc_outputs ->
  plain_names (to_learn c) ->
  exists st, table_mcmc_run c samples empty_store = Ok st /\
    (write_start c <= 1 -> write_every c = 1 ->
       st "table" = map (fun s => fst (fst s)) samples /\ st "compute_time" = map snd samples) /\
    (1 < write_start c \/ 1 < write_every c -> forall x, st x = []) /\
    st "table_acc" = [] /\ st "table_acceptance" = [].
Proof.
  intros c samples Hx He Ho [Hnd Hpl].
  assert (Hn : forall x, In x row_names -> ~ In x (to_learn c)) by (intros x H1 H2; apply (Hpl x); auto).
  destruct (write_seq_spec c 1 (map table_step_kw samples) empty_store) as (st & E & Hs); [lia| |].
  { intros kw H. apply in_map_iff in H as ([[a b] d] & <- & _). split; [reflexivity|]. split.
    - intros s Hk. cbn in Hk. discriminate.
    - intros x s Hr Hk. unfold row_names in Hr. cbn [In] in Hr.
      repeat (destruct Hr as [<-|Hr]; [cbn in Hk; first [discriminate | injection Hk as <-; eauto]|]). destruct Hr. }
  exists st. split; auto. rewrite Hx in Hs. cbn [andb empty_store app] in Hs.
  assert (Hrow : forall s x, row_of c (table_step_kw s) x =
     if mem_s x row_names && mem_s x table_mcmc_outputs then match kw_get (table_step_kw s) x with Some (One v) => [v] | _ => [] end else []).
  { intros [[a b] d] x. unfold row_of. rewrite Ho. reflexivity. }
  split; [|split; [|split]].
  - intros H1 H2. unfold on_schedule in Hs. rewrite H2 in Hs.
    replace (write_start c <=? 1) with true in Hs by (symmetry; apply Z.leb_le; lia).
    cbn [andb] in Hs. change (1 mod 1 =? 0) with true in Hs. cbn iota in Hs.
    split; rewrite Hs, flat_map_map; apply flat_map_single; intros [[a b] d] _; rewrite Hrow; reflexivity.
  - intros H x. rewrite Hs. unfold on_schedule.
    destruct (write_start c <=? 1) eqn:E1; auto. cbn [andb].
    apply Z.leb_le in E1. destruct H; [lia|]. rewrite Z.mod_small by lia. reflexivity.
  - rewrite Hs. destruct (on_schedule _ _ _); auto. rewrite flat_map_map. apply flat_map_nil.
    intros [[a b] d] _. rewrite Hrow. reflexivity.
  - rewrite Hs. destruct (on_schedule _ _ _); auto. rewrite flat_map_map. apply flat_map_nil.
    intros [[a b] d] _. rewrite Hrow. reflexivity.
Qed.
Print Assumptions C50_table_rows_partial.

Definition demo_rec (outs : list string) (start every : Z) : rec_settings :=
  mkRec true start every outs ["alpha"; "beta"] ["dest_attraction_loss"].

(** C50 as stated fails for the table sampler: a run of two accepted steps leaves
    no acceptance rows; a run that should record every second step records
    nothing. *)
Theorem C50_table_acceptance_refuted :
  exists c samples st, export_samples c = true /\ output_names c = table_mcmc_outputs /\
    write_start c = 1 /\ write_every c = 1 /\ samples <> [] /\
    table_mcmc_run c samples empty_store = Ok st /\
    List.length (st "table") = List.length samples /\ st "table_acc" = [] /\ st "table_acceptance" = [].
Proof.
  exists (demo_rec table_mcmc_outputs 1 1), [(7, 1, 100); (8, 1, 101)]. eexists.
  repeat (split; [first [reflexivity | discriminate]|]). reflexivity.
Qed.
Print Assumptions C50_table_acceptance_refuted.

Theorem C50_table_every_refuted :
  exists c samples st, export_samples c = true /\ output_names c = table_mcmc_outputs /\
    write_start c = 1 /\ write_every c = 2 /\ List.length samples = 4%nat /\
    table_mcmc_run c samples empty_store = Ok st /\
    st "table" = [] /\ scheduled 1 2 (map (fun s => fst (fst s)) samples) <> [].
Proof.
  exists (demo_rec table_mcmc_outputs 1 2), [(7, 1, 100); (8, 1, 101); (9, 0, 102); (10, 1, 103)]. eexists.
  repeat (split; [reflexivity|]). discriminate.
Qed.
Print Assumptions C50_table_every_refuted.

Lemma demo_plain : plain_names ["alpha"; "beta"].
Proof.
  split.
  - repeat constructor; cbn; intuition discriminate.
  - intros x [<-|[<-|[]]] H; cbn in H; intuition discriminate.
Qed.

Example C50_nonvacuous :
  let it k := mkIter [([k; k + 1], 1, 1); ([k + 2; k + 3], 0, -1)] [(10 * k, 1)] [(20 * k, 1); (21 * k, 0)] (5 * k) in
  let c := demo_rec joint_mcmc_outputs 2 2 in
  let its := [it 1; it 2; it 3; it 4] in
  export_samples c = true /\ 1 <= write_every c /\ output_names c = joint_mcmc_outputs /\
  plain_names (to_learn c) /\ full_thetas c its /\
  match joint_mcmc_run c its empty_store with
  | Ok st => st "alpha" = [2; 4; 4; 6] /\ st "table" = [40; 42; 80; 84] /\ st "compute_time" = [10; 20]
  | Raise _ => False
  end.
Proof.
  cbn zeta. split; [reflexivity|]. split; [cbn; lia|]. split; [reflexivity|]. split; [exact demo_plain|].
  split.
  { intros it th acc sg Hit Hth. cbn in Hit.
    repeat (destruct Hit as [<-|Hit]; [cbn in Hth; destruct Hth as [H|[H|[]]]; injection H as <- <- <-; reflexivity|]).
    destruct Hit. }
  vm_compute. auto.
Qed.

(** * Learning *)

(** Total loss of one step: the sum, over the loss functions, of the values of
    that step. *)
Definition value_of (vals : losses) (x : string) : Z :=
  match find (fun q => String.eqb x (fst q)) vals with Some q => snd q | None => 0 end.
Definition step_total (names : list string) (vals : losses) : Z := lsum (map (value_of vals) names).

(** Loss functions: at least one, none named like another dataset or keyword. *)
Definition plain_losses (names : list string) : Prop :=
  names <> [] /\ forall x, In x (names ++ ["total_loss"])%list -> ~ In x ("loss" :: "theta" :: row_names).

(** The optimiser runs at step t of n. *)
Definition update_time (batch n t : Z) : bool := (t mod batch =? 0) || (t =? n - 1).

Lemma add_zero_total : forall names vals,
  sum_losses (add_losses vals (zero_losses names)) = step_total names vals.
Proof.
  intros. unfold step_total, add_losses, zero_losses, sum_losses, value_of. rewrite map_map.
  unfold lsum. cbn [fst snd]. induction names as [|n names IH]; cbn [map fold_right snd]; auto. rewrite IH. lia.
Qed.

Lemma kw_get_app : forall a b x, kw_get (a ++ b)%list x = match kw_get a x with Some v => Some v | None => kw_get b x end.
Proof. induction a as [|[y v] a IH]; intros; cbn; auto. destruct (String.eqb x y); auto. Qed.

Lemma kw_get_losses : forall l x, ~ In x (map fst l) -> kw_get (losses_kw l) x = None.
Proof.
  induction l as [|[y v] l IH]; intros x H; cbn; auto.
  destruct (String.eqb_spec x y) as [->|Hne]; [exfalso; apply H; cbn; auto|]. apply IH. cbn in H; tauto.
Qed.

Lemma usual_with_losses : forall c kw l, plain_losses (loss_names c) ->
  (forall x, In x (map fst l) -> In x (loss_names c ++ ["total_loss"])%list) ->
  usual_kw c kw -> usual_kw c (kw ++ losses_kw l)%list /\
  forall x, In x ("loss" :: "theta" :: row_names) -> kw_get (kw ++ losses_kw l)%list x = kw_get kw x.
Proof.
  intros c kw l [_ Hp] Hl (H1 & H2 & H3).
  assert (G : forall x, In x ("loss" :: "theta" :: row_names) -> kw_get (kw ++ losses_kw l)%list x = kw_get kw x).
  { intros x Hx. rewrite kw_get_app, kw_get_losses; [destruct (kw_get kw x); auto|].
    intro Hin. apply (Hp x); auto. }
  split; auto. split; [rewrite G; cbn; auto|]. split.
  - intros s Hs. apply H2. rewrite <- G; cbn; auto.
  - intros x s Hx Hs. apply (H3 x); auto. rewrite <- G; cbn; auto.
Qed.

Lemma row_of_with_losses : forall c kw l x, plain_losses (loss_names c) ->
  (forall y, In y (map fst l) -> In y (loss_names c ++ ["total_loss"])%list) ->
  usual_kw c kw -> row_of c (kw ++ losses_kw l)%list x = row_of c kw x.
Proof.
  intros c kw l x Hp Hl Hu. destruct (usual_with_losses c kw l Hp Hl Hu) as [_ G].
  unfold row_of. rewrite (G "theta") by (cbn; auto). f_equal.
  destruct (mem_s x row_names) eqn:E; auto. rewrite G; auto.
  right; right. apply existsb_exists in E as (y & Hy & E). apply String.eqb_eq in E; subst; auto.
Qed.

Lemma zero_ne : forall c, plain_losses (loss_names c) -> loss_names c <> [].
Proof. intros c H; apply H. Qed.

Lemma update_step : forall c batch n t vals kw tm st ups,
  write_every c <> 0 -> export_samples c = true -> batch <> 0 -> plain_losses (loss_names c) -> usual_kw c kw ->
  exists st', update_and_export c batch n t kw
      (mkLearner tm st (add_losses vals (zero_losses (loss_names c))) ups) =
    Ok (mkLearner (if update_time batch n t then tm + 1 else tm) st' (zero_losses (loss_names c))
          (if update_time batch n t then ups ++ [step_total (loss_names c) vals] else ups)%list) /\
    forall x, st' x = (st x ++ if update_time batch n t && on_schedule (write_start c) (write_every c) (tm + 1)
                               then row_of c kw x else [])%list.
Proof.
  intros c batch n t vals kw tm st ups He Hx Hb Hp Hu. unfold update_and_export. cbn [l_time l_store l_loss l_updates].
  destruct (batch =? 0) eqn:Eb; [apply Z.eqb_eq in Eb; contradiction|].
  fold (update_time batch n t). destruct (update_time batch n t).
  2:{ exists st. split; auto. intro x. cbn. rewrite app_nil_r. auto. }
  rewrite add_zero_total.
  assert (Hne : add_losses vals (zero_losses (loss_names c)) <> []).
  { pose proof (zero_ne c Hp). unfold add_losses, zero_losses. destruct (loss_names c); cbn; congruence. }
  destruct (add_losses vals (zero_losses (loss_names c))) as [|p0 l0] eqn:El; [congruence|]. rewrite <- El in *.
  assert (Hnames : forall x, In x (map fst (add_losses vals (zero_losses (loss_names c)) ++ [("total_loss", step_total (loss_names c) vals)])%list) ->
                   In x (loss_names c ++ ["total_loss"])%list).
  { intros x H. rewrite map_app in H. unfold add_losses, zero_losses in H. rewrite !map_map in H. cbn [fst] in H.
    rewrite map_id in H. cbn [map fst] in H. exact H. }
  destruct (usual_with_losses c kw _ Hp Hnames Hu) as [Hu' _].
  destruct (write_spec c (tm + 1) _ st He Hu') as (st' & E & Hs).
  exists st'. rewrite E. cbn [rbind]. split; auto.
  intro x. rewrite Hs, Hx. cbn [andb]. rewrite row_of_with_losses; auto.
Qed.

Definition updates_of (c : rec_settings) (batch n : Z) (num : list (Z * (losses * kwargs))) : list Z :=
  map (fun p => step_total (loss_names c) (fst (snd p)))
      (filter (fun p => update_time batch n (fst p)) num).

Lemma epoch_spec : forall c batch n steps t tm st ups,
  write_every c <> 0 -> export_samples c = true -> batch <> 0 -> plain_losses (loss_names c) ->
  (forall s, In s steps -> usual_kw c (snd s)) ->
  exists s', epoch c batch n t steps (mkLearner tm st (zero_losses (loss_names c)) ups) = Ok s' /\
    l_updates s' = (ups ++ updates_of c batch n (numbered t steps))%list /\
    l_loss s' = zero_losses (loss_names c) /\
    (forall x, In x (loss_names c ++ ["total_loss"])%list -> ~ In x (to_learn c) -> l_store s' x = st x).
Proof.
  intros c batch n steps. induction steps as [|[vals kw] steps IH]; intros t tm st ups He Hx Hb Hp Hu.
  - eexists. split; [reflexivity|]. cbn. rewrite app_nil_r. auto.
  - cbn [epoch l_time l_store l_loss l_updates].
    destruct (update_step c batch n t vals kw tm st ups He Hx Hb Hp) as (st1 & E1 & Hs1).
    { apply (Hu (vals, kw)). cbn; auto. }
    rewrite E1. cbn [rbind].
    edestruct (IH (t + 1)) as (s' & E' & Hup & Hlo & Hst); eauto.
    { intros; apply Hu; cbn; auto. }
    exists s'. split; [exact E'|]. split; [|split; [auto|]].
    + rewrite Hup. unfold updates_of. rewrite numbered_cons. cbn [filter fst].
      destruct (update_time batch n t); auto. cbn [map snd fst]. rewrite <- app_assoc. reflexivity.
    + intros x H1 H2. rewrite Hst by auto. rewrite Hs1.
      assert (Hr : row_of c kw x = []).
      { unfold row_of. destruct (mem_s x row_names) eqn:Em.
        - exfalso. apply (proj2 Hp x H1). right; right.
          apply existsb_exists in Em as (y & Hy & Ey). apply String.eqb_eq in Ey; subst; auto.
        - cbn [andb]. rewrite app_nil_r. destruct (mem_s "theta" (output_names c)); auto.
          destruct (kw_get kw "theta") as [[|vs]|]; auto. apply component_nil; auto. }
      rewrite Hr. destruct (_ && _); apply app_nil_r.
Qed.

(** C58, what the code does: an update at every step whose number is a multiple
    of the batch size and at the last step, each with the losses of that step
    alone. *)
Theorem C58_updates_exact_partial : forall c batch n steps,
  1 <= write_every c -> export_samples c = true -> 1 <= batch -> plain_losses (loss_names c) ->
  (forall s, In s steps -> usual_kw c (snd s)) ->
  exists s', epoch c batch n 0 steps (learner0 c empty_store) = Ok s' /\
    l_updates s' =
      map (fun p => step_total (loss_names c) (fst (snd p)))
        (filter (fun p => update_time batch n (fst p))
           (combine (map Z.of_nat (seq 0 (List.length steps))) steps)).
Proof.
  intros c batch n steps He Hx Hb Hp Hu.
  destruct (epoch_spec c batch n steps 0 0 empty_store [] ltac:(lia) Hx ltac:(lia) Hp Hu) as (s' & E & Hup & _).
  exists s'. split; auto.
Qed.
Print Assumptions C58_updates_exact_partial.

(** With batches of one step every loss is used, once, in order. *)
Theorem C58_batch_of_one_partial : forall c n steps,
  1 <= write_every c -> export_samples c = true -> plain_losses (loss_names c) ->
  (forall s, In s steps -> usual_kw c (snd s)) ->
  exists s', epoch c 1 n 0 steps (learner0 c empty_store) = Ok s' /\
    l_updates s' = map (fun s => step_total (loss_names c) (fst s)) steps.
Proof.
  intros c n steps He Hx Hp Hu.
  destruct (epoch_spec c 1 n steps 0 0 empty_store [] ltac:(lia) Hx ltac:(lia) Hp Hu) as (s' & E & Hup & _).
  exists s'. split; auto. rewrite Hup. cbn [app]. unfold updates_of.
  generalize 0 as t. clear. induction steps as [|s steps IH]; intro t; auto.
  rewrite numbered_cons. cbn [filter fst map snd]. unfold update_time at 1. rewrite Z.mod_1_r. cbn [Z.eqb orb].
  cbn [map snd fst]. f_equal. apply IH.
Qed.
Print Assumptions C58_batch_of_one_partial.

(** The experiments of the code have one step per epoch: there every epoch's loss
    is used, for every batch size. *)
Theorem C58_training_runs_use_all : forall c batch n steps,
  1 <= write_every c -> export_samples c = true -> 1 <= batch -> plain_losses (loss_names c) ->
  (forall s, In s steps -> usual_kw c (snd s)) ->
  exists s', nn_run c batch n steps empty_store = Ok s' /\
    l_updates s' = map (fun s => step_total (loss_names c) (fst s)) steps.
Proof.
  intros c batch n steps He Hx Hb Hp Hu. unfold nn_run, learner0.
  assert (G : forall tm st ups, exists s', epochs c batch n (map (fun s => [s]) steps)
       (mkLearner tm st (zero_losses (loss_names c)) ups) = Ok s' /\
       l_updates s' = (ups ++ map (fun s => step_total (loss_names c) (fst s)) steps)%list).
  { induction steps as [|s steps IH]; intros tm st ups.
    - eexists. split; [reflexivity|]. cbn. rewrite app_nil_r; auto.
    - cbn [map epochs].
      destruct (epoch_spec c batch n [s] 0 tm st ups ltac:(lia) Hx ltac:(lia) Hp) as ([tm1 st1 lo1 up1] & E & Hup & Hlo & _).
      { intros s0 [<-|[]]; apply Hu; cbn; auto. }
      rewrite E. cbn [rbind]. cbn [l_updates l_loss] in Hup, Hlo. subst lo1.
      destruct (IH ltac:(intros; apply Hu; cbn; auto) tm1 st1 up1) as (s' & E' & Hup').
      exists s'. split; auto. rewrite Hup', Hup. unfold updates_of. rewrite numbered_cons.
      cbn [filter fst]. unfold update_time. rewrite Z.mod_0_l by lia. cbn [Z.eqb orb numbered List.length seq map combine].
      cbn [filter map snd fst]. rewrite <- app_assoc. reflexivity. }
  destruct (G 0 empty_store []) as (s' & E & Hup). exists s'. split; auto.
Qed.
Print Assumptions C58_training_runs_use_all.

(** C58 as stated is false: with batches of two and three steps the losses of the
    middle step reach no update. *)
Theorem C58_every_loss_refuted :
  exists c steps s', 1 <= write_every c /\ plain_losses (loss_names c) /\
    (forall s, In s steps -> usual_kw c (snd s)) /\
    epoch c 2 (Z.of_nat (List.length steps)) 0 steps (learner0 c empty_store) = Ok s' /\
    lsum (l_updates s') <> lsum (map (fun s => step_total (loss_names c) (fst s)) steps).
Proof.
  exists (demo_rec sim_nn_outputs 1 1).
  exists [([("dest_attraction_loss", 5)], []); ([("dest_attraction_loss", 7)], []); ([("dest_attraction_loss", 11)], [])].
  eexists. split; [cbn; lia|]. split.
  { split; [discriminate|]. intros x H H'. cbn in H, H'. intuition (subst; discriminate). }
  split.
  { intros s Hs. assert (snd s = []) as -> by (cbn in Hs; destruct Hs as [<-|[<-|[<-|[]]]]; auto).
    split; [reflexivity|]. split; [intros ? H; discriminate|intros ? ? _ H; discriminate]. }
  split; [reflexivity|]. vm_compute. discriminate.
Qed.
Print Assumptions C58_every_loss_refuted.

Example C58_nonvacuous :
  plain_losses ["dest_attraction_loss"; "table_loss"] /\
  usual_kw (demo_rec sim_nn_outputs 1 1) [("theta", Vec [3; 4]); ("compute_time", One 9)] /\
  match nn_run (mkRec true 1 1 sim_nn_outputs ["alpha"; "beta"] ["dest_attraction_loss"; "table_loss"]) 3 10
     [([("dest_attraction_loss", 5); ("table_loss", 2)], [("theta", Vec [3; 4]); ("compute_time", One 9)]);
      ([("dest_attraction_loss", 1); ("table_loss", 1)], [("theta", Vec [6; 7]); ("compute_time", One 8)])] empty_store with
  | Ok s => l_updates s = [7; 2] /\ l_store s "beta" = [4; 7] /\ l_store s "compute_time" = [9; 8]
  | Raise _ => False
  end.
Proof.
  split; [|split].
  - split; [discriminate|]. intros x H H'. cbn in H, H'. intuition (subst; discriminate).
  - split; [reflexivity|]. split.
    + intros s H. cbn in H. injection H as <-. exists [3; 4]. split; auto.
    + intros x s Hr H. unfold row_names in Hr. cbn [In] in Hr.
      repeat (destruct Hr as [<-|Hr]; [cbn in H; first [discriminate | injection H as <-; eauto]|]). destruct Hr.
  - vm_compute. auto.
Qed.

(** * Recording of losses *)

(** C83 as stated ("with 'loss' among the outputs, every update's losses are
    recorded") is false in every run: the datasets of the losses stay empty. *)
Theorem C83_losses_recorded_refuted : forall c batch n steps,
  1 <= write_every c -> export_samples c = true -> 1 <= batch -> plain_losses (loss_names c) ->
  (forall x, In x (loss_names c ++ ["total_loss"])%list -> ~ In x (to_learn c)) ->
  (forall s, In s steps -> usual_kw c (snd s)) ->
  exists s', nn_run c batch n steps empty_store = Ok s' /\
    List.length (l_updates s') = List.length steps /\
    forall x, In x (loss_names c ++ ["total_loss"])%list -> l_store s' x = [].
Proof.
  intros c batch n steps He Hx Hb Hp Hd Hu.
  destruct (C58_training_runs_use_all c batch n steps He Hx Hb Hp Hu) as (s' & E & Hup).
  exists s'. split; auto. split; [rewrite Hup, map_length; auto|].
  assert (G : forall es tm st ups s', (forall e, In e es -> forall s, In s e -> usual_kw c (snd s)) ->
     epochs c batch n es (mkLearner tm st (zero_losses (loss_names c)) ups) = Ok s' ->
     forall x, In x (loss_names c ++ ["total_loss"])%list -> l_store s' x = st x).
  { induction es as [|e es IH]; intros tm st ups s0 Hes E0 x Hx0.
    - injection E0 as <-. auto.
    - cbn [epochs] in E0.
      destruct (epoch_spec c batch n e 0 tm st ups ltac:(lia) Hx ltac:(lia) Hp) as ([tm1 st1 lo1 up1] & E1 & _ & Hlo & Hst).
      { apply Hes. cbn; auto. }
      rewrite E1 in E0. cbn [rbind] in E0. cbn [l_loss l_store] in Hlo, Hst. subst lo1.
      rewrite (IH _ _ _ _ ltac:(intros; eapply Hes; cbn; eauto) E0 x Hx0). apply Hst; auto. }
  intros x Hin. change (@nil Z) with (empty_store x). unfold nn_run, learner0 in E. eapply G; eauto.
  intros e He0 s Hs. apply in_map_iff in He0 as (s0 & <- & H0). destruct Hs as [<-|[]]. auto.
Qed.
Print Assumptions C83_losses_recorded_refuted.

(** C83, the part that holds: the writer itself records one row per loss and one
    for the total when it is handed the key 'loss' (no caller does). *)
Theorem C83_writer_records_partial : forall c t kw v st,
  write_every c <> 0 -> export_samples c = true -> on_schedule (write_start c) (write_every c) t = true ->
  output_names c = ["loss"] -> NoDup (loss_names c ++ ["total_loss"])%list ->
  kw_get kw "loss" = Some v ->
  (forall x, In x (loss_names c ++ ["total_loss"])%list -> exists w, kw_get kw x = Some (One w)) ->
  exists st', write_default c t kw st = Ok st' /\
    forall x w, In x (loss_names c ++ ["total_loss"])%list -> kw_get kw x = Some (One w) ->
      st' x = (st x ++ [w])%list.
Proof.
  intros c t kw v st He Hx Hs Ho Hnd Hl Hv. unfold write_default, write_data.
  rewrite recorded_spec, Hx, Hs by auto. cbn [andb rbind]. rewrite Ho, Hl. cbn [mem_s existsb String.eqb Ascii.eqb Bool.eqb orb andb].
  assert (G : forall names st, NoDup names -> (forall x, In x names -> exists w, kw_get kw x = Some (One w)) ->
     exists st', write_losses (-1) 1 kw names st = Ok st' /\
       (forall x w, In x names -> kw_get kw x = Some (One w) -> st' x = (st x ++ [w])%list) /\
       (forall x, ~ In x names -> st' x = st x)).
  { clear. induction names as [|n names IH]; intros st Hnd Hv.
    - exists st. split; [reflexivity|]. split; [intros ? ? []|auto].
    - destruct (Hv n (or_introl eq_refl)) as [w Ew]. cbn [write_losses]. rewrite Ew, push_default. cbn [rbind].
      inversion Hnd; subst.
      destruct (IH (set_rows st n (st n ++ [w])%list) H2 ltac:(intros; apply Hv; cbn; auto)) as (st' & E & H3 & H4).
      exists st'. split; auto. split.
      + intros x w' [<-|Hin] Ex.
        * rewrite H4 by auto. rewrite set_rows_same. congruence.
        * rewrite (H3 x w') by auto. rewrite set_rows_other; auto. intros ->. contradiction.
      + intros x Hx. rewrite H4 by (cbn in Hx; tauto). apply set_rows_other. cbn in Hx; tauto. }
  destruct (G _ st Hnd Hv) as (st' & E & H1 & _). rewrite E. cbn [rbind].
  exists st'. split; [|auto]. reflexivity.
Qed.
Print Assumptions C83_writer_records_partial.

Example C83_nonvacuous :
  (forall x, In x (["dest_attraction_loss"] ++ ["total_loss"])%list -> ~ In x ["alpha"; "beta"]) /\
  NoDup (["dest_attraction_loss"] ++ ["total_loss"])%list /\
  match write_default (mkRec true 1 1 ["loss"] [] ["dest_attraction_loss"]) 3
    [("loss", One 0); ("dest_attraction_loss", One 4); ("total_loss", One 4)] empty_store with
  | Ok st => st "total_loss" = [4]
  | Raise _ => False
  end.
Proof.
  split; [|split].
  - intros x H H'. cbn in H, H'. intuition (subst; discriminate).
  - repeat constructor; cbn; intuition discriminate.
  - reflexivity.
Qed.

(** * Batch sizes *)

(** C51 as stated is false: the function raises on every input (the number of
    repetitions is a float). *)
Theorem C51_batches_refuted : forall N a b, define_sample_batch_sizes N a b = Raise EType.
Proof. reflexivity. Qed.
Print Assumptions C51_batches_refuted.

Lemma lsum_repeat : forall v n, lsum (repeat v n) = Z.of_nat n * v.
Proof. induction n; cbn [repeat lsum fold_right]; [lia|]. unfold lsum in IHn. lia. Qed.

Lemma lsum_app' : forall l1 l2, lsum (l1 ++ l2)%list = lsum l1 + lsum l2.
Proof. unfold lsum. induction l1; intros; cbn [app fold_right]; [lia|]. rewrite IHl1. lia. Qed.

Lemma cumsum_last : forall l acc, l <> [] -> last (cumsum_from acc l) 0 = acc + lsum l.
Proof.
  induction l as [|x l IH]; intros acc H; [congruence|]. cbn [cumsum_from].
  destruct l as [|y l].
  - cbn. lia.
  - change (last ((acc + x) :: cumsum_from (acc + x) (y :: l)) 0) with
      (last (cumsum_from (acc + x) (y :: l)) 0).
    rewrite IH by congruence. unfold lsum. cbn [fold_right]. lia.
Qed.

Lemma cumsum_step : forall l acc i, (S i < List.length l)%nat ->
  nth (S i) (cumsum_from acc l) 0 - nth i (cumsum_from acc l) 0 = nth (S i) l 0.
Proof.
  induction l as [|x l IH]; intros acc i H; cbn in H; [lia|].
  cbn [cumsum_from nth]. destruct i.
  - destruct l; cbn in *; [lia|lia].
  - apply IH. lia.
Qed.

(** C51, the part that holds: were the number of repetitions an integer, for every
    N >= 1 and fraction 0 < a/b <= 1 the cumulative sizes would never decrease,
    would increase strictly when a batch holds at least one sample, and would end
    at N. *)
Theorem C51_integer_count_partial : forall N a b, 1 <= N -> 1 <= a <= b ->
  exists l, batches_with (NpInt (b / a)) N a b = Ok l /\ l <> [] /\ last l 0 = N /\
    (forall i, (S i < List.length l)%nat -> nth i l 0 <= nth (S i) l 0) /\
    (1 <= a * N / b -> forall i, (S i < List.length l)%nat -> nth i l 0 < nth (S i) l 0).
Proof.
  intros N a b HN [Ha Hb]. unfold batches_with, np_repeat.
  assert (Hq : 1 <= b / a) by (apply Z.div_le_lower_bound; lia).
  destruct (b / a <? 0) eqn:E; [apply Z.ltb_lt in E; lia|]. cbn [rbind]. clear E.
  set (v := a * N / b). set (q := b / a) in *.
  assert (Hv0 : 0 <= v) by (apply Z.div_pos; lia).
  assert (Hle : q * v <= N).
  { unfold q, v. pose proof (Z.mul_div_le (a * N) b ltac:(lia)). pose proof (Z.mul_div_le b a ltac:(lia)).
    assert (0 <= b / a) by lia. assert (0 <= a * N / b) by auto. nia. }
  assert (Hsum : lsum (repeat v (Z.to_nat q)) = q * v) by (rewrite lsum_repeat; lia).
  rewrite Hsum.
  assert (Hrep : repeat v (Z.to_nat q) <> []) by (destruct (Z.to_nat q) eqn:Eq; [lia|discriminate]).
  assert (Hlen : forall acc l, List.length (cumsum_from acc l) = List.length l)
    by (intros acc l; revert acc; induction l; intros; cbn; auto).
  assert (G : forall s, s <> [] -> lsum s = N ->
    (forall i, (S i < List.length s)%nat -> 0 <= nth (S i) s 0) ->
    (1 <= v -> forall i, (S i < List.length s)%nat -> 1 <= nth (S i) s 0) ->
    cumsum_from 0 s <> [] /\ last (cumsum_from 0 s) 0 = N /\
    (forall i, (S i < List.length (cumsum_from 0 s))%nat -> nth i (cumsum_from 0 s) 0 <= nth (S i) (cumsum_from 0 s) 0) /\
    (1 <= v -> forall i, (S i < List.length (cumsum_from 0 s))%nat -> nth i (cumsum_from 0 s) 0 < nth (S i) (cumsum_from 0 s) 0)).
  { intros s Hs Hsm H1 H2. split; [destruct s; cbn; congruence|]. split; [rewrite cumsum_last; auto; lia|].
    split; [intros i Hi|intros Hv i Hi]; rewrite Hlen in Hi; pose proof (cumsum_step s 0 i Hi);
      [specialize (H1 i Hi)|specialize (H2 Hv i Hi)]; lia. }
  assert (Hnr : forall i, (i < List.length (repeat v (Z.to_nat q)))%nat -> nth i (repeat v (Z.to_nat q)) 0 = v).
  { intros i Hi. rewrite repeat_length in Hi. rewrite (nth_indep _ 0 v) by (rewrite repeat_length; auto). apply nth_repeat. }
  destruct (q * v <? N) eqn:E.
  - apply Z.ltb_lt in E. eexists. split; [reflexivity|]. apply G.
    + destruct (repeat v (Z.to_nat q)); discriminate.
    + rewrite lsum_app'. rewrite Hsum. unfold lsum. cbn [fold_right]. lia.
    + intros i Hi. rewrite app_length in Hi. cbn [List.length] in Hi.
      destruct (Nat.lt_ge_cases (S i) (List.length (repeat v (Z.to_nat q)))) as [H|H].
      * rewrite app_nth1, Hnr by auto. lia.
      * rewrite app_nth2 by auto. replace (S i - List.length (repeat v (Z.to_nat q)))%nat with 0%nat by lia. cbn. lia.
    + intros Hv i Hi. rewrite app_length in Hi. cbn [List.length] in Hi.
      destruct (Nat.lt_ge_cases (S i) (List.length (repeat v (Z.to_nat q)))) as [H|H].
      * rewrite app_nth1, Hnr by auto. lia.
      * rewrite app_nth2 by auto. replace (S i - List.length (repeat v (Z.to_nat q)))%nat with 0%nat by lia. cbn. lia.
  - apply Z.ltb_ge in E. eexists. split; [reflexivity|]. apply G; auto; try lia.
    + intros i Hi. rewrite Hnr by auto. lia.
    + intros Hv i Hi. rewrite Hnr by auto. lia.
Qed.
Print Assumptions C51_integer_count_partial.

Example C51_nonvacuous : batches_with (NpInt (10 / 3)) 7 3 10 = Ok [2; 4; 6; 7].
Proof. reflexivity. Qed.
