(** Properties C108-C112: collections of outputs. *)
From Coq Require Import List ZArith Lia Bool Arith String Permutation Sorted.
From Verif Require Import Base PyMonad CommandLine CommandLineProps Collections.
Import ListNotations.
Local Open Scope string_scope.
Local Open Scope nat_scope.
Local Open Scope list_scope.

(** ---- Specification ------------------------------------------------------ *)

(** The labels of a dimension. *)
Definition labels (x : darr) (k : string) : list string :=
  match sget k (arr_coords x) with Some l => l | None => [] end.

(** Two arrays have the same labels along all of [ks]. *)
Definition agree (ks : list string) (x y : darr) : Prop :=
  forall k, In k ks -> forall v, In v (labels x k) <-> In v (labels y k).

(** Arrays of one sample, with the same labelled dimensions. *)
Definition uniform (name : string) (dims : list string) (ds : list darr) : Prop :=
  forall d, In d ds -> arr_name d = name /\ arr_dims d = dims /\ forall k, In k dims -> sget k (arr_coords d) <> None.

(** One list is the other with elements left out. *)
Inductive subseq {A} : list A -> list A -> Prop :=
| sub_nil : subseq [] []
| sub_skip : forall x l l', subseq l l' -> subseq l (x :: l')
| sub_take : forall x l l', subseq l l' -> subseq (x :: l) (x :: l').

(** ---- Booleans ------------------------------------------------------------ *)

Lemma smem_spec : forall x l, smem x l = true <-> In x l.
Proof.
  intros x l. unfold smem. rewrite existsb_exists. split.
  - intros [y [H E]]. apply String.eqb_eq in E. subst; exact H.
  - intros H. exists x. split; [exact H|apply String.eqb_refl].
Qed.

Lemma same_set_spec : forall a b, same_set a b = true <-> forall v, In v a <-> In v b.
Proof.
  intros a b. unfold same_set. rewrite andb_true_iff, !forallb_forall. split.
  - intros [H1 H2] v. split; intros H; [apply smem_spec, H1, H|apply smem_spec, H2, H].
  - intros H. split; intros v Hv; apply smem_spec, H, Hv.
Qed.

Definition agreeb (ks : list string) (x y : darr) : bool := forallb (fun k => same_set (labels x k) (labels y k)) ks.

Lemma agreeb_spec : forall ks x y, agreeb ks x y = true <-> agree ks x y.
Proof.
  intros ks x y. unfold agreeb, agree. rewrite forallb_forall. split; intros H k Hk.
  - apply same_set_spec, H, Hk.
  - apply same_set_spec. intros v. apply H, Hk.
Qed.

Lemma agree_refl : forall ks x, agree ks x x.
Proof. intros ks x k _ v. reflexivity. Qed.
Lemma agree_sym : forall ks x y, agree ks x y -> agree ks y x.
Proof. intros ks x y H k Hk v. symmetry. apply H, Hk. Qed.
Lemma agree_trans : forall ks x y z, agree ks x y -> agree ks y z -> agree ks x z.
Proof. intros ks x y z H1 H2 k Hk v. rewrite (H1 k Hk v). apply H2, Hk. Qed.

Lemma agreeb_refl : forall ks x, agreeb ks x x = true.
Proof. intros; apply agreeb_spec, agree_refl. Qed.
Lemma agreeb_sym : forall ks x y, agreeb ks x y = agreeb ks y x.
Proof.
  intros. destruct (agreeb ks x y) eqn:E, (agreeb ks y x) eqn:F; try reflexivity; exfalso.
  - apply agreeb_spec, agree_sym, agreeb_spec in E. congruence.
  - apply agreeb_spec, agree_sym, agreeb_spec in F. congruence.
Qed.
Lemma agreeb_trans : forall ks x y z, agreeb ks x y = true -> agreeb ks y z = true -> agreeb ks x z = true.
Proof. intros ks x y z H1 H2. apply agreeb_spec in H1, H2. apply agreeb_spec. eapply agree_trans; eassumption. Qed.

Lemma matched_eq : forall ks x d, (forall k, In k ks -> sget k (arr_coords x) <> None) ->
  (forall k, In k ks -> sget k (arr_coords d) <> None) -> matched ks x d = Ok (agreeb ks x d).
Proof.
  induction ks as [|k ks IH]; intros x d H1 H2; [reflexivity|]. cbn [matched agreeb forallb]. unfold labels at 1 2.
  destruct (sget k (arr_coords x)) eqn:E1; [|exfalso; apply (H1 k); [left; reflexivity|exact E1]].
  destruct (sget k (arr_coords d)) eqn:E2; [|exfalso; apply (H2 k); [left; reflexivity|exact E2]].
  rewrite IH; [reflexivity| |]; intros k' Hk'; [apply H1|apply H2]; right; exact Hk'.
Qed.

(** ---- Grouping ------------------------------------------------------------- *)

Lemma rfold_app : forall A S (f : S -> A -> res S) l l' s, rfold f (l ++ l') s = (do s' <- rfold f l s ; rfold f l' s').
Proof.
  induction l as [|x l IH]; intros l' s; [reflexivity|]. cbn [rfold app].
  destruct (f s x); [|reflexivity]. cbn [rbind]. apply IH.
Qed.

(** The groups of [ds]: one per representative, holding the arrays that agree with it. *)
Definition groups_by (ks : list string) (ds reps : list darr) : list (list darr) :=
  map (fun r => filter (agreeb ks r) ds) reps.

Definition good_reps (ks : list string) (ds reps : list darr) : Prop :=
  subseq reps ds /\ NoDup reps /\
  (forall r r', In r reps -> In r' reps -> agreeb ks r r' = true -> r = r') /\
  (forall d, In d ds -> exists r, In r reps /\ agreeb ks r d = true) /\
  (forall r, In r reps -> exists l, filter (agreeb ks r) ds = r :: l).

Lemma subseq_in : forall A (l l' : list A) x, subseq l l' -> In x l -> In x l'.
Proof. intros A l l' x H. induction H; intros Hin; [exact Hin|right; auto|]. destruct Hin; [left; assumption|right; auto]. Qed.

Lemma subseq_refl_app : forall A (l l' : list A) x, subseq l l' -> subseq (l ++ [x]) (l' ++ [x]).
Proof. intros A l l' x H. induction H; cbn; [apply sub_take, sub_nil|apply sub_skip; assumption|apply sub_take; assumption]. Qed.
Lemma subseq_app_skip : forall A (l l' : list A) x, subseq l l' -> subseq l (l' ++ [x]).
Proof. intros A l l' x H. induction H; cbn; [apply sub_skip, sub_nil|apply sub_skip; assumption|apply sub_take; assumption]. Qed.

Lemma place_eq : forall ks ds d reps,
  (forall x, In x (d :: ds) -> forall k, In k ks -> sget k (arr_coords x) <> None) ->
  (forall r, In r reps -> In r ds /\ exists l, filter (agreeb ks r) ds = r :: l) ->
  NoDup reps -> (forall r r', In r reps -> In r' reps -> agreeb ks r r' = true -> r = r') ->
  place ks d (groups_by ks ds reps) =
    Ok (groups_by ks (ds ++ [d]) reps ++ if existsb (fun r => agreeb ks r d) reps then [] else [[d]]).
Proof.
  intros ks ds d. induction reps as [|r reps IH]; intros HC HR HN HD; [reflexivity|].
  unfold groups_by in *. cbn [map place existsb app].
  destruct (HR r (or_introl eq_refl)) as [Hr [l El]]. rewrite El. 
  rewrite matched_eq; [|apply HC; right; exact Hr|apply HC; left; reflexivity]. cbn [rbind].
  assert (Ed : filter (agreeb ks r) (ds ++ [d]) = (r :: l) ++ if agreeb ks r d then [d] else []).
  { rewrite filter_app, El. reflexivity. }
  rewrite Ed. inversion HN as [|? ? Hx HN']; subst. destruct (agreeb ks r d) eqn:Er.
  - cbn [orb]. rewrite app_nil_r. f_equal. f_equal. apply map_ext_in. intros r' Hr'. rewrite filter_app.
    assert (agreeb ks r' d = false) as E0.
    { destruct (agreeb ks r' d) eqn:E; [|reflexivity]. exfalso. apply Hx.
      rewrite (HD r r'); [exact Hr'|left; reflexivity|right; exact Hr'|].
      eapply agreeb_trans; [exact Er|]. rewrite agreeb_sym. exact E. }
    cbn [filter]. rewrite E0, app_nil_r. reflexivity.
  - cbn [orb]. rewrite app_nil_r, IH; [reflexivity|exact HC| |exact HN'|].
    + intros r' Hr'. apply HR. right; exact Hr'.
    + intros r1 r2 H1 H2. apply HD; right; assumption.
Qed.

Lemma good_step : forall ks ds d reps, good_reps ks ds reps ->
  let reps' := reps ++ if existsb (fun r => agreeb ks r d) reps then [] else [d] in
  good_reps ks (ds ++ [d]) reps' /\
  groups_by ks (ds ++ [d]) reps ++ (if existsb (fun r => agreeb ks r d) reps then [] else [[d]]) = groups_by ks (ds ++ [d]) reps'.
Proof.
  intros ks ds d reps [HS [HN [HD [HC HF]]]] reps'. unfold reps'.
  destruct (existsb (fun r => agreeb ks r d) reps) eqn:E.
  - rewrite !app_nil_r. split; [|reflexivity].
    apply existsb_exists in E as [r0 [Hr0 Er0]].
    split; [apply subseq_app_skip; exact HS|]. split; [exact HN|]. split; [exact HD|]. split.
    + intros x Hx. apply in_app_or in Hx as [Hx|[<-|[]]]; [apply HC; exact Hx|exists r0; auto].
    + intros r Hr. destruct (HF r Hr) as [l El]. rewrite filter_app, El. eexists; reflexivity.
  - assert (E0 : forall r, In r reps -> agreeb ks r d = false).
    { intros r Hr. destruct (agreeb ks r d) eqn:F; [|reflexivity]. exfalso.
      assert (existsb (fun r => agreeb ks r d) reps = true) by (apply existsb_exists; exists r; auto). congruence. }
    assert (Efd : filter (agreeb ks d) (ds ++ [d]) = [d]).
    { rewrite filter_app. cbn [filter]. rewrite agreeb_refl.
      assert (filter (agreeb ks d) ds = []) as ->; [|reflexivity].
      destruct (filter (agreeb ks d) ds) as [|z zs] eqn:Ez; [reflexivity|]. exfalso.
      assert (Hz : In z (filter (agreeb ks d) ds)) by (rewrite Ez; left; reflexivity).
      apply filter_In in Hz as [Hz Az]. destruct (HC z Hz) as [r [Hr Ar]]. specialize (E0 r Hr).
      assert (agreeb ks r d = true) by (eapply agreeb_trans; [exact Ar|rewrite agreeb_sym; exact Az]). congruence. }
    split.
    + split; [apply subseq_refl_app; exact HS|]. split.
      { eapply Permutation_NoDup; [apply Permutation_cons_append|]. constructor; [|exact HN].
        intros Hin. specialize (E0 d Hin). rewrite agreeb_refl in E0. discriminate. }
      split.
      { intros r r' Hr Hr' Ha. apply in_app_or in Hr. apply in_app_or in Hr'.
        destruct Hr as [Hr|[<-|[]]], Hr' as [Hr'|[<-|[]]]; auto.
        - rewrite (E0 r Hr) in Ha. discriminate.
        - rewrite agreeb_sym, (E0 r' Hr') in Ha. discriminate. }
      split.
      { intros x Hx. apply in_app_or in Hx as [Hx|[<-|[]]].
        - destruct (HC x Hx) as [r [Hr Ar]]. exists r. split; [apply in_or_app; left; exact Hr|exact Ar].
        - exists d. split; [apply in_or_app; right; left; reflexivity|apply agreeb_refl]. }
      { intros r Hr. apply in_app_or in Hr as [Hr|[<-|[]]].
        - destruct (HF r Hr) as [l El]. rewrite filter_app, El. eexists; reflexivity.
        - rewrite Efd. exists []. reflexivity. }
    + unfold groups_by. rewrite map_app. cbn [map]. rewrite Efd. reflexivity.
Qed.

Section OneSample.
  Variables (core : string -> option (list string)) (train group_by cd dims : list string) (name : string).
  Hypothesis Hcore : core name = Some cd.
  Let shared := shared_dims train cd group_by.
  Let ks := filter (fun k => smem k shared) dims.

  Lemma group_step : forall ds d reps, uniform name dims (ds ++ [d]) -> ds <> [] -> good_reps ks ds reps ->
    (exists k, In k dims /\ ~ In k shared) ->
    group_sample core train group_by [(name, groups_by ks ds reps)] d =
      Ok [(name, groups_by ks (ds ++ [d]) (reps ++ if existsb (fun r => agreeb ks r d) reps then [] else [d]))].
  Proof.
    intros ds d reps HU Hne HG [k0 [Hk0 Hk0']].
    destruct (HU d) as [En [Ed Hc]]; [apply in_or_app; right; left; reflexivity|].
    unfold group_sample. rewrite En, Hcore. cbn [sget sset]. rewrite String.eqb_refl.
    pose proof HG as HG'. destruct HG as [HS [HN [HD [HC HF]]]].
    destruct reps as [|r reps].
    { exfalso. destruct ds as [|z ds]; [congruence|]. destruct (HC z (or_introl eq_refl)) as [r [[] _]]. }
    assert (HinU : forall x, In x ds -> arr_dims x = dims /\ forall k, In k dims -> sget k (arr_coords x) <> None).
    { intros x Hx. destruct (HU x) as [_ H]; [apply in_or_app; left; exact Hx|]. exact H. }
    destruct (HF r (or_introl eq_refl)) as [l El].
    assert (Eg : groups_by ks ds (r :: reps) = (r :: l) :: groups_by ks ds reps) by (unfold groups_by; cbn [map]; rewrite El; reflexivity).
    rewrite Eg. destruct (HinU r) as [Er Hr]; [eapply subseq_in; [exact HS|left; reflexivity]|]. rewrite Er.
    change (filter (fun k => smem k (shared_dims train cd group_by)) dims) with ks.
    assert (Hns : exists a b, filter (fun k => negb (smem k (shared_dims train cd group_by))) dims = a :: b).
    { destruct (filter (fun k => negb (smem k (shared_dims train cd group_by))) dims) as [|a b] eqn:E; [|eauto]. exfalso.
      assert (Hin : In k0 (filter (fun k => negb (smem k (shared_dims train cd group_by))) dims)).
      { apply filter_In. split; [exact Hk0|]. apply negb_true_iff. destruct (smem k0 _) eqn:F; [|reflexivity].
        exfalso. apply Hk0', smem_spec, F. }
      rewrite E in Hin. exact Hin. }
    destruct Hns as [a [b ->]]. rewrite <- Eg.
    rewrite place_eq; [|intros x Hx k Hk|intros r' Hr'|exact HN|exact HD].
    - cbn [rbind]. destruct (good_step ks ds d (r :: reps) HG') as [_ E]. cbn zeta in E. rewrite E. reflexivity.
    - apply filter_In in Hk as [Hk _]. destruct Hx as [<-|Hx]; [apply Hc; exact Hk|apply HinU; assumption].
    - split; [eapply subseq_in; [exact HS|exact Hr']|apply HF; exact Hr'].
  Qed.

  Lemma grouping : forall ds, uniform name dims ds -> ds <> [] -> (exists k, In k dims /\ ~ In k shared) ->
    exists reps, good_reps ks ds reps /\ group_samples core train group_by ds [] = Ok [(name, groups_by ks ds reps)].
  Proof.
    intros ds. induction ds as [|d ds IH] using rev_ind; intros HU Hne HK; [congruence|].
    unfold group_samples. rewrite rfold_app. destruct ds as [|z ds].
    - exists [d]. cbn [rfold rbind app]. destruct (HU d (or_introl eq_refl)) as [En _].
      unfold group_sample. rewrite En, Hcore. cbn [sget rbind sset]. split.
      + split; [apply sub_take, sub_nil|]. split; [repeat constructor; intros []|]. split; [intros r r' [<-|[]] [<-|[]] _; reflexivity|].
        split; [intros x [<-|[]]; exists d; split; [left; reflexivity|apply agreeb_refl]|].
        intros r [<-|[]]. cbn [filter]. rewrite agreeb_refl. exists []. reflexivity.
      + unfold groups_by. cbn [map filter]. rewrite agreeb_refl. reflexivity.
    - destruct IH as [reps [HG E]]; [intros x Hx; apply HU, in_or_app; left; exact Hx|discriminate|exact HK|].
      unfold group_samples in E. rewrite E. cbn [rbind rfold].
      rewrite group_step by (auto; discriminate). cbn [rbind].
      destruct (good_step ks (z :: ds) d reps HG) as [HG' _]. eexists; split; [exact HG'|reflexivity].
  Qed.

  Lemma grouping_none : forall ds, uniform name dims ds -> ds <> [] -> (forall k, In k dims -> In k shared) ->
    group_samples core train group_by ds [] = Ok [(name, map (fun d => [d]) ds)].
  Proof.
    intros ds. induction ds as [|d ds IH] using rev_ind; intros HU Hne HK; [congruence|].
    unfold group_samples. rewrite rfold_app.
    destruct (HU d) as [En [Ed Hc]]; [apply in_or_app; right; left; reflexivity|]. destruct ds as [|z ds].
    - cbn [rfold rbind app map]. unfold group_sample. rewrite En, Hcore. reflexivity.
    - unfold group_samples in IH. rewrite IH; [|intros x Hx; apply HU, in_or_app; left; exact Hx|discriminate|exact HK].
      cbn [rbind rfold map]. unfold group_sample. rewrite En, Hcore. cbn [sget]. rewrite String.eqb_refl.
      destruct (HU z) as [_ [Ez _]]; [left; reflexivity|]. rewrite Ez.
      assert (filter (fun k => negb (smem k (shared_dims train cd group_by))) dims = []) as ->.
      { destruct (filter (fun k => negb (smem k (shared_dims train cd group_by))) dims) as [|a b] eqn:E; [reflexivity|]. exfalso.
        assert (Ha : In a (a :: b)) by (left; reflexivity). rewrite <- E in Ha. apply filter_In in Ha as [Ha Hb].
        apply negb_true_iff in Hb. apply HK, smem_spec in Ha. unfold shared in Ha. congruence. }
      cbn [rbind sset]. rewrite String.eqb_refl, map_app. reflexivity.
  Qed.
End OneSample.

(** Arrays of one sample end up in the same group exactly when they have the
    same labels along all shared dimensions; each group lists its arrays in the
    order given and groups appear in the order of their first arrays.  When
    every dimension is shared each array is its own group. *)
Theorem C108_grouping : forall core train group_by cd dims name ds,
  core name = Some cd -> uniform name dims ds -> ds <> [] ->
  let shared := cd ++ group_by ++ train in
  exists gs, group_samples core train group_by ds [] = Ok [(name, gs)] /\
  ((exists k, In k dims /\ ~ In k shared) ->
     let same := agree (filter (fun k => smem k shared) dims) in
     exists reps, subseq reps ds /\ List.length gs = List.length reps /\
     (forall d, In d ds -> exists r, In r reps /\ same r d) /\
     (forall i j r r', nth_error reps i = Some r -> nth_error reps j = Some r' -> same r r' -> i = j) /\
     (forall i r g, nth_error reps i = Some r -> nth_error gs i = Some g ->
        subseq g ds /\ (exists l, g = r :: l) /\ forall d, In d g <-> In d ds /\ same r d)) /\
  ((forall k, In k dims -> In k shared) -> gs = map (fun d => [d]) ds).
Proof.
  intros core train group_by cd dims name ds Hc HU Hne shared.
  assert (Hdec : (exists k, In k dims /\ ~ In k shared) \/ (forall k, In k dims -> In k shared)).
  { destruct (forallb (fun k => smem k shared) dims) eqn:E.
    - right. intros k Hk. apply smem_spec. rewrite forallb_forall in E. apply E, Hk.
    - left. apply not_true_iff_false in E. clear -E. induction dims as [|k dims IH]; [exfalso; apply E; reflexivity|].
      destruct (smem k shared) eqn:F.
      + destruct IH as [k' [H1 H2]]; [intros H; apply E; cbn [forallb]; rewrite F; exact H|]. exists k'. split; [right; exact H1|exact H2].
      + exists k. split; [left; reflexivity|]. intros H. apply smem_spec in H. congruence. }
  assert (SF : forall f (l : list darr), subseq (filter f l) l).
  { intros f l. induction l as [|x l IH]; cbn; [apply sub_nil|]. destruct (f x); [apply sub_take|apply sub_skip]; exact IH. }
  destruct Hdec as [HK|HK].
  - destruct (grouping core train group_by cd dims name Hc ds HU Hne HK) as [reps [[HS [HN [HD [HC HF]]]] E]].
    exists (groups_by (filter (fun k => smem k shared) dims) ds reps). split; [exact E|]. split.
    + intros _. exists reps. split; [exact HS|]. split; [unfold groups_by; apply map_length|]. split.
      { intros d Hd. destruct (HC d Hd) as [r [Hr Ar]]. exists r. split; [exact Hr|apply agreeb_spec; exact Ar]. }
      split.
      { intros i j r r' Hi Hj Hs.
        assert (r = r') by (apply HD; [eapply nth_error_In; exact Hi|eapply nth_error_In; exact Hj|apply agreeb_spec; exact Hs]).
        subst r'. apply (proj1 (NoDup_nth_error reps) HN); [apply nth_error_Some; congruence|congruence]. }
      intros i r g Hi Hg. unfold groups_by in Hg. rewrite nth_error_map, Hi in Hg. cbn in Hg. injection Hg as <-.
      split; [apply SF|]. split; [apply HF; eapply nth_error_In; exact Hi|].
      intros d. rewrite filter_In, agreeb_spec. reflexivity.
    + intros H. exfalso. destruct HK as [k [H1 H2]]. apply H2, H, H1.
  - exists (map (fun d => [d]) ds). split; [apply (grouping_none core train group_by cd dims name Hc); assumption|].
    split; [|intros _; reflexivity]. intros [k [H1 H2]]. exfalso. apply H2, HK, H1.
Qed.
Print Assumptions C108_grouping.

(** Whatever arrays are grouped, none is lost or duplicated. *)
Definition all_arrays {A} (c : coll (list A)) : list A := flat_map (fun e => List.concat (snd e)) c.

Lemma all_sset : forall c n gs gs' (d : list darr), sget n c = Some gs -> Permutation (List.concat gs') (List.concat gs ++ d) ->
  Permutation (all_arrays (sset n gs' c)) (all_arrays c ++ d).
Proof.
  induction c as [|[n' l] c IH]; intros n gs gs' d Hg HP; [discriminate|]. cbn [sget sset] in *.
  destruct (String.eqb n n').
  - injection Hg as ->. unfold all_arrays. cbn [flat_map snd]. rewrite HP, <- !app_assoc. apply Permutation_app_head, Permutation_app_comm.
  - unfold all_arrays in *. cbn [flat_map snd]. rewrite <- app_assoc. apply Permutation_app_head. eapply IH; eassumption.
Qed.

Lemma all_sset_new : forall (c : coll (list darr)) n gs', sget n c = None -> all_arrays (sset n gs' c) = all_arrays c ++ List.concat gs'.
Proof.
  induction c as [|[n' l] c IH]; intros n gs' Hg; [cbn; rewrite app_nil_r; reflexivity|]. cbn [sget sset] in *.
  destruct (String.eqb n n'); [discriminate|]. unfold all_arrays in *. cbn [flat_map snd]. rewrite IH by exact Hg. rewrite app_assoc. reflexivity.
Qed.

Lemma place_perm : forall ks d gs gs', place ks d gs = Ok gs' -> Permutation (List.concat gs') (List.concat gs ++ [d]).
Proof.
  induction gs as [|[|x g] gs IH]; intros gs' H; cbn [place] in H; [injection H as <-; reflexivity|discriminate|].
  apply rbind_Ok_inv in H as [m [_ H]]. destruct m.
  - injection H as <-. cbn [List.concat app]. apply perm_skip. rewrite <- !app_assoc. apply Permutation_app_head, Permutation_app_comm.
  - apply rbind_Ok_inv in H as [r [Hr H]]. injection H as <-. cbn [List.concat]. rewrite <- app_assoc. apply Permutation_app_head, IH, Hr.
Qed.

Theorem C108_no_output_lost : forall core train group_by ds c c',
  group_samples core train group_by ds c = Ok c' -> Permutation (all_arrays c') (all_arrays c ++ ds).
Proof.
  intros core train group_by. induction ds as [|d ds IH]; intros c c' H; [injection H as <-; rewrite app_nil_r; reflexivity|].
  unfold group_samples in *. cbn [rfold] in H. apply rbind_Ok_inv in H as [c1 [H1 H2]]. apply IH in H2.
  rewrite H2. change (d :: ds) with ([d] ++ ds). rewrite app_assoc. apply Permutation_app_tail. clear H2.
  unfold group_sample in H1. destruct (core (arr_name d)); [|discriminate].
  destruct (sget (arr_name d) c) as [[|[|x g] gs]|] eqn:E; try discriminate.
  - apply rbind_Ok_inv in H1 as [gs' [Hg H1]]. injection H1 as <-. eapply all_sset; [exact E|].
    destruct (filter (fun k => negb (smem k (shared_dims train l group_by))) (arr_dims x)).
    + injection Hg as <-. change (Permutation (List.concat (((x :: g) :: gs) ++ [[d]])) (List.concat ((x :: g) :: gs) ++ [d])). rewrite concat_app. reflexivity.
    + eapply place_perm; exact Hg.
  - injection H1 as <-. rewrite all_sset_new by exact E. reflexivity.
Qed.
Print Assumptions C108_no_output_lost.

Definition ex_arr (sigma seed : string) (i : Z) : darr :=
  Darr "table" ["iter"; "sigma"; "seed"] [("iter", ["0"; "1"]); ("sigma", [sigma]); ("seed", [seed])] i.

Example C108_nonvacuous :
  let ds := [ex_arr "0.1" "1" 1; ex_arr "0.2" "1" 2; ex_arr "0.1" "2" 3] in
  uniform "table" ["iter"; "sigma"; "seed"] ds /\
  group_samples (fun _ => Some ["iter"]) [] ["sigma"] ds [] =
    Ok [("table", [[ex_arr "0.1" "1" 1; ex_arr "0.1" "2" 3]; [ex_arr "0.2" "1" 2]])].
Proof.
  cbn zeta. split; [|reflexivity]. intros d [<-|[<-|[<-|[]]]]; (split; [reflexivity|]); (split; [reflexivity|]);
    intros k [<-|[<-|[<-|[]]]]; discriminate.
Qed.

(** ---- C109: the order in which workers finish ---------------------------------- *)

(** A total order given by a boolean. *)
Definition total_order {K} (leb : K -> K -> bool) : Prop :=
  (forall a b, leb a b = true \/ leb b a = true) /\
  (forall a b, leb a b = true -> leb b a = true -> a = b) /\
  (forall a b c, leb a b = true -> leb b c = true -> leb a c = true).

Section Sorting.
  Context {K : Type} (leb : K -> K -> bool) (key : darr -> K).
  Hypothesis HO : total_order leb.
  Let le x y := leb (key x) (key y) = true.

  Lemma insert_perm : forall x l, Permutation (insert_key leb key x l) (x :: l).
  Proof.
    intros x l. induction l as [|y l IH]; [reflexivity|]. cbn [insert_key]. destruct (leb (key x) (key y)); [reflexivity|].
    rewrite IH. apply perm_swap.
  Qed.
  Lemma sort_perm : forall l, Permutation (sort_key leb key l) l.
  Proof. unfold sort_key. induction l as [|x l IH]; [reflexivity|]. cbn [fold_right]. rewrite insert_perm, IH. reflexivity. Qed.

  Lemma insert_sorted : forall x l, StronglySorted le l -> StronglySorted le (insert_key leb key x l).
  Proof.
    destruct HO as [HT [HA HTr]]. intros x l H. induction H as [|y l HS IH HF]; [repeat constructor|]. cbn [insert_key].
    destruct (leb (key x) (key y)) eqn:E.
    - constructor; [constructor; assumption|]. constructor; [exact E|]. eapply Forall_impl; [|exact HF].
      intros z Hz. unfold le in *. eapply HTr; eassumption.
    - constructor; [exact IH|]. rewrite Forall_forall in *. intros z Hz. apply (Permutation_in _ (insert_perm x l)) in Hz.
      destruct Hz as [<-|Hz]; [|apply HF; exact Hz]. unfold le. destruct (HT (key x) (key y)); congruence.
  Qed.
  Lemma sort_sorted : forall l, StronglySorted le (sort_key leb key l).
  Proof. unfold sort_key. induction l; [constructor|]. cbn [fold_right]. apply insert_sorted; assumption. Qed.

  Lemma sorted_unique : forall l l', StronglySorted le l -> StronglySorted le l' -> Permutation l l' ->
    (forall x y, In x l -> In y l -> key x = key y -> x = y) -> l = l'.
  Proof.
    destruct HO as [HT [HA HTr]]. induction l as [|x l IH]; intros l' H1 H2 HP HK.
    - apply Permutation_nil in HP. symmetry; exact HP.
    - destruct l' as [|y l']; [symmetry in HP; apply Permutation_nil in HP; discriminate|].
      inversion H1 as [|? ? S1 F1]; subst. inversion H2 as [|? ? S2 F2]; subst. rewrite Forall_forall in F1, F2.
      assert (x = y) as ->.
      { assert (Hx : In x (y :: l')) by (eapply Permutation_in; [exact HP|left; reflexivity]).
        assert (Hy : In y (x :: l)) by (eapply Permutation_in; [symmetry; exact HP|left; reflexivity]).
        destruct Hx as [->|Hx]; [reflexivity|]. destruct Hy as [->|Hy]; [reflexivity|].
        apply HK; [left; reflexivity|right; exact Hy|]. apply HA; [apply F1; exact Hy|apply F2; exact Hx]. }
      f_equal. apply IH; [exact S1|exact S2|eapply Permutation_cons_inv; exact HP|].
      intros a b Ha Hb. apply HK; right; assumption.
  Qed.

  Lemma sort_of_perm : forall l l', Permutation l l' -> (forall x y, In x l -> In y l -> key x = key y -> x = y) ->
    sort_key leb key l = sort_key leb key l'.
  Proof.
    intros l l' HP HK. apply sorted_unique; [apply sort_sorted|apply sort_sorted| |].
    - rewrite !sort_perm. exact HP.
    - intros x y Hx Hy. apply HK; eapply Permutation_in; try (apply sort_perm); assumption.
  Qed.
End Sorting.

Lemma filter_perm : forall A (f : A -> bool) l l', Permutation l l' -> Permutation (filter f l) (filter f l').
Proof.
  intros A f l l' H. induction H; cbn [filter]; [constructor| | |etransitivity; eassumption].
  - destruct (f x); [constructor|]; assumption.
  - destruct (f x), (f y); try reflexivity. apply perm_swap.
Qed.

Lemma NoDup_map_on' : forall A B (f : A -> B) l, NoDup l -> (forall x y, In x l -> In y l -> f x = f y -> x = y) -> NoDup (map f l).
Proof.
  intros A B f l H. induction H as [|x l Hx HN IH]; intros HI; [constructor|]. cbn [map]. constructor.
  - intros Hin. apply in_map_iff in Hin as [y [E Hy]]. apply Hx. rewrite (HI x y); [exact Hy|left; reflexivity|right; exact Hy|symmetry; exact E].
  - apply IH. intros a b Ha Hb. apply HI; right; assumption.
Qed.

Lemma load_perm : forall K core train (leb : K -> K -> bool) key join group_by name cd dims l1 l2,
  core name = Some cd -> total_order leb -> Permutation l1 l2 -> uniform name dims l1 ->
  (forall x y, In x l1 -> In y l1 -> agree (filter (fun k => smem k (cd ++ group_by ++ train)) dims) x y -> key x = key y -> x = y) ->
  exists a b,
  (do c <- group_samples core train group_by l1 [] ; Ok (match sget name c with Some gs => combine_groups leb key join gs | None => [] end)) = Ok a /\
  (do c <- group_samples core train group_by l2 [] ; Ok (match sget name c with Some gs => combine_groups leb key join gs | None => [] end)) = Ok b /\
  Permutation a b.
Proof.
  intros K core train leb key join group_by name cd dims l1 l2 Hc HO HP HU HD.
  assert (HU2 : uniform name dims l2) by (intros d Hd; apply HU; eapply Permutation_in; [symmetry; exact HP|exact Hd]).
  destruct l1 as [|x1 l1].
  { apply Permutation_nil in HP. subst l2. exists [], []. split; [reflexivity|]. split; [reflexivity|constructor]. }
  destruct l2 as [|x2 l2]; [symmetry in HP; apply Permutation_nil in HP; discriminate|].
  set (L1 := x1 :: l1) in *. set (L2 := x2 :: l2) in *.
  assert (N1 : L1 <> []) by discriminate. assert (N2 : L2 <> []) by discriminate. clearbody L1 L2.
  set (shared := cd ++ group_by ++ train) in *. set (ks := filter (fun k => smem k shared) dims) in *.
  assert (Hdec : (exists k, In k dims /\ ~ In k shared) \/ (forall k, In k dims -> In k shared)).
  { destruct (forallb (fun k => smem k shared) dims) eqn:E.
    - right. intros k Hk. apply smem_spec. rewrite forallb_forall in E. apply E, Hk.
    - left. apply not_true_iff_false in E. clear -E. induction dims as [|k dims IH]; [exfalso; apply E; reflexivity|].
      destruct (smem k shared) eqn:F.
      + destruct IH as [k' [H1 H2]]; [intros H; apply E; cbn [forallb]; rewrite F; exact H|]. exists k'. split; [right; exact H1|exact H2].
      + exists k. split; [left; reflexivity|]. intros H. apply smem_spec in H. congruence. }
  destruct Hdec as [HK|HK].
  - destruct (grouping core train group_by cd dims name Hc L1 HU N1 HK) as [r1 [[HS1 [HN1 [HD1 [HC1 HF1]]]] E1]].
    destruct (grouping core train group_by cd dims name Hc L2 HU2 N2 HK) as [r2 [[HS2 [HN2 [HD2 [HC2 HF2]]]] E2]].
    change (filter (fun k => smem k (shared_dims train cd group_by)) dims) with ks in HD1, HC1, HF1, E1, HD2, HC2, HF2, E2.
    rewrite E1, E2. cbn [rbind sget]. rewrite String.eqb_refl.
    eexists; eexists; split; [reflexivity|]. split; [reflexivity|]. unfold combine_groups.
    rewrite <- (map_map (sort_key leb key) join), <- (map_map (sort_key leb key) join (groups_by ks L2 r2)).
    apply Permutation_map. unfold groups_by. rewrite !map_map.
    assert (Ecls : forall L r s, agreeb ks r s = true -> filter (agreeb ks r) L = filter (agreeb ks s) L).
    { intros L r s A. apply filter_ext. intros d. destruct (agreeb ks r d) eqn:F1, (agreeb ks s d) eqn:F2; try reflexivity; exfalso.
      - assert (agreeb ks s d = true) by (eapply agreeb_trans; [rewrite agreeb_sym; exact A|exact F1]). congruence.
      - assert (agreeb ks r d = true) by (eapply agreeb_trans; [exact A|exact F2]). congruence. }
    assert (Esort : forall r, In r r1 \/ In r r2 -> sort_key leb key (filter (agreeb ks r) L1) = sort_key leb key (filter (agreeb ks r) L2)).
    { intros r _. apply sort_of_perm; [exact HO|apply filter_perm; exact HP|].
      intros x y Hx Hy Ek. apply filter_In in Hx as [Hx Ax]. apply filter_In in Hy as [Hy Ay].
      apply HD; [exact Hx|exact Hy| |exact Ek]. apply agreeb_spec. eapply agreeb_trans; [rewrite agreeb_sym; exact Ax|exact Ay]. }
    assert (Inj : forall L rs, subseq rs L -> (forall r r', In r rs -> In r' rs -> agreeb ks r r' = true -> r = r') ->
      forall x y, In x rs -> In y rs -> sort_key leb key (filter (agreeb ks x) L) = sort_key leb key (filter (agreeb ks y) L) -> x = y).
    { intros L rs HS HDD x y Hx Hy E. apply HDD; [exact Hx|exact Hy|].
      assert (Hin : In y (sort_key leb key (filter (agreeb ks x) L))).
      { rewrite E. eapply Permutation_in; [symmetry; apply sort_perm|]. apply filter_In.
        split; [eapply subseq_in; eassumption|apply agreeb_refl]. }
      eapply Permutation_in in Hin; [|apply sort_perm]. apply filter_In in Hin. apply Hin. }
    assert (Sub : forall La Lb ra rb, Permutation La Lb -> subseq ra La ->
      (forall d, In d Lb -> exists r, In r rb /\ agreeb ks r d = true) ->
      forall r, In r ra -> exists s, In s rb /\ agreeb ks r s = true).
    { intros La Lb ra rb HPP HSS HCC r Hr. destruct (HCC r) as [s [Hs As]].
      - eapply Permutation_in; [exact HPP|]. eapply subseq_in; eassumption.
      - exists s. split; [exact Hs|]. rewrite agreeb_sym. exact As. }
    apply NoDup_Permutation.
    + apply NoDup_map_on'; [exact HN1|]. apply Inj; assumption.
    + apply NoDup_map_on'; [exact HN2|]. apply Inj; assumption.
    + intros g. rewrite !in_map_iff. split.
      * intros [r [<- Hr]]. destruct (Sub L1 L2 r1 r2 HP HS1 HC2 r Hr) as [s [Hs As]]. exists s. split; [|exact Hs].
        rewrite <- Esort by (right; exact Hs). rewrite (Ecls L1 r s As). reflexivity.
      * intros [r [<- Hr]]. destruct (Sub L2 L1 r2 r1 (Permutation_sym HP) HS2 HC1 r Hr) as [s [Hs As]]. exists s. split; [|exact Hs].
        rewrite Esort by (left; exact Hs). rewrite (Ecls L2 r s As). reflexivity.
  - rewrite (grouping_none core train group_by cd dims name Hc L1 HU N1 HK), (grouping_none core train group_by cd dims name Hc L2 HU2 N2 HK).
    cbn [rbind sget]. rewrite String.eqb_refl. eexists; eexists; split; [reflexivity|]. split; [reflexivity|].
    unfold combine_groups. rewrite !map_map. apply Permutation_map. exact HP.
Qed.

Lemma collect_reads : forall runs, (forall o, In o runs -> exists d, o = Read d) ->
  exists ds, collect_sequential runs = Ok ds /\ ds = collect_concurrent runs.
Proof.
  induction runs as [|o runs IH]; intros H; [exists []; split; reflexivity|].
  destruct IH as [ds [E1 E2]]; [intros o' Ho'; apply H; right; exact Ho'|].
  destruct (H o (or_introl eq_refl)) as [d ->]. destruct d as [|e d]; cbn [collect_sequential]; unfold collect_concurrent; cbn [flat_map].
  - exists ds. split; [exact E1|exact E2].
  - rewrite E1. exists ((e :: d) :: ds). split; [reflexivity|]. rewrite E2. reflexivity.
Qed.

(** The arrays read for a sample, in the order of the runs. *)
Definition arrays_read (name : string) (runs : list outcome) : list darr :=
  flat_map (fun o => match o with Read d => match sget name d with Some (Some x) => [x] | _ => [] end | _ => [] end) runs.

Lemma arrays_read_eq : forall name runs, sample_arrays name (collect_concurrent runs) = arrays_read name runs.
Proof.
  intros name. unfold sample_arrays, collect_concurrent, arrays_read. induction runs as [|o runs IH]; [reflexivity|].
  cbn [flat_map]. rewrite flat_map_app, IH. f_equal. destruct o as [[|e d]| |]; cbn [flat_map]; try reflexivity. rewrite app_nil_r. reflexivity.
Qed.

(** Loading a sample with workers, in whatever order the runs finish, gives the
    arrays that loading it without workers gives, up to their order, when every
    run can be read and no two arrays of a group have the same sort key. *)
Theorem C109_workers_partial : forall K core train (leb : K -> K -> bool) key join group_by name cd dims runs finished,
  core name = Some cd -> total_order leb ->
  (forall o, In o runs -> exists d, o = Read d) -> Permutation finished runs ->
  uniform name dims (arrays_read name runs) ->
  (forall x y, In x (arrays_read name runs) -> In y (arrays_read name runs) ->
     agree (filter (fun k => smem k (cd ++ group_by ++ train)) dims) x y -> key x = key y -> x = y) ->
  exists ds a b, collect_sequential runs = Ok ds /\
    load_sample core train leb key join group_by name ds = Ok a /\
    load_sample core train leb key join group_by name (collect_concurrent finished) = Ok b /\ Permutation a b.
Proof.
  intros K core train leb key join group_by name cd dims runs finished Hc HO HR HP HU HD.
  destruct (collect_reads runs HR) as [ds [E1 E2]]. exists ds. unfold load_sample. rewrite E2, !arrays_read_eq.
  destruct (load_perm K core train leb key join group_by name cd dims (arrays_read name runs) (arrays_read name finished) Hc HO) as [a [b [Ea [Eb Eab]]]].
  - unfold arrays_read. apply Permutation_flat_map. symmetry; exact HP.
  - exact HU.
  - exact HD.
  - exists a, b. split; [rewrite E1, E2; reflexivity|]. split; [exact Ea|]. split; [exact Eb|exact Eab].
Qed.
Print Assumptions C109_workers_partial.

Definition ex_run (sigma seed : string) (i : Z) : outcome := Read [("table", Some (ex_arr sigma seed i))].
(** xr.combine_by_coords stood in for by the numbers of its arrays. *)
Definition ex_join (g : list darr) : darr :=
  match g with
  | [] => ex_arr "" "" 0
  | x :: _ => Darr (arr_name x) (arr_dims x) (arr_coords x) (fold_left (fun a y => 10 * a + arr_id y)%Z g 0%Z)
  end.

Example C109_nonvacuous :
  let runs := [ex_run "0.1" "1" 1; ex_run "0.2" "1" 2; ex_run "0.1" "2" 3] in
  let finished := [ex_run "0.2" "1" 2; ex_run "0.1" "2" 3; ex_run "0.1" "1" 1] in
  let load := load_sample (fun _ => Some ["iter"]) [] Z.leb arr_id ex_join ["sigma"] "table" in
  total_order Z.leb /\ Permutation finished runs /\
  uniform "table" ["iter"; "sigma"; "seed"] (arrays_read "table" runs) /\
  (forall x y, In x (arrays_read "table" runs) -> In y (arrays_read "table" runs) -> arr_id x = arr_id y -> x = y) /\
  (do r <- load (collect_concurrent runs) ; Ok (map arr_id r)) = Ok [13; 2]%Z /\
  (do r <- load (collect_concurrent finished) ; Ok (map arr_id r)) = Ok [2; 13]%Z.
Proof.
  cbn zeta. split.
  { repeat split; intros; rewrite ?Z.leb_le in *; lia. }
  split.
  { eapply perm_trans; [|apply perm_swap]. apply perm_skip. apply perm_swap. }
  split.
  { intros d [<-|[<-|[<-|[]]]]; (split; [reflexivity|]); (split; [reflexivity|]); intros k [<-|[<-|[<-|[]]]]; discriminate. }
  split.
  { intros x y [<-|[<-|[<-|[]]]] [<-|[<-|[<-|[]]]] H; cbn in H; first [reflexivity|discriminate]. }
  split; reflexivity.
Qed.

(** The order of the loaded arrays depends on which run finishes first. *)
Theorem C109_order_refuted :
  exists core train group_by (join : list darr -> darr) name runs finished ds a b,
  Permutation finished runs /\ collect_sequential runs = Ok ds /\
  load_sample core train Z.leb arr_id join group_by name ds = Ok a /\
  load_sample core train Z.leb arr_id join group_by name (collect_concurrent finished) = Ok b /\ a <> b.
Proof.
  exists (fun _ => Some ["iter"]), [], ["sigma"], ex_join, "table", [ex_run "0.1" "1" 1; ex_run "0.2" "1" 2], [ex_run "0.2" "1" 2; ex_run "0.1" "1" 1].
  eexists; eexists; eexists. split; [apply perm_swap|]. split; [reflexivity|]. split; [reflexivity|]. split; [reflexivity|]. discriminate.
Qed.
Print Assumptions C109_order_refuted.

(** A run whose outputs cannot be processed makes loading fail without workers
    and is left out without notice with workers. *)
Theorem C109_failed_run_refuted : forall before after,
  (forall o, In o before -> exists d, o = Read d) ->
  collect_sequential (before ++ FailedRun :: after) = Raise EExn /\
  collect_concurrent (before ++ FailedRun :: after) = collect_concurrent (before ++ after).
Proof.
  intros before after H. split.
  - induction before as [|o before IH]; [reflexivity|]. cbn [app].
    destruct (H o (or_introl eq_refl)) as [d ->].
    assert (E : collect_sequential (before ++ FailedRun :: after) = Raise EExn) by (apply IH; intros o' Ho'; apply H; right; exact Ho').
    destruct d; cbn [collect_sequential]; rewrite E; reflexivity.
  - unfold collect_concurrent. rewrite !flat_map_app. reflexivity.
Qed.
Print Assumptions C109_failed_run_refuted.

Example C109_failed_nonvacuous :
  collect_sequential [ex_run "0.1" "1" 1; FailedRun] = Raise EExn /\
  collect_concurrent [ex_run "0.1" "1" 1; FailedRun] = [[("table", Some (ex_arr "0.1" "1" 1))]].
Proof. split; reflexivity. Qed.

(** ---- C110: saving and re-reading --------------------------------------------- *)

(** Numbers found in the listing. *)
Lemma insert_nat_in : forall n l m, In m (insert_nat n l) <-> m = n \/ In m l.
Proof.
  intros n. induction l as [|x l IH]; intros m; [cbn; intuition congruence|]. cbn [insert_nat].
  destruct (Nat.ltb n x); [cbn; intuition congruence|]. destruct (Nat.eqb n x) eqn:E.
  - apply Nat.eqb_eq in E. subst. cbn. intuition congruence.
  - cbn [In]. rewrite IH. intuition congruence.
Qed.
Lemma insert_nat_sorted : forall n l, StronglySorted lt l -> StronglySorted lt (insert_nat n l).
Proof.
  intros n l H. induction H as [|x l HS IH HF]; [repeat constructor|]. cbn [insert_nat].
  destruct (Nat.ltb n x) eqn:E.
  - apply Nat.ltb_lt in E. constructor; [constructor; assumption|]. constructor; [exact E|]. eapply Forall_impl; [|exact HF]. intros; cbv beta in *; lia.
  - apply Nat.ltb_ge in E. destruct (Nat.eqb n x) eqn:F; [constructor; assumption|]. apply Nat.eqb_neq in F.
    constructor; [exact IH|]. rewrite Forall_forall in *. intros z Hz. apply insert_nat_in in Hz as [->|Hz]; [lia|apply HF; exact Hz].
Qed.
Lemma sorted_lt_unique : forall l l', StronglySorted lt l -> StronglySorted lt l' -> (forall x, In x l <-> In x l') -> l = l'.
Proof.
  induction l as [|x l IH]; intros l' H1 H2 HE.
  - destruct l' as [|y l']; [reflexivity|]. exfalso. apply (HE y). left; reflexivity.
  - destruct l' as [|y l']; [exfalso; apply (HE x); left; reflexivity|].
    inversion H1 as [|? ? S1 F1]; subst. inversion H2 as [|? ? S2 F2]; subst. rewrite Forall_forall in F1, F2.
    assert (x = y) as ->.
    { destruct (proj1 (HE x) (or_introl eq_refl)) as [->|Hx]; [reflexivity|].
      destruct (proj2 (HE y) (or_introl eq_refl)) as [->|Hy]; [reflexivity|]. specialize (F1 y Hy). specialize (F2 x Hx). lia. }
    f_equal. apply IH; [exact S1|exact S2|]. intros z. split; intros Hz.
    + destruct (proj1 (HE z) (or_intror Hz)) as [->|H]; [specialize (F1 z Hz); lia|exact H].
    + destruct (proj2 (HE z) (or_intror Hz)) as [->|H]; [specialize (F2 z Hz); lia|exact H].
Qed.
Lemma group_numbers_in : forall listing n i, In i (group_numbers listing n) <-> In (n, i) listing.
Proof.
  unfold group_numbers. induction listing as [|[m j] l IH]; intros n i; [reflexivity|]. cbn [fold_right fst snd].
  destruct (String.eqb m n) eqn:E.
  - apply String.eqb_eq in E. subst. rewrite insert_nat_in, IH. cbn [In]. intuition congruence.
  - apply String.eqb_neq in E. rewrite IH. cbn [In]. intuition congruence.
Qed.
Lemma group_numbers_sorted : forall listing n, StronglySorted lt (group_numbers listing n).
Proof.
  unfold group_numbers. induction listing as [|[m j] l IH]; intros n; [constructor|]. cbn [fold_right fst snd].
  destruct (String.eqb m n); [apply insert_nat_sorted|]; apply IH.
Qed.
Lemma seq_sorted : forall m a, StronglySorted lt (seq a m).
Proof. induction m as [|m IH]; intros a; [constructor|]. cbn [seq]. constructor; [apply IH|]. rewrite Forall_forall. intros x Hx. apply in_seq in Hx. lia. Qed.

Lemma index_from_in : forall A (l : list A) a i x, In (i, x) (index_from a l) <-> (a <= i)%nat /\ nth_error l (i - a) = Some x.
Proof.
  induction l as [|y l IH]; intros a i x; cbn [index_from In].
  - split; [intros []|]. intros [_ H]. destruct (i - a); discriminate.
  - rewrite IH. split.
    + intros [E|[H1 H2]].
      * injection E as <- <-. rewrite Nat.sub_diag. split; [lia|reflexivity].
      * split; [lia|]. replace (i - a) with (S (i - S a)) by lia. exact H2.
    + intros [H1 H2]. destruct (Nat.eq_dec i a) as [->|Hne].
      * left. rewrite Nat.sub_diag in H2. cbn in H2. congruence.
      * right. split; [lia|]. replace (i - a) with (S (i - S a)) in H2 by lia. exact H2.
Qed.

Lemma write_in : forall c n i x, In ((n, i), x) (write_collection c) <-> exists l, In (n, l) c /\ nth_error l i = Some x.
Proof.
  intros c n i x. unfold write_collection. rewrite in_flat_map. split.
  - intros [[m l] [Hin H]]. cbn [fst snd] in H. apply in_map_iff in H as [[j y] [E H]]. cbn [fst snd] in E. injection E as <- <- <-.
    apply index_from_in in H as [_ H]. rewrite Nat.sub_0_r in H. exists l. auto.
  - intros [l [Hin H]]. exists (n, l). split; [exact Hin|]. cbn [fst snd]. apply in_map_iff. exists (i, x). split; [reflexivity|].
    apply index_from_in. split; [lia|]. rewrite Nat.sub_0_r. exact H.
Qed.

Lemma file_get_spec : forall (f : saved) k x, In (k, x) f -> (forall y, In (k, y) f -> y = x) -> file_get k f = Some x.
Proof.
  induction f as [|[[n i] y] f IH]; intros [m j] x Hin HU; [destruct Hin|]. cbn [file_get fst snd].
  destruct (String.eqb m n && Nat.eqb j i) eqn:E.
  - apply andb_true_iff in E as [E1 E2]. apply String.eqb_eq in E1. apply Nat.eqb_eq in E2. subst. f_equal. apply HU. left; reflexivity.
  - apply IH; [|intros z Hz; apply HU; right; exact Hz]. destruct Hin as [Hin|Hin]; [|exact Hin].
    injection Hin as -> -> ->. rewrite String.eqb_refl, Nat.eqb_refl in E. discriminate.
Qed.

Lemma NoDup_fst_eq : forall A (c : list (string * A)) n l l', NoDup (map fst c) -> In (n, l) c -> In (n, l') c -> l = l'.
Proof.
  induction c as [|[m z] c IH]; intros n l l' HN H1 H2; [destruct H1|]. cbn [map fst] in HN. inversion HN as [|? ? Hx HN']; subst.
  destruct H1 as [H1|H1], H2 as [H2|H2].
  - congruence.
  - injection H1 as -> ->. exfalso. apply Hx. apply in_map_iff. exists (n, l'). auto.
  - injection H2 as -> ->. exfalso. apply Hx. apply in_map_iff. exists (n, l). auto.
  - eapply IH; eassumption.
Qed.

Lemma read_all_app : forall f a b, read_all f (a ++ b) = (do x <- read_all f a ; do y <- read_all f b ; Ok (x ++ y)).
Proof.
  induction a as [|k a IH]; intros b; cbn [read_all app rbind]; [destruct (read_all f b); reflexivity|].
  destruct (file_get k f); [|reflexivity]. rewrite IH. destruct (read_all f a); cbn [rbind]; [|reflexivity].
  destruct (read_all f b); reflexivity.
Qed.

Lemma read_seq : forall f n l a, (forall i x, nth_error l i = Some x -> file_get (n, a + i) f = Some x) ->
  read_all f (map (fun i => (n, i)) (seq a (List.length l))) = Ok l.
Proof.
  induction l as [|x l IH]; intros a H; [reflexivity|]. cbn [List.length seq map read_all].
  rewrite <- (Nat.add_0_r a) at 1. rewrite (H 0%nat x eq_refl). rewrite IH; [reflexivity|].
  intros i y Hi. replace (S a + i) with (a + S i) by lia. apply H. exact Hi.
Qed.

(** Grouping treats samples independently. *)
Definition of_name (n : string) (d : darr) : bool := String.eqb (arr_name d) n.
Definition restrict {A} (n : string) (c : coll A) : coll A := match sget n c with Some g => [(n, g)] | None => [] end.

Lemma sget_sset_eq : forall A n (v : A) c, sget n (sset n v c) = Some v.
Proof.
  intros A n v. induction c as [|[m x] c IH]; cbn [sset sget]; [rewrite String.eqb_refl; reflexivity|].
  destruct (String.eqb n m) eqn:E; cbn [sget]; [rewrite ?E, ?String.eqb_refl; reflexivity|rewrite E; exact IH].
Qed.
Lemma sget_sset_ne : forall A n m (v : A) c, m <> n -> sget m (sset n v c) = sget m c.
Proof.
  intros A n m v c H. apply String.eqb_neq in H. induction c as [|[k x] c IH]; cbn [sset sget]; [rewrite H; reflexivity|].
  destruct (String.eqb n k) eqn:E; cbn [sget].
  - apply String.eqb_eq in E. subst k. rewrite H. reflexivity.
  - rewrite IH. reflexivity.
Qed.

Lemma group_restrict : forall core train group_by c d c1,
  group_sample core train group_by (restrict (arr_name d) c) d = Ok c1 ->
  exists c', group_sample core train group_by c d = Ok c' /\ c1 = restrict (arr_name d) c' /\
    forall n, n <> arr_name d -> restrict n c' = restrict n c.
Proof.
  intros core train group_by c d c1 H. unfold group_sample, restrict in *. destruct (core (arr_name d)) as [cd|]; [|discriminate].
  destruct (sget (arr_name d) c) as [gs|] eqn:E.
  - cbn [sget] in H. rewrite String.eqb_refl in H. destruct gs as [|[|x g] gs]; try discriminate.
    apply rbind_Ok_inv in H as [gs' [Hg H]]. rewrite Hg. cbn [rbind]. eexists. split; [reflexivity|].
    cbn [sset] in H. rewrite String.eqb_refl in H. injection H as <-. rewrite sget_sset_eq. split; [reflexivity|].
    intros n Hn. rewrite sget_sset_ne by exact Hn. reflexivity.
  - cbn [sget sset] in H. injection H as <-. eexists. split; [reflexivity|]. rewrite sget_sset_eq. split; [reflexivity|].
    intros n Hn. rewrite sget_sset_ne by exact Hn. reflexivity.
Qed.

Lemma group_independent : forall core train group_by ds c,
  (forall n, exists c1, rfold (group_sample core train group_by) (filter (of_name n) ds) (restrict n c) = Ok c1) ->
  exists c', rfold (group_sample core train group_by) ds c = Ok c' /\
    forall n, rfold (group_sample core train group_by) (filter (of_name n) ds) (restrict n c) = Ok (restrict n c').
Proof.
  intros core train group_by. induction ds as [|d ds IH]; intros c H; [exists c; split; [reflexivity|intros n; reflexivity]|].
  destruct (H (arr_name d)) as [c1 H1]. cbn [filter] in H1. unfold of_name at 1 in H1. rewrite String.eqb_refl in H1. cbn [rfold] in H1.
  apply rbind_Ok_inv in H1 as [c2 [H1 H2]]. apply group_restrict in H1 as [c3 [H1 [-> H3]]].
  assert (HO : forall n, rfold (group_sample core train group_by) (filter (of_name n) (d :: ds)) (restrict n c) =
                         rfold (group_sample core train group_by) (filter (of_name n) ds) (restrict n c3)).
  { intros n. cbn [filter]. unfold of_name at 1. destruct (String.eqb (arr_name d) n) eqn:E.
    - apply String.eqb_eq in E. subst n. destruct (H (arr_name d)) as [c4 H4]. cbn [filter] in H4. unfold of_name at 1 in H4.
      rewrite String.eqb_refl in H4. cbn [rfold] in *. destruct (group_sample core train group_by (restrict (arr_name d) c) d) as [c5|] eqn:E5; [|discriminate].
      apply group_restrict in E5 as [c6 [E6 [-> _]]]. cbn [rbind]. congruence.
    - apply String.eqb_neq in E. rewrite (H3 n) by congruence. reflexivity. }
  destruct (IH c3) as [c' [E1 E2]].
  - intros n. rewrite <- HO. apply H.
  - exists c'. split; [cbn [rfold]; rewrite H1; exact E1|]. intros n. rewrite HO. apply E2.
Qed.

(** The arrays of a sample as a loaded collection holds them: with the same
    labelled dimensions and, unless all dimensions are shared, no two with the
    same labels along the shared dimensions. *)
Definition separate (shared : list string) (name : string) (l : list darr) : Prop :=
  exists dims, uniform name dims l /\
  ((exists k, In k dims /\ ~ In k shared) ->
   forall i j x y, nth_error l i = Some x -> nth_error l j = Some y ->
     agree (filter (fun k => smem k shared) dims) x y -> i = j).

Lemma separate_rev : forall shared name l, separate shared name l -> separate shared name (rev l).
Proof.
  intros shared name l [dims [HU HD]]. exists dims. split; [intros d Hd; apply HU, in_rev, Hd|].
  intros HK i j x y Hi Hj HA.
  assert (Li : i < List.length l) by (rewrite <- rev_length; apply nth_error_Some; congruence).
  assert (Lj : j < List.length l) by (rewrite <- rev_length; apply nth_error_Some; congruence).
  assert (R : forall k z, k < List.length l -> nth_error (rev l) k = Some z -> nth_error l (List.length l - S k) = Some z).
  { intros k z Lk Hk. rewrite (nth_error_nth' _ z) in Hk by (rewrite rev_length; exact Lk). rewrite rev_nth in Hk by exact Lk.
    rewrite (nth_error_nth' _ z) by lia. exact Hk. }
  specialize (HD HK _ _ _ _ (R i x Li Hi) (R j y Lj Hj) HA). lia.
Qed.

Lemma nth_error_same : forall A (l l' : list A), (forall i, nth_error l i = nth_error l' i) -> l = l'.
Proof.
  intros A. induction l as [|x l IH]; intros [|y l'] H; [reflexivity|specialize (H 0); discriminate|specialize (H 0); discriminate|].
  f_equal; [specialize (H 0); cbn in H; congruence|]. apply IH. intros i. apply (H (S i)).
Qed.

Lemma group_separate : forall core train group_by cd name l, core name = Some cd -> l <> [] ->
  separate (cd ++ group_by ++ train) name l -> group_samples core train group_by l [] = Ok [(name, map (fun d => [d]) l)].
Proof.
  intros core train group_by cd name l Hc Hne [dims [HU HD]].
  destruct (C108_grouping core train group_by cd dims name l Hc HU Hne) as [gs [E [H1 H2]]]. rewrite E. f_equal. f_equal. f_equal.
  set (shared := cd ++ group_by ++ train) in *.
  destruct (forallb (fun k => smem k shared) dims) eqn:F.
  - apply H2. intros k Hk. apply smem_spec. rewrite forallb_forall in F. apply F, Hk.
  - assert (HK : exists k, In k dims /\ ~ In k shared).
    { apply not_true_iff_false in F. clear -F. induction dims as [|k dims IH]; [exfalso; apply F; reflexivity|].
      destruct (smem k shared) eqn:G.
      + destruct IH as [k' [H1 H2]]; [intros H; apply F; cbn [forallb]; rewrite G; exact H|]. exists k'. split; [right; exact H1|exact H2].
      + exists k. split; [left; reflexivity|]. intros H. apply smem_spec in H. congruence. }
    clear H2. cbn zeta in H1. destruct (H1 HK) as [reps [HS [HL [HC [HI HG]]]]]. specialize (HD HK). clear H1 HK F E.
    assert (Hreps : reps = l).
    { assert (HS' : forall r, In r l -> In r reps).
      { intros r Hr. destruct (HC r Hr) as [s [Hs As]].
        apply In_nth_error in Hr as [i Hi]. assert (Hs' := Hs). eapply subseq_in in Hs'; [|exact HS]. apply In_nth_error in Hs' as [j Hj].
        assert (j = i) by (eapply HD; eassumption). subst j. congruence. }
      assert (HNl : NoDup l).
      { apply NoDup_nth_error. intros i j Hi Hij. apply nth_error_Some in Hi. destruct (nth_error l i) as [x|] eqn:Ex; [|congruence].
        eapply HD; [exact Ex|symmetry; exact Hij|apply agree_refl]. }
      clear -HS HS' HNl. induction HS as [|x a b HS IH|x a b HS IH]; [reflexivity| |].
      - inversion HNl as [|? ? Hx HN]; subst. exfalso. apply Hx. eapply subseq_in; [exact HS|]. apply HS'. left; reflexivity.
      - inversion HNl as [|? ? Hx HN]; subst. f_equal. apply IH; [|exact HN]. intros r Hr.
        destruct (HS' r (or_intror Hr)) as [->|H]; [contradiction|exact H]. }
    subst reps. apply nth_error_same. intros i. rewrite nth_error_map.
    destruct (nth_error l i) as [x|] eqn:Ex.
    + destruct (nth_error gs i) as [g|] eqn:Eg.
      * destruct (HG i x g Ex Eg) as [HSg [[t ->] Hin]]. cbn [option_map]. f_equal. f_equal. destruct t as [|y t]; [reflexivity|]. exfalso.
        assert (Hy : In y (x :: y :: t)) by (right; left; reflexivity). apply Hin in Hy as [Hy Ay]. apply In_nth_error in Hy as [j Hj].
        assert (i = j) by (eapply HD; eassumption). subst j. rewrite Ex in Hj. injection Hj as <-.
        assert (HNl : NoDup l).
        { apply NoDup_nth_error. intros i' j' Hi' Hij. apply nth_error_Some in Hi'. destruct (nth_error l i') as [z|] eqn:Ez; [|congruence].
          eapply HD; [exact Ez|symmetry; exact Hij|apply agree_refl]. }
        assert (NoDup (x :: x :: t)).
        { clear -HSg HNl. revert HSg. generalize (x :: x :: t). intros g HS. induction HS as [|z a b HS IH|z a b HS IH]; [constructor| |].
          - inversion HNl; auto.
          - inversion HNl as [|? ? Hz HN]; subst. constructor; [|auto]. intros H. apply Hz. eapply subseq_in; eassumption. }
        inversion H as [|? ? Hx _]; subst. apply Hx. left; reflexivity.
      * exfalso. apply nth_error_None in Eg. assert (i < List.length l) by (apply nth_error_Some; congruence). lia.
    + apply nth_error_None. apply nth_error_None in Ex. lia.
Qed.

Lemma flat_rev_filter : forall (names : list string) (f : string -> list darr) n,
  (forall m, In m names -> forall d, In d (f m) -> arr_name d = m) -> NoDup names ->
  filter (of_name n) (rev (flat_map f names)) = if existsb (String.eqb n) names then rev (f n) else [].
Proof.
  induction names as [|m names IH]; intros f n Hf HN; [reflexivity|]. inversion HN as [|? ? Hm HN']; subst.
  cbn [flat_map existsb]. rewrite rev_app_distr, filter_app, IH; [|intros k Hk; apply Hf; right; exact Hk|exact HN'].
  assert (Hfm : forall d, In d (rev (f m)) -> of_name n d = String.eqb n m).
  { intros d Hd. unfold of_name. rewrite (Hf m (or_introl eq_refl) d); [apply String.eqb_sym|apply in_rev; exact Hd]. }
  assert (Hall : filter (of_name n) (rev (f m)) = if String.eqb n m then rev (f m) else []).
  { clear -Hfm. induction (rev (f m)) as [|d l IHl]; [destruct (String.eqb n m); reflexivity|].
    cbn [filter]. rewrite (Hfm d (or_introl eq_refl)), IHl by (intros e He; apply Hfm; right; exact He).
    destruct (String.eqb n m); reflexivity. }
  rewrite Hall. destruct (String.eqb n m) eqn:E; [|cbn [orb]; rewrite app_nil_r; reflexivity].
  apply String.eqb_eq in E. subst m. cbn [orb].
  destruct (existsb (String.eqb n) names) eqn:F; [|reflexivity].
  exfalso. apply Hm. apply existsb_exists in F as [z [Hz Ez]]. apply String.eqb_eq in Ez. subst z. exact Hz.
Qed.

Lemma sget_map : forall A B (f : A -> B) c n, sget n (map (fun e : string * A => (fst e, f (snd e))) c) = option_map f (sget n c).
Proof.
  intros A B f c n. induction c as [|[m x] c IH]; [reflexivity|]. cbn [map sget fst snd]. destruct (String.eqb n m); [reflexivity|exact IH].
Qed.

Lemma sget_in : forall A (c : list (string * A)) n l, NoDup (map fst c) -> In (n, l) c -> sget n c = Some l.
Proof.
  induction c as [|[m x] c IH]; intros n l HN Hin; [destruct Hin|]. cbn [map fst] in HN. inversion HN as [|? ? Hx HN']; subst. cbn [sget].
  destruct Hin as [E|Hin].
  - injection E as -> ->. rewrite String.eqb_refl. reflexivity.
  - destruct (String.eqb n m) eqn:E; [|apply IH; assumption]. apply String.eqb_eq in E. subst m. exfalso. apply Hx, in_map_iff. exists (n, l). auto.
Qed.
Lemma sget_notin : forall A (c : list (string * A)) n, ~ In n (map fst c) -> sget n c = None.
Proof.
  induction c as [|[m x] c IH]; intros n H; [reflexivity|]. cbn [sget]. destruct (String.eqb n m) eqn:E.
  - apply String.eqb_eq in E. subst m. exfalso. apply H. left; reflexivity.
  - apply IH. intros Hin. apply H. right; exact Hin.
Qed.

(** A saved collection, re-read whatever the order in which its files are
    listed, gives for each requested sample that was saved the arrays saved, in
    the reverse order; the requested samples that were not saved are reported as
    not loaded and samples that were not requested are not read. *)
Theorem C110_reread_partial : forall core train join group_by c listing names,
  NoDup (map fst c) -> NoDup names ->
  (forall n l, In (n, l) c -> l <> [] /\ exists cd, core n = Some cd /\ separate (cd ++ group_by ++ train) n l) ->
  Permutation listing (map fst (write_collection c)) ->
  exists c', read_collection core train join group_by (write_collection c) listing names =
      Ok (c', filter (fun n => negb (smem n (map fst c))) names) /\
    (forall n l, In n names -> In (n, l) c -> sget n c' = Some (rev l)) /\
    (forall n, ~ In n names \/ ~ In n (map fst c) -> sget n c' = None).
Proof.
  intros core train join group_by c listing names HNc HNn HC HP.
  assert (HL : forall n i, In (n, i) listing <-> exists l, In (n, l) c /\ i < List.length l).
  { intros n i. split.
    - intros H. eapply Permutation_in in H; [|exact HP]. apply in_map_iff in H as [[k x] [E H]]. cbn in E. subst k.
      apply write_in in H as [l [H1 H2]]. exists l. split; [exact H1|]. apply nth_error_Some. congruence.
    - intros [l [H1 H2]]. apply nth_error_Some in H2. destruct (nth_error l i) as [x|] eqn:E; [|congruence].
      eapply Permutation_in; [symmetry; exact HP|]. apply in_map_iff. exists ((n, i), x). split; [reflexivity|]. apply write_in. exists l. auto. }
  assert (HPres : forall n, existsb (fun k : string * nat => String.eqb (fst k) n) listing = smem n (map fst c)).
  { intros n. destruct (smem n (map fst c)) eqn:E.
    - apply smem_spec, in_map_iff in E as [[m l] [<- Hin]]. destruct (HC m l Hin) as [Hne _].
      apply existsb_exists. exists (m, 0). split; [apply HL; exists l; split; [exact Hin|destruct l; [congruence|cbn; lia]]|apply String.eqb_refl].
    - destruct (existsb (fun k : string * nat => String.eqb (fst k) n) listing) eqn:F; [|reflexivity].
      apply existsb_exists in F as [[m i] [Hin Em]]. cbn in Em. apply String.eqb_eq in Em. subst m.
      apply HL in Hin as [l [Hin _]]. exfalso. assert (In n (map fst c)) by (apply in_map_iff; exists (n, l); auto).
      apply smem_spec in H. congruence. }
  unfold read_collection. destruct listing as [|k0 listing].
  { assert (c = []) as ->.
    { destruct c as [|[n l] c]; [reflexivity|]. exfalso. destruct (HC n l (or_introl eq_refl)) as [Hne _].
      apply (HL n 0). exists l. split; [left; reflexivity|destruct l; [congruence|cbn; lia]]. }
    exists []. split; [|split; [intros n l _ []|intros n _; reflexivity]].
    assert (E : filter (fun n => negb (smem n (map fst (@nil (string * list darr))))) names = names).
    { clear. induction names as [|n names IH]; [reflexivity|]. cbn [filter map smem existsb negb]. f_equal. exact IH. }
    rewrite E. reflexivity. }
  set (lst := k0 :: listing) in *. clearbody lst.
  rewrite (filter_ext (fun n => existsb (fun k : string * nat => String.eqb (fst k) n) lst) (fun n => smem n (map fst c)) HPres).
  rewrite (filter_ext (fun n => negb (existsb (fun k : string * nat => String.eqb (fst k) n) lst)) (fun n => negb (smem n (map fst c)))
     (fun n => f_equal negb (HPres n))).
  set (to_load := filter (fun n => smem n (map fst c)) names).
  assert (HT : forall n, In n to_load <-> In n names /\ exists l, In (n, l) c).
  { intros n. unfold to_load. rewrite filter_In, smem_spec, in_map_iff. split.
    - intros [H1 [[m l] [E H2]]]. cbn in E. subst m. split; [exact H1|exists l; exact H2].
    - intros [H1 [l H2]]. split; [exact H1|exists (n, l); auto]. }
  assert (HNt : NoDup to_load) by (apply NoDup_filter; exact HNn). clearbody to_load.
  set (f := fun n => match sget n c with Some l => l | None => [] end).
  assert (Hf : forall n l, In (n, l) c -> f n = l) by (intros n l Hin; unfold f; rewrite (sget_in _ c n l HNc Hin); reflexivity).
  assert (HR : read_all (write_collection c) (flat_map (fun n => map (fun i => (n, i)) (group_numbers lst n)) to_load) = Ok (flat_map f to_load)).
  { clear HNt. assert (HT' : forall n, In n to_load -> exists l, In (n, l) c) by (intros n Hn; apply HT; exact Hn). clear HT.
    induction to_load as [|n tl IH]; [reflexivity|]. cbn [flat_map]. rewrite read_all_app.
    rewrite IH by (intros m Hm; apply HT'; right; exact Hm).
    destruct (HT' n (or_introl eq_refl)) as [l Hl]. rewrite (Hf n l Hl).
    assert (group_numbers lst n = seq 0 (List.length l)) as ->.
    { apply sorted_lt_unique; [apply group_numbers_sorted|apply seq_sorted|]. intros i. rewrite group_numbers_in, HL, in_seq. split.
      - intros [l' [H1 H2]]. rewrite (NoDup_fst_eq _ c n l l' HNc Hl H1). lia.
      - intros H. exists l. split; [exact Hl|lia]. }
    rewrite read_seq; [reflexivity|]. intros i x Hi. cbn [Nat.add]. apply file_get_spec; [apply write_in; exists l; auto|].
    intros y Hy. apply write_in in Hy as [l' [H1 H2]]. rewrite <- (NoDup_fst_eq _ c n l l' HNc Hl H1) in H2. congruence. }
  rewrite HR. cbn [rbind]. unfold collection_of_list.
  assert (HFil : forall n, filter (of_name n) (rev (flat_map f to_load)) = if existsb (String.eqb n) to_load then rev (f n) else []).
  { intros n. apply flat_rev_filter; [|exact HNt]. intros m Hm d Hd. apply HT in Hm as [_ [l Hl]]. rewrite (Hf m l Hl) in Hd.
    destruct (HC m l Hl) as [_ [cd [_ [dims [HU _]]]]]. apply HU, Hd. }
  assert (HG : forall n, rfold (group_sample core train group_by) (filter (of_name n) (rev (flat_map f to_load))) (restrict n []) =
    Ok (if existsb (String.eqb n) to_load then [(n, map (fun d => [d]) (rev (f n)))] else [])).
  { intros n. rewrite HFil. destruct (existsb (String.eqb n) to_load) eqn:E; [|reflexivity].
    apply existsb_exists in E as [m [Hm Em]]. apply String.eqb_eq in Em. subst m. apply HT in Hm as [_ [l Hl]]. rewrite (Hf n l Hl).
    destruct (HC n l Hl) as [Hne [cd [Hc HS]]]. apply (group_separate core train group_by cd n (rev l) Hc); [|apply separate_rev; exact HS].
    intros E. apply Hne. rewrite <- (rev_involutive l), E. reflexivity. }
  destruct (group_independent core train group_by (rev (flat_map f to_load)) []) as [c1 [E1 E2]].
  { intros n. eexists. apply HG. }
  rewrite E1. cbn [rbind].
  set (F := map (fun g : list darr => match g with [x] => x | _ => join g end)).
  change (map (fun e : string * list (list darr) => (fst e, map (fun g : list darr => match g with [x] => x | _ => join g end) (snd e))) c1)
    with (map (fun e : string * list (list darr) => (fst e, F (snd e))) c1).
  eexists. split; [reflexivity|]. split.
  - intros n l Hn Hl. rewrite sget_map. specialize (E2 n). rewrite HG in E2.
    assert (existsb (String.eqb n) to_load = true) as EE by (apply existsb_exists; exists n; split; [apply HT; eauto|apply String.eqb_refl]).
    rewrite EE in E2. rewrite (Hf n l Hl) in E2. unfold restrict in E2.
    destruct (sget n c1) as [g|]; [|discriminate]. injection E2 as <-. cbn [option_map]. f_equal. unfold F. rewrite map_map. apply map_id.
  - intros n Hn. rewrite sget_map. specialize (E2 n). rewrite HG in E2.
    assert (existsb (String.eqb n) to_load = false) as EE.
    { destruct (existsb (String.eqb n) to_load) eqn:E; [|reflexivity]. exfalso. apply existsb_exists in E as [m [Hm Em]].
      apply String.eqb_eq in Em. subst m. apply HT in Hm as [H1 [l H2]]. destruct Hn as [Hn|Hn]; [contradiction|]. apply Hn, in_map_iff. exists (n, l). auto. }
    rewrite EE in E2. unfold restrict in E2. destruct (sget n c1); [discriminate|reflexivity].
Qed.
Print Assumptions C110_reread_partial.

Definition ex_tab (n sigma : string) (i : Z) : darr := Darr n ["iter"; "sigma"] [("iter", ["0"; "1"]); ("sigma", [sigma])] i.

Example C110_nonvacuous :
  let c := [("table", [ex_tab "table" "0.1" 1; ex_tab "table" "0.2" 2]); ("theta", [ex_tab "theta" "0.1" 3; ex_tab "theta" "0.2" 4])] in
  NoDup (map fst c) /\
  (forall n l, In (n, l) c -> l <> [] /\ exists cd, (fun _ : string => Some ["iter"]) n = Some cd /\ separate (cd ++ ["sigma"] ++ []) n l) /\
  read_collection (fun _ => Some ["iter"]) [] ex_join ["sigma"] (write_collection c)
    [("theta", 1); ("table", 0); ("table", 1); ("theta", 0)] ["table"; "sigma"] =
    Ok ([("table", [ex_tab "table" "0.2" 2; ex_tab "table" "0.1" 1])], ["sigma"]).
Proof.
  cbn zeta. split; [repeat constructor; cbn; intuition congruence|]. split; [|reflexivity].
  intros n l [E|[E|[]]]; injection E as <- <-; (split; [discriminate|]); exists ["iter"]; (split; [reflexivity|]);
    exists ["iter"; "sigma"]; split;
    try (intros d [<-|[<-|[]]]; (split; [reflexivity|]); (split; [reflexivity|]); intros k [<-|[<-|[]]]; discriminate);
    intros [k [[<-|[<-|[]]] H]]; exfalso; apply H; cbn; auto.
Qed.

(** Re-reading reverses the elements: element i of the saved collection is not
    element i of the one read, and a sample read back no longer lines up with
    one loaded afresh. *)
Theorem C110_order_refuted :
  exists core train join group_by (runs : list outcome) ds a b c' to_load,
  collect_sequential runs = Ok ds /\
  load_sample core train Z.leb arr_id join group_by "table" ds = Ok a /\
  load_sample core train Z.leb arr_id join group_by "theta" ds = Ok b /\
  read_collection core train join group_by (write_collection [("table", a)]) (map fst (write_collection [("table", a)])) ["table"; "theta"]
    = Ok (c', to_load) /\ to_load = ["theta"] /\
  (exists a', sget "table" c' = Some a' /\ a' <> a /\
     exists x y, nth_error a' 0 = Some x /\ nth_error b 0 = Some y /\ labels x "sigma" <> labels y "sigma").
Proof.
  exists (fun _ => Some ["iter"]), [], ex_join, ["sigma"],
    [Read [("table", Some (ex_tab "table" "0.1" 1)); ("theta", Some (ex_tab "theta" "0.1" 3))];
     Read [("table", Some (ex_tab "table" "0.2" 2)); ("theta", Some (ex_tab "theta" "0.2" 4))]].
  do 5 eexists. split; [reflexivity|]. split; [reflexivity|]. split; [reflexivity|]. split; [reflexivity|]. split; [reflexivity|].
  eexists. split; [reflexivity|]. split; [discriminate|]. do 2 eexists. split; [reflexivity|]. split; [reflexivity|]. discriminate.
Qed.
Print Assumptions C110_order_refuted.

(** ---- C111: access to the elements ---------------------------------------------- *)

Section AccessProps.
  Context {A : Type}.

  (** Every sample of the collection has [n] elements. *)
  Definition regular (n : nat) (d : coll (option A)) : Prop := forall e, In e d -> List.length (snd e) = n.

  Lemma pos_in : forall n i, (0 <= i < Z.of_nat n)%Z -> pos n i = Ok (Z.to_nat i).
  Proof.
    intros n i H. unfold pos. assert ((0 <=? i)%Z = true) as -> by (apply Z.leb_le; lia).
    assert ((i <? Z.of_nat n)%Z = true) as -> by (apply Z.ltb_lt; lia). reflexivity.
  Qed.
  Lemma pos_neg : forall n i, (0 <= i < Z.of_nat n)%Z -> pos n (i - Z.of_nat n) = Ok (Z.to_nat i).
  Proof.
    intros n i H. unfold pos. assert ((0 <=? i - Z.of_nat n)%Z = false) as -> by (apply Z.leb_gt; lia).
    assert ((0 <=? Z.of_nat n + (i - Z.of_nat n))%Z = true) as -> by (apply Z.leb_le; lia). f_equal. f_equal. lia.
  Qed.

  Lemma get_item_eq : forall d n i, regular n d -> (0 <= i < Z.of_nat n)%Z ->
    get_item d i = Ok (map (fun e => (fst e, nth (Z.to_nat i) (snd e) None)) d) /\
    get_item d (i - Z.of_nat n) = Ok (map (fun e => (fst e, nth (Z.to_nat i) (snd e) None)) d).
  Proof.
    induction d as [|[m l] d IH]; intros n i HR Hi; [split; reflexivity|]. cbn [get_item map fst snd].
    assert (El : List.length l = n) by (apply (HR (m, l)); left; reflexivity). rewrite El.
    assert ((Z.of_nat n <=? i)%Z = false) as -> by (apply Z.leb_gt; lia).
    assert ((Z.of_nat n <=? i - Z.of_nat n)%Z = false) as -> by (apply Z.leb_gt; lia).
    rewrite pos_in, pos_neg by lia. cbn [rbind].
    destruct (IH n i) as [-> ->]; [intros e He; apply HR; right; exact He|exact Hi|]. split; reflexivity.
  Qed.

  Lemma nth_upd : forall (l : list (option A)) k j x, (k < List.length l)%nat ->
    nth j (upd_nth k (fun _ => x) l) None = if Nat.eqb j k then x else nth j l None.
  Proof.
    induction l as [|y l IH]; intros k j x H; [cbn in H; lia|]. destruct k as [|k], j as [|j]; cbn; try reflexivity.
    apply IH. cbn in H. lia.
  Qed.
  Lemma length_upd : forall (l : list (option A)) k x, List.length (upd_nth k (fun _ => x) l) = List.length l.
  Proof. induction l as [|y l IH]; intros [|k] x; cbn; auto. Qed.
End AccessProps.

(** The length of a collection is the number of elements of its samples, defined
    when they all have as many; element i of the collection is element i of
    every sample, negative indices counting from the end, and an index beyond
    the end raises; assigning one sample's element changes that element only. *)
Theorem C111_access_partial : forall A (schema : string -> bool) (c : collection A) n, c_data c <> [] ->
  (coll_len c = Ok n <-> regular n (c_data c)) /\
  (regular n (c_data c) ->
   (forall i, (0 <= i < Z.of_nat n)%Z ->
      get_item (c_data c) i = Ok (map (fun e => (fst e, nth (Z.to_nat i) (snd e) None)) (c_data c)) /\
      get_item (c_data c) (i - Z.of_nat n) = get_item (c_data c) i) /\
   (forall i, (Z.of_nat n <= i)%Z -> get_item (c_data c) i = Raise EKey) /\
   (forall name l x i, sget name (c_data c) = Some l -> schema name = true -> (0 <= i < Z.of_nat n)%Z ->
      exists c' l', set_item schema i [(name, x)] c = Ok c' /\
        sget name (c_data c') = Some l' /\ List.length l' = n /\
        (forall j, nth j l' None = if Nat.eqb j (Z.to_nat i) then Some x else nth j l None) /\
        (forall other, other <> name -> sget other (c_data c') = sget other (c_data c)))).
Proof.
  intros A schema [d len] n Hne. cbn [c_data] in *. split; [|intros HR; split; [|split]].
  - unfold coll_len. cbn [c_data]. destruct d as [|[m l] d]; [congruence|].
    destruct (forallb (fun e => Nat.eqb (List.length (snd e)) (List.length l)) d) eqn:E; split.
    + intros H. injection H as <-. intros e [<-|He]; [reflexivity|]. rewrite forallb_forall in E. apply Nat.eqb_eq, E, He.
    + intros H. f_equal. apply (H (m, l)). left; reflexivity.
    + discriminate.
    + intros H. exfalso. apply not_true_iff_false in E. apply E. apply forallb_forall. intros e He. apply Nat.eqb_eq.
      rewrite (H e (or_intror He)). symmetry. apply (H (m, l)). left; reflexivity.
  - intros i Hi. destruct (get_item_eq d n i HR Hi) as [-> ->]. split; reflexivity.
  - intros i Hi. destruct d as [|[m l] d]; [congruence|]. cbn [get_item].
    assert (El : List.length l = n) by (apply (HR (m, l)); left; reflexivity). rewrite El.
    assert ((Z.of_nat n <=? i)%Z = true) as -> by (apply Z.leb_le; exact Hi). reflexivity.
  - intros name l x i Hg Hs Hi.
    assert (El : List.length l = n).
    { clear -Hg HR. induction d as [|[m z] d IH]; [discriminate|]. cbn [sget] in Hg. destruct (String.eqb name m).
      - injection Hg as ->. apply (HR (m, l)). left; reflexivity.
      - apply IH; [intros e He; apply HR; right; exact He|exact Hg]. }
    unfold set_item. cbn [rfold set_one c_data]. rewrite Hs. cbn [negb]. rewrite Hg, El.
    assert ((Z.of_nat n <=? i)%Z = false) as -> by (apply Z.leb_gt; lia). rewrite pos_in by lia. cbn [rbind].
    eexists. eexists. split; [reflexivity|]. cbn [c_data]. split; [apply sget_sset_eq|]. split; [rewrite length_upd; exact El|].
    split; [intros j; apply nth_upd; lia|]. intros other Ho. apply sget_sset_ne. exact Ho.
Qed.
Print Assumptions C111_access_partial.

Example C111_nonvacuous :
  let c := Coll [("table", [Some 1%Z; Some 2%Z]); ("theta", [Some 3%Z; Some 4%Z])] 2 in
  coll_len c = Ok 2 /\ get_item (c_data c) (-1) = Ok [("table", Some 2%Z); ("theta", Some 4%Z)] /\
  get_item (c_data c) 2 = Raise EKey /\
  set_item (fun _ => true) 1 [("theta", 9%Z)] c = Ok (Coll [("table", [Some 1%Z; Some 2%Z]); ("theta", [Some 3%Z; Some 9%Z])] 2).
Proof. cbn zeta. repeat split. Qed.

(** Elements cannot be deleted or popped, nor assigned from another collection
    (which has the attributes logger and data_length besides its samples). *)
Theorem C111_deletion_refuted : forall A (schema : string -> bool) (c : collection A),
  (forall i, del_item i None c = Raise EType) /\
  (forall r, pop c = Ok r -> snd r = c) /\
  (forall i new x, schema "logger" = false -> hd_error new = Some ("logger", x) -> set_item schema i new c = Raise EExn).
Proof.
  intros A schema c. split; [reflexivity|]. split.
  - intros r H. unfold pop in H. apply rbind_Ok_inv in H as [n [_ H]]. destruct (Nat.eqb n 0); [injection H as <-; reflexivity|].
    apply rbind_Ok_inv in H as [x [_ H]]. injection H as <-. reflexivity.
  - intros i new x Hs Hn. destruct new as [|e new]; [discriminate|]. injection Hn as ->. unfold set_item. cbn [rfold set_one]. rewrite Hs. reflexivity.
Qed.
Print Assumptions C111_deletion_refuted.

(** Called by its own name with the samples to delete from, deletion removes that
    element of those samples and nothing else. *)
Theorem C111_deletion_partial : forall A (c : collection A) n names i, regular n (c_data c) -> (0 <= i < Z.of_nat n)%Z ->
  exists c', del_item i (Some names) c = Ok c' /\
    Forall2 (fun old new => fst new = fst old /\
      if smem (fst old) names then
        S (List.length (snd new)) = n /\
        forall j, nth j (snd new) None = nth (if Nat.ltb j (Z.to_nat i) then j else S j) (snd old) None
      else snd new = snd old) (c_data c) (c_data c').
Proof.
  intros A [d len] n names i HR Hi. cbn [c_data] in *. unfold del_item. cbn [c_data c_len].
  match goal with |- context [rbind (?f d) _] => set (go := f) end.
  assert (H : exists d', go d = Ok d' /\ Forall2 (fun old new => fst new = fst old /\
      if smem (fst old) names then
        S (List.length (snd new)) = n /\
        forall j, nth j (snd new) None = nth (if Nat.ltb j (Z.to_nat i) then j else S j) (snd old) None
      else snd new = snd old) d d').
  { induction d as [|[m l] d IH]; [exists []; split; [reflexivity|constructor]|].
    destruct IH as [d' [E F]]; [intros e He; apply HR; right; exact He|].
    assert (El : List.length l = n) by (apply (HR (m, l)); left; reflexivity).
    unfold go. fold go. destruct (smem m names) eqn:Em.
    - rewrite El. assert ((Z.of_nat n <=? i)%Z = false) as -> by (apply Z.leb_gt; lia). rewrite pos_in by lia. cbn [rbind]. rewrite E. cbn [rbind].
      eexists. split; [reflexivity|]. constructor; [|exact F]. cbn [fst snd]. rewrite Em. split; [reflexivity|]. split.
      + rewrite app_length, firstn_length, skipn_length. lia.
      + intros j. destruct (Nat.ltb_spec j (Z.to_nat i)) as [Hj|Hj].
        * rewrite app_nth1 by (rewrite firstn_length; lia). rewrite <- (firstn_skipn (Z.to_nat i) l) at 2. rewrite app_nth1 by (rewrite firstn_length; lia). reflexivity.
        * rewrite app_nth2 by (rewrite firstn_length; lia). rewrite firstn_length, Nat.min_l by lia.
          rewrite <- (firstn_skipn (S (Z.to_nat i)) l) at 2. rewrite app_nth2 by (rewrite firstn_length; lia).
          rewrite firstn_length, Nat.min_l by lia. try (f_equal; lia).
    - rewrite E. cbn [rbind]. eexists. split; [reflexivity|]. constructor; [|exact F]. cbn [fst snd]. rewrite Em. split; reflexivity. }
  destruct H as [d' [E F]]. rewrite E. cbn [rbind]. eexists. split; [reflexivity|exact F].
Qed.
Print Assumptions C111_deletion_partial.

Lemma pop_times_const : forall A k (c : collection A) x, pop c = Ok (Some x, c) -> pop_times k c = Ok (repeat (Some x) k).
Proof. intros A k c x H. induction k as [|k IH]; [reflexivity|]. cbn [pop_times repeat]. rewrite H. cbn [rbind snd fst]. rewrite IH. reflexivity. Qed.

(** Metadata of a collection: without the shuffling of elements the metadata of
    each element; when elements are popped, the first element's, as many times
    as there are elements. *)
Theorem C111_metadata_partial : forall A (c : collection A) n, coll_len c = Ok n -> c_data c <> [] -> (0 < n)%nat ->
  let element i := map (fun e : string * list (option A) => (fst e, nth i (snd e) None)) (c_data c) in
  metadata_elements false c = Ok (map (fun i => Some (element i)) (seq 0 n)) /\
  metadata_elements true c = Ok (repeat (Some (element 0)) n).
Proof.
  intros A c n Hn Hne Hpos element. unfold metadata_elements. rewrite Hn. cbn [rbind].
  assert (HR : regular n (c_data c)) by (apply (C111_access_partial A (fun _ => true) c n Hne); exact Hn).
  assert (HG : forall i, (i < n)%nat -> get_item (c_data c) (Z.of_nat i) = Ok (element i)).
  { intros i Hi. destruct (get_item_eq (c_data c) n (Z.of_nat i) HR) as [-> _]; [lia|]. rewrite Nat2Z.id. reflexivity. }
  split.
  - assert (H : forall is, (forall i, In i is -> (i < n)%nat) -> get_each is c = Ok (map (fun i => Some (element i)) is)).
    { induction is as [|i is IH]; intros H; [reflexivity|]. cbn [get_each map]. rewrite HG by (apply H; left; reflexivity). cbn [rbind].
      rewrite IH by (intros j Hj; apply H; right; exact Hj). reflexivity. }
    apply H. intros i Hi. apply in_seq in Hi. lia.
  - apply pop_times_const. unfold pop. rewrite Hn. cbn [rbind]. destruct (Nat.eqb n 0) eqn:E; [apply Nat.eqb_eq in E; lia|].
    change 0%Z with (Z.of_nat 0). rewrite HG by exact Hpos. reflexivity.
Qed.
Print Assumptions C111_metadata_partial.

Theorem C111_metadata_refuted : exists (c : collection Z), metadata_elements true c <> metadata_elements false c /\
  metadata_elements true c = Ok [Some [("table", Some 1%Z)]; Some [("table", Some 1%Z)]].
Proof. exists (Coll [("table", [Some 1%Z; Some 2%Z])] 2). split; [discriminate|reflexivity]. Qed.
Print Assumptions C111_metadata_refuted.

(** ---- C112: keeping part of a collection ---------------------------------------- *)

(** The elements of [l] at the positions satisfying [p], in order. *)
Fixpoint select {A} (p : nat -> bool) (i : nat) (l : list A) : list A :=
  match l with
  | [] => []
  | x :: r => if p i then x :: select p (S i) r else select p (S i) r
  end.

Lemma keep_ids_select : forall A ids (l : list (option A)), keep_ids ids l = select (fun i => existsb (Nat.eqb i) ids) 0 l.
Proof.
  intros A ids l. unfold keep_ids. generalize 0 as a. induction l as [|x l IH]; intros a; [reflexivity|].
  cbn [index_from filter select fst]. destruct (existsb (Nat.eqb a) ids); cbn [map snd]; rewrite IH; reflexivity.
Qed.

(** Keeping outputs only, or elements only, keeps exactly those. *)
Theorem C112_strip_partial : forall A keep ids (c : collection A),
  (keep <> [] -> ids = [] ->
     c_data (strip_data keep ids c) = filter (fun e => smem (fst e) keep) (c_data c)) /\
  (keep = [] -> ids <> [] ->
     c_data (strip_data keep ids c) = map (fun e => (fst e, select (fun i => existsb (Nat.eqb i) ids) 0 (snd e))) (c_data c)) /\
  (keep = [] -> ids = [] -> c_data (strip_data keep ids c) = []).
Proof.
  intros A keep ids c. split; [|split].
  - intros H1 ->. destruct keep; [congruence|reflexivity].
  - intros -> H2. destruct ids as [|i ids]; [congruence|]. cbn [strip_data c_data]. apply map_ext. intros e. rewrite keep_ids_select. reflexivity.
  - intros -> ->. reflexivity.
Qed.
Print Assumptions C112_strip_partial.

Example C112_nonvacuous :
  let c := Coll [("table", [Some 1%Z; Some 2%Z]); ("theta", [Some 3%Z; Some 4%Z])] 2 in
  c_data (strip_data ["theta"] [] c) = [("theta", [Some 3%Z; Some 4%Z])] /\
  c_data (strip_data [] [1] c) = [("table", [Some 2%Z]); ("theta", [Some 4%Z])].
Proof. cbn zeta. split; reflexivity. Qed.

(** Keeping some elements of some outputs removes no output, leaves the kept
    outputs whole, cuts the others, and so leaves samples of unequal lengths. *)
Theorem C112_both_refuted : forall A keep ids (c : collection A), keep <> [] -> ids <> [] ->
  map fst (c_data (strip_data keep ids c)) = map fst (c_data c) /\
  (forall n l, In (n, l) (c_data c) -> In n keep -> In (n, l) (c_data (strip_data keep ids c))).
Proof.
  intros A keep ids c H1 H2. destruct keep as [|k keep]; [congruence|]. destruct ids as [|i ids]; [congruence|].
  cbn [strip_data c_data]. split.
  - rewrite map_map. apply map_ext. intros [m l]. cbn [fst]. destruct (smem m (k :: keep)); reflexivity.
  - intros n l Hin Hk. apply in_map_iff. exists (n, l). cbn [fst]. apply smem_spec in Hk. rewrite Hk. split; [reflexivity|exact Hin].
Qed.
Print Assumptions C112_both_refuted.

Example C112_both_nonvacuous :
  let c := Coll [("table", [Some 1%Z; Some 2%Z]); ("theta", [Some 3%Z; Some 4%Z])] 2 in
  c_data (strip_data ["theta"] [1] c) = [("table", [Some 2%Z]); ("theta", [Some 3%Z; Some 4%Z])] /\
  coll_len (strip_data ["theta"] [1] c) = Raise EExn.
Proof. cbn zeta. split; reflexivity. Qed.
