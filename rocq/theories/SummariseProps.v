(** Properties C153-C155 of the summaries. *)
From Coq Require Import List String Ascii ZArith Bool Arith Lia Permutation Sorted.
From Verif Require Import Base PyMonad ConfigTree Inputs InputsProps OutputSearch OutputSearchProps Summarise.
Import ListNotations.
Open Scope string_scope.
Open Scope nat_scope.
Open Scope list_scope.

(** * C153: the settings attached to every row *)

(** Where the configuration search first finds a requested setting; the number
    of iterations is called N there. *)
Definition first_place (s : node) (k : string) : option (list key) :=
  hd_error (path_find (KS (if String.eqb k "iter" then "N" else k)) s).
Definition swept (s : node) (k : string) : Prop := exists p, first_place s k = Some p /\ has_sweep p s = true.

Lemma aset_keys : forall V k (v : V) l x, In x (map fst (aset k v l)) <-> x = k \/ In x (map fst l).
Proof.
  intros V k v l x. induction l as [|[q w] l IH]; cbn; [intuition|].
  destruct (String.eqb_spec k q) as [->|N]; cbn; [intuition; subst; auto|].
  rewrite IH. intuition.
Qed.
Lemma aset_NoDup : forall V k (v : V) l, NoDup (map fst l) -> NoDup (map fst (aset k v l)).
Proof.
  intros V k v l H. induction l as [|[q w] l IH]; cbn; [constructor; auto; constructor|].
  inversion H; subst. destruct (String.eqb_spec k q) as [->|N]; cbn.
  - constructor; auto.
  - constructor; [|auto]. rewrite aset_keys. intros [E|E]; congruence.
Qed.
Lemma assign_get : forall V (u r : list (string * V)) c, NoDup (map fst u) ->
  aget c (fold_left (fun a e => aset (fst e) (snd e) a) u r)
  = match aget c u with Some v => Some v | None => aget c r end.
Proof.
  intros V u. induction u as [|[q w] u IH]; intros r c H; cbn [fold_left fst snd aget]; [reflexivity|].
  inversion H; subst. rewrite IH by auto.
  destruct (String.eqb_spec c q) as [->|N].
  - rewrite (proj2 (aget_None _ q u)) by auto. apply aget_aset_same.
  - rewrite aget_aset_other by auto. reflexivity.
Qed.

Section C153.
  Context {V : Type}.
  Variable nan : V.
  Variable conv : option node -> V.

  Lemma metadata_ok : forall s keys acc, (forall k, In k keys -> ~ swept s k) -> NoDup (map fst acc) ->
    exists u, metadata conv s keys acc = Ok u /\ NoDup (map fst u) /\
      forall c, aget c u = match first_place s c with
                           | Some p => if memb c keys then Some (conv (fst (path_get p s))) else aget c acc
                           | None => aget c acc
                           end.
  Proof.
    intros s keys. induction keys as [|k r IH]; intros acc H ND; cbn [metadata].
    - exists acc. repeat split; auto. intros c. cbn. destruct (first_place s c); auto.
    - assert (Hr : forall x, In x r -> ~ swept s x) by (intros; apply H; now right).
      unfold config_name.
      destruct (path_find (KS (if String.eqb k "iter" then "N" else k)) s) as [|p ps] eqn:E.
      + destruct (IH acc Hr ND) as (u & U & NU & G). exists u. repeat split; auto.
        intros c. rewrite G. destruct (first_place s c) eqn:F; auto.
        unfold memb. cbn [existsb]. destruct (String.eqb_spec c k) as [->|N]; auto.
        unfold first_place in F. rewrite E in F. discriminate.
      + assert (FP : first_place s k = Some p) by (unfold first_place; now rewrite E).
        destruct (has_sweep p s) eqn:S.
        * exfalso. apply (H k); [now left|]. exists p; auto.
        * destruct (IH (aset k (conv (fst (path_get p s))) acc) Hr) as (u & U & NU & G);
            [now apply aset_NoDup|].
          exists u. repeat split; auto. intros c. rewrite G.
          unfold memb. cbn [existsb]. destruct (String.eqb_spec c k) as [->|N].
          -- rewrite FP. cbn [orb]. rewrite aget_aset_same. now destruct (existsb (String.eqb k) r).
          -- rewrite aget_aset_other by auto. reflexivity.
  Qed.

  Lemma metadata_raises : forall s keys acc k, In k keys -> swept s k ->
    (forall x, swept s x -> aget x acc = None) -> metadata conv s keys acc = Raise EKey.
  Proof.
    intros s keys. induction keys as [|x r IH]; intros acc k I S A; [destruct I|].
    cbn [metadata]. unfold config_name.
    destruct (path_find (KS (if String.eqb x "iter" then "N" else x)) s) as [|p ps] eqn:E.
    - destruct I as [->|I]; [|eauto].
      destruct S as (p & F & _). unfold first_place in F. rewrite E in F. discriminate.
    - assert (FP : first_place s x = Some p) by (unfold first_place; now rewrite E).
      destruct (has_sweep p s) eqn:S'.
      + rewrite A; [reflexivity|]. exists p; auto.
      + destruct I as [->|I].
        * exfalso. destruct S as (q & F & Q). rewrite FP in F. inversion F; subst. congruence.
        * apply IH with k; auto. intros y Y. destruct (String.eqb_spec y x) as [->|N].
          -- exfalso. destruct Y as (q & F & Q). rewrite FP in F. inversion F; subst. congruence.
          -- rewrite aget_aset_other; auto.
  Qed.

  Lemma columns_In : forall (rows : list (@record V)) c, In c (columns rows) <-> exists r, In r rows /\ In c (map fst r).
  Proof.
    intros rows c. unfold columns.
    assert (A : forall (r : @record V) acc, In c (fold_left (fun a e => if memb (fst e) a then a else a ++ [fst e]) r acc)
                            <-> In c acc \/ In c (map fst r)).
    { induction r as [|[q w] r IH]; intros acc; cbn [fold_left fst map]; [cbn; tauto|].
      rewrite IH. destruct (memb q acc) eqn:M.
      - unfold memb in M. apply existsb_exists in M as (y & Y & E). apply String.eqb_eq in E. subst y.
        cbn. intuition. subst; auto.
      - rewrite in_app_iff. cbn. intuition. }
    assert (B : forall rows acc, In c (fold_left (fun acc r => fold_left (fun a (e : string * V) => if memb (fst e) a then a else a ++ [fst e]) r acc) rows acc)
                            <-> In c acc \/ exists r, In r rows /\ In c (map fst r)).
    { induction rows0 as [|r rs IH]; intros acc; cbn [fold_left].
      - split; [auto|]. intros [H|(r & [] & _)]; auto.
      - rewrite IH, A. split.
        + intros [[H|H]|(x & X & Y)]; auto; right; [exists r|exists x]; cbn; auto.
        + intros [H|(x & [->|X] & Y)]; auto. right. eauto. }
    rewrite B. cbn. split; [intros [[]|H]; auto | auto].
  Qed.
  Lemma aget_built : forall (f : string -> V) cols c,
    aget c (map (fun x => (x, f x)) cols) = if memb c cols then Some (f c) else None.
  Proof.
    intros f cols c. induction cols as [|x r IH]; cbn [map aget]; [reflexivity|].
    unfold memb in *. cbn [existsb]. destruct (String.eqb_spec c x) as [->|N]; [reflexivity|]. exact IH.
  Qed.

  (** When no requested setting is swept: one row per evaluated row, carrying the
      folder, every requested setting that the configuration has (with its value
      at the first place it is found), everything the row had before, and NaN for
      what only other rows have. *)
  Theorem C153_metadata_partial : forall folder s keys rows,
    rows <> [] -> (forall k, In k keys -> ~ swept s k) ->
    ~ (In "folder" keys /\ first_place s "folder" <> None) ->
    exists out, get_experiment_metadata nan conv folder s keys rows = Ok out /\ List.length out = List.length rows /\
      forall i r, nth_error rows i = Some r -> exists o, nth_error out i = Some o /\
        aget "folder" o = Some folder /\
        (forall k p, In k keys -> first_place s k = Some p -> aget k o = Some (conv (fst (path_get p s)))) /\
        (forall c, c <> "folder" -> ~ (In c keys /\ first_place s c <> None) ->
           aget c o = match aget c r with
                      | Some v => Some v
                      | None => if existsb (fun r' => memb c (map fst r')) rows then Some nan else None
                      end).
  Proof.
    intros folder s keys rows NE NS NF.
    destruct (metadata_ok s keys [] NS) as (u & U & NU & G); [constructor|].
    assert (MI : forall c, memb c keys = true <-> In c keys).
    { intros c. unfold memb. rewrite existsb_exists. split.
      - intros (x & X & E). apply String.eqb_eq in E. now subst.
      - intros X. exists c. split; auto. apply String.eqb_refl. }
    assert (UF : aget "folder" u = None).
    { rewrite G. destruct (first_place s "folder") eqn:F; auto.
      destruct (memb "folder" keys) eqn:M; auto. exfalso. apply NF. split; [now apply MI | discriminate]. }
    unfold get_experiment_metadata. destruct rows as [|r0 rs]; [congruence|]. cbv beta.
    rewrite U. cbn [rbind]. rewrite UF.
    eexists. split; [reflexivity|]. unfold frame. rewrite !map_length. split; [reflexivity|].
    intros i r E.
    eexists. split; [do 2 (erewrite map_nth_error; [reflexivity|]); eassumption|].
    assert (ND : NoDup (map fst (("folder", folder) :: u))).
    { cbn. constructor; auto. apply (proj1 (aget_None _ "folder" u)); auto. }
    repeat split.
    - rewrite assign_get by auto. reflexivity.
    - intros k p K P. rewrite assign_get by auto. cbn [aget].
      destruct (String.eqb_spec k "folder") as [->|N].
      + exfalso. apply NF. split; auto. congruence.
      + rewrite G, P. rewrite (proj2 (MI k) K). reflexivity.
    - intros c N C. rewrite assign_get by auto. cbn [aget].
      destruct (String.eqb_spec c "folder") as [->|_]; [congruence|].
      assert (GC : aget c u = None).
      { rewrite G. destruct (first_place s c) eqn:F; auto. destruct (memb c keys) eqn:M; auto.
        exfalso. apply C. split; [now apply MI | discriminate]. }
      rewrite GC, aget_built.
      set (rows := r0 :: rs) in *.
      assert (CI : memb c (columns rows) = existsb (fun r' => memb c (map fst r')) rows).
      { apply eq_true_iff_eq. unfold memb. rewrite !existsb_exists. split.
        - intros (x & X & Q). apply String.eqb_eq in Q; subst x. apply columns_In in X as (r' & R & Q).
          exists r'. split; auto. apply existsb_exists. exists c. split; auto. apply String.eqb_refl.
        - intros (r' & R & Q). apply existsb_exists in Q as (x & X & Q). apply String.eqb_eq in Q; subst x.
          exists c. split; [|apply String.eqb_refl]. apply columns_In. eauto. }
      rewrite CI. destruct (aget c r) as [v|] eqn:A; [|reflexivity].
      assert (HX : existsb (fun r' => memb c (map fst r')) rows = true).
      { apply existsb_exists. exists r. split; [eapply nth_error_In; eauto|]. unfold memb.
        apply existsb_exists. exists c. split; [|apply String.eqb_refl].
        apply aget_In in A. apply in_map_iff. now exists (c, v). }
      now rewrite HX.
  Qed.

  (** A requested setting that is swept always ends in KeyError, although the
      sweep's values are columns already. *)
  Theorem C153_swept_refuted : forall folder s keys rows k, rows <> [] -> In k keys -> swept s k ->
    get_experiment_metadata nan conv folder s keys rows = Raise EKey.
  Proof.
    intros folder s keys rows k NE I S. unfold get_experiment_metadata. destruct rows; [congruence|].
    rewrite (metadata_raises s keys [] k I S); [reflexivity|]. reflexivity.
  Qed.
End C153.
Print Assumptions C153_metadata_partial.
Print Assumptions C153_swept_refuted.

Definition demo_settings : node :=
  Dict [(KS "seed", Leaf (LNum 5%Z)); (KS "training", Dict [(KS "N", Leaf (LNum 100%Z))]);
        (KS "sigma", Dict [(KS "sweep", Dict [(KS "range", Leaf (LStr "1,2"))])])].
Example C153_nonvacuous :
  first_place demo_settings "iter" = Some [KS "training"; KS "N"] /\
  (forall k, In k ["iter"; "seed"; "missing"] -> ~ swept demo_settings k) /\
  swept demo_settings "sigma" /\ first_place demo_settings "folder" = None.
Proof.
  split; [reflexivity|]. split; [|split; [|reflexivity]].
  - intros k [<- |[<- |[<- |[]]]] (p & F & S); vm_compute in F; inversion F; subst p; vm_compute in S; discriminate.
  - exists [KS "sigma"]. split; reflexivity.
Qed.

(** * C154: no row is lost or repeated *)

Section C154.
  Context {V : Type}.
  Local Notation rec := (@record V).

  (** The rows of the runs stored in one folder, in the order of the folders. *)
  Definition rows_in (f : string) (fs : list (string * list (list rec))) : list rec :=
    List.concat (map (fun e => if String.eqb f (fst e) then List.concat (snd e) else []) fs).
  Definition all_rows (fs : list (string * list (list rec))) : list rec :=
    List.concat (map (fun e => List.concat (snd e)) fs).
  Definition found (f : string) (em : list (string * list rec)) : list rec :=
    match aget f em with Some l => l | None => [] end.

  Lemma add_rows_found : forall f acc (rows : list rec) x,
    found x (@add_rows V f acc rows) = found x acc ++ (if String.eqb x f then rows else []).
  Proof.
    intros f acc rows x. unfold add_rows, found. destruct rows as [|r0 rs].
    - destruct (String.eqb x f); now rewrite app_nil_r.
    - destruct (String.eqb_spec x f) as [->|N].
      + destruct (aget f acc) as [old|] eqn:A; rewrite aget_aset_same; reflexivity.
      + rewrite app_nil_r. destruct (aget f acc); now rewrite aget_aset_other.
  Qed.
  Lemma fold_found : forall f els acc x,
    found x (fold_left (@add_rows V f) els acc) = found x acc ++ (if String.eqb x f then List.concat els else []).
  Proof.
    intros f els. induction els as [|e r IH]; intros acc x; cbn [fold_left List.concat].
    - destruct (String.eqb x f); now rewrite app_nil_r.
    - rewrite IH, add_rows_found, <- app_assoc. f_equal. destruct (String.eqb x f); reflexivity.
  Qed.

  Lemma concat_aset_new : forall f (l : list rec) acc, aget f acc = None ->
    Permutation (List.concat (map snd (aset f l acc))) (List.concat (map snd acc) ++ l).
  Proof.
    intros f l acc. induction acc as [|[q w] r IH]; intros A; cbn [aset map snd List.concat].
    - rewrite app_nil_r. apply Permutation_refl.
    - cbn [aget] in A. destruct (String.eqb_spec f q) as [->|N]; [discriminate|].
      cbn [map snd List.concat]. rewrite <- app_assoc. apply Permutation_app_head. auto.
  Qed.
  Lemma concat_aset_old : forall f (old l : list rec) acc, aget f acc = Some old ->
    Permutation (List.concat (map snd (aset f (old ++ l) acc))) (List.concat (map snd acc) ++ l).
  Proof.
    intros f old l acc. induction acc as [|[q w] r IH]; intros A; [discriminate|].
    cbn [aget] in A. cbn [aset]. destruct (String.eqb_spec f q) as [->|N].
    - inversion A; subst w. cbn [map snd List.concat]. rewrite <- !app_assoc. apply Permutation_app_head.
      apply Permutation_app_comm.
    - cbn [map snd List.concat]. rewrite <- app_assoc. apply Permutation_app_head. auto.
  Qed.
  Lemma add_rows_perm : forall f acc (rows : list rec),
    Permutation (List.concat (map snd (@add_rows V f acc rows))) (List.concat (map snd acc) ++ rows).
  Proof.
    intros. unfold add_rows. destruct rows as [|r0 rs].
    - rewrite app_nil_r. apply Permutation_refl.
    - destruct (aget f acc) eqn:A; [now apply concat_aset_old | now apply concat_aset_new].
  Qed.
  Lemma fold_perm : forall f els acc,
    Permutation (List.concat (map snd (fold_left (@add_rows V f) els acc))) (List.concat (map snd acc) ++ List.concat els).
  Proof.
    intros f els. induction els as [|e r IH]; intros acc; cbn [fold_left List.concat].
    - rewrite app_nil_r. apply Permutation_refl.
    - eapply perm_trans; [apply IH|]. rewrite app_assoc. apply Permutation_app_tail. apply add_rows_perm.
  Qed.

  Lemma collect_ok : forall fs acc,
    exists em, collect_metadata (map (fun e : string * list (list rec) => (fst e, Ok (snd e))) fs) acc = Ok em /\
      (forall f, found f em = found f acc ++ rows_in f fs) /\
      Permutation (List.concat (map snd em)) (List.concat (map snd acc) ++ all_rows fs).
  Proof.
    induction fs as [|[g els] fs IH]; intros acc; cbn [map collect_metadata fst snd rbind].
    - exists acc. unfold all_rows, rows_in. cbn. repeat split; intros; rewrite ?app_nil_r; auto.
    - destruct (IH (fold_left (@add_rows V g) els acc)) as (em & E & F & P). exists em.
      split; [exact E|]. split.
      + intros f. rewrite F, fold_found, <- app_assoc. f_equal.
      + eapply perm_trans; [exact P|]. unfold all_rows. cbn [map snd List.concat]. rewrite app_assoc.
        apply Permutation_app_tail. apply fold_perm.
  Qed.

  Lemma mapR_all_ok : forall (l : list (list rec)), mapR (fun e => e) (map Ok l) = Ok l.
  Proof. induction l as [|x r IH]; cbn [map mapR rbind]; [reflexivity|]. now rewrite IH. Qed.

  (** Evaluated one after the other: every folder holds exactly the rows of its
      runs, in order, and the table all of them. *)
  Theorem C154_sequential : forall fs : list (string * list (list rec)), (forall e, In e fs -> snd e <> []) ->
    exists em, collect_metadata (map (fun e => (fst e, folder_sequential (map Ok (snd e)))) fs) [] = Ok em /\
      (forall f, found f em = rows_in f fs) /\ Permutation (List.concat (map snd em)) (all_rows fs).
  Proof.
    intros fs NE. destruct (collect_ok fs []) as (em & E & F & P). exists em. split.
    - rewrite <- E. f_equal. apply map_ext_in. intros [f els] I. cbn [fst snd]. f_equal.
      unfold folder_sequential. rewrite mapR_all_ok. cbn [rbind]. specialize (NE _ I). cbn in NE.
      destruct els; congruence.
    - split; auto.
  Qed.

  (** Evaluated by workers, in any order of completion: the same rows. *)
  Lemma oks_flat : forall (l : list (list rec)),
    flat_map (fun e : res (list rec) => match e with Ok x => [x] | Raise _ => [] end) (map Ok l) = l.
  Proof. induction l as [|x r IH]; cbn; [reflexivity|]. now rewrite IH. Qed.
  Lemma perm_ok : forall (done : list (res (list rec))) l, Permutation done (map Ok l) ->
    exists l', done = map Ok l' /\ Permutation l' l.
  Proof.
    intros done l P. apply Permutation_map_inv in P as (l' & E & Q).
    exists l'. split; auto. now apply Permutation_sym.
  Qed.
  Lemma concat_perm : forall (a b : list (list rec)), Permutation a b -> Permutation (List.concat a) (List.concat b).
  Proof.
    induction 1; cbn [List.concat]; auto.
    - now apply Permutation_app_head.
    - rewrite !app_assoc. apply Permutation_app_tail, Permutation_app_comm.
    - eapply perm_trans; eauto.
  Qed.

  Theorem C154_workers_partial : forall (fs : list (string * list (list rec))) done,
    (forall e, In e fs -> snd e <> []) ->
    Forall2 (fun e d => Permutation d (map Ok (snd e))) fs done ->
    exists em, collect_metadata (map (fun ed => (fst (fst ed), folder_concurrent (snd ed))) (combine fs done)) [] = Ok em /\
      (forall f, Permutation (found f em) (rows_in f fs)) /\ Permutation (List.concat (map snd em)) (all_rows fs).
  Proof.
    intros fs done NE H.
    assert (X : exists fs', map fst fs' = map fst fs /\ Forall2 (fun e e' => fst e = fst e' /\ Permutation (snd e') (snd e)) fs fs'
                /\ map (fun ed => (fst (fst ed), folder_concurrent (snd ed))) (combine fs done)
                   = map (fun e => (fst e, Ok (snd e))) fs').
    { clear - NE H. induction H as [|[f els] d fs done P H IH]; [exists []; repeat split; constructor|].
      destruct IH as (fs' & M & F & E); [intros; apply NE; now right|].
      cbn [snd] in P. destruct (perm_ok _ _ P) as (l' & -> & Q).
      exists ((f, l') :: fs'). cbn [map combine fst snd]. rewrite M, E. repeat split; auto.
      f_equal. f_equal. unfold folder_concurrent. rewrite oks_flat.
      destruct l' as [|x r]; auto. exfalso. apply Permutation_nil in Q. subst.
      apply (NE (f, [])); [now left | reflexivity]. }
    destruct X as (fs' & M & F & E). rewrite E.
    destruct (collect_ok fs' []) as (em & C & FO & P). exists em. split; auto. split.
    - intros f. rewrite FO. cbn [found aget app]. unfold rows_in. clear - F.
      induction F as [|[a b] [a' b'] fs fs' [N Q] F IH]; cbn [map fst snd List.concat]; auto.
      cbn in N, Q. subst a'. apply Permutation_app; auto.
      destruct (String.eqb f a); auto. now apply concat_perm.
    - eapply perm_trans; [exact P|]. cbn [map List.concat app]. unfold all_rows. clear - F.
      induction F as [|[a b] [a' b'] fs fs' [N Q] F IH]; cbn [map fst snd List.concat]; auto.
      apply Permutation_app; auto. cbn in Q. now apply concat_perm.
  Qed.

  (** A run that cannot be evaluated stops the sequential summary, but with
      workers its rows are silently missing. *)
  Theorem C154_failed_run_refuted : forall (e : err) (r : list rec),
    folder_sequential [Ok r; Raise e] = Raise e /\ folder_concurrent [Ok r; Raise e] = Ok [r] /\
    folder_concurrent [Raise e; Ok r] = Ok [r].
  Proof. intros. repeat split. Qed.

  (** A folder that fails ends the whole summary, whatever was collected before
      and whatever comes after. *)
  Theorem C154_failed_folder : forall (fs : list (string * list (list rec))) f (e : err) rest acc,
    collect_metadata (map (fun x => (fst x, Ok (snd x))) fs ++ (f, Raise e) :: rest) acc = Raise e.
  Proof.
    intros fs f e rest. induction fs as [|[g els] fs IH]; intros acc; cbn [map app collect_metadata rbind]; [reflexivity|].
    cbn [fst snd rbind]. apply IH.
  Qed.
End C154.
Print Assumptions C154_failed_folder.
Print Assumptions C154_sequential.
Print Assumptions C154_workers_partial.
Print Assumptions C154_failed_run_refuted.

Example C154_nonvacuous :
  let fs : list (string * list (list (@record nat))) :=
    [("a", [[[("x", 1)]]; [[("x", 2)]; [("x", 3)]]]); ("b", [[[("x", 4)]]])] in
  (forall e, In e fs -> snd e <> []) /\
  Forall2 (fun e d => Permutation d (map Ok (snd e))) fs
    [[Ok [[("x", 2)]; [("x", 3)]]; Ok [[("x", 1)]]]; [Ok [[("x", 4)]]]].
Proof.
  cbn zeta. split; [intros e [<- |[<- |[]]]; discriminate|].
  constructor; [cbn; constructor|]. constructor; [apply Permutation_refl | constructor].
Qed.

(** * C155: order and file of a summary *)

Section C155.
  Context {V : Type}.
  Local Notation rec := (@record V).
  (** [le by asc] is the order asked for; pandas returns the rows in that order,
      rows that are equal in it in any order. *)
  Variable le : list string -> bool -> rec -> rec -> Prop.
  Variable sort_rows : list string -> bool -> list rec -> list rec.
  Hypothesis sort_perm : forall by_ asc l, Permutation (sort_rows by_ asc l) l.
  Hypothesis sort_sorted : forall by_ asc l, Sorted (le by_ asc) (sort_rows by_ asc l).

  Theorem C155_sorted_partial : forall by_ asc em,
    let rows := List.concat (map snd em) in
    let out := summary_rows sort_rows by_ asc em in
    Permutation out rows /\
    (by_ <> [] -> (forall c, In c by_ -> c <> "folder" /\ exists r, In r rows /\ In c (map fst r)) ->
       Sorted (le by_ asc) out) /\
    ((by_ = [] \/ exists c, In c by_ /\ (c = "folder" \/ forall r, In r rows -> ~ In c (map fst r))) -> out = rows).
  Proof.
    intros by_ asc em rows out. unfold out, summary_rows. fold rows.
    assert (M : forall c, memb c (filter (fun c => negb (String.eqb c "folder")) (columns rows)) = true
                <-> c <> "folder" /\ exists r, In r rows /\ In c (map fst r)).
    { intros c. unfold memb. rewrite existsb_exists. split.
      - intros (x & X & E). apply String.eqb_eq in E; subst x. apply filter_In in X as [X Y].
        apply columns_In in X. split; auto. intros ->. discriminate.
      - intros [N H]. exists c. split; [|apply String.eqb_refl]. apply filter_In. split; [now apply columns_In|].
        destruct (String.eqb_spec c "folder"); auto. }
    destruct by_ as [|c0 cs]; [repeat split; auto; congruence|].
    destruct (forallb _ (c0 :: cs)) eqn:F.
    - rewrite forallb_forall in F. repeat split; auto. intros [E|(c & I & D)]; [discriminate|].
      exfalso. destruct (proj1 (M c) (F c I)) as [N (r & R & C)]. destruct D as [->|D]; [auto|]. eapply D; eauto.
    - repeat split; auto. intros _ H. exfalso.
      assert (G : forallb (fun c => memb c (filter (fun c => negb (String.eqb c "folder")) (columns rows))) (c0 :: cs) = true).
      { apply forallb_forall. intros c I. apply M. auto. }
      congruence.
  Qed.

  (** Sorting by folder has no effect, nor has any request naming one unknown
      column. *)
  Theorem C155_folder_refuted : forall asc em by_, In "folder" by_ ->
    summary_rows sort_rows by_ asc em = List.concat (map snd em).
  Proof. intros asc em by_ I. apply C155_sorted_partial. right. exists "folder". auto. Qed.
End C155.
Print Assumptions C155_sorted_partial.
Print Assumptions C155_folder_refuted.

(** ** File names *)

Lemma tjoin_cons : forall sep x r, r <> [] -> tjoin sep (x :: r) = x ++ sep ++ tjoin sep r.
Proof. intros sep x [|y r]; [congruence | reflexivity]. Qed.

(** The joined non-empty pieces, each followed by a separator. *)
Definition closed (sep : text) (l : list text) : text := flat_map (fun x => x ++ sep) l.
Lemma closed_tjoin : forall sep l, l <> [] -> closed sep l = tjoin sep l ++ sep.
Proof.
  intros sep l. induction l as [|x r IH]; [congruence|]. intros _.
  change (closed sep (x :: r)) with ((x ++ sep) ++ closed sep r). destruct r as [|y r]; [cbn; now rewrite app_nil_r|].
  assert (N : y :: r <> []) by (intros Q; inversion Q).
  rewrite (IH N), (tjoin_cons sep x (y :: r) N). now rewrite <- !app_assoc.
Qed.
Lemma closed_app : forall sep a b, closed sep (a ++ b) = closed sep a ++ closed sep b.
Proof. intros. unfold closed. apply flat_map_app. Qed.

Lemma one_piece : forall a b x y last,
  tjoin [us] (filter nonempty (a ++ x :: b ++ [last])) = tjoin [us] (filter nonempty (a ++ y :: b ++ [last])) ->
  last <> [] -> x = y.
Proof.
  intros a b x y last E L.
  assert (NE : forall z, filter nonempty (a ++ z :: b ++ [last]) <> []).
  { intros z Q. assert (I : In last (filter nonempty (a ++ z :: b ++ [last]))).
    { apply filter_In. split; [|now destruct last]. apply in_or_app; right; right. apply in_or_app; right; now left. }
    rewrite Q in I. destruct I. }
  assert (C : closed [us] (filter nonempty (a ++ x :: b ++ [last])) = closed [us] (filter nonempty (a ++ y :: b ++ [last]))).
  { rewrite !closed_tjoin by auto. now rewrite E. }
  rewrite !filter_app in C. cbn [filter] in C.
  rewrite !closed_app in C. apply app_inv_head in C.
  destruct x as [|cx x], y as [|cy y]; cbn [nonempty] in C; auto.
  - exfalso. apply (f_equal (@List.length _)) in C. unfold closed in C; cbn [flat_map] in C. rewrite !app_length in C. cbn in C. lia.
  - exfalso. apply (f_equal (@List.length _)) in C. unfold closed in C; cbn [flat_map] in C. rewrite !app_length in C. cbn in C. lia.
  - unfold closed in C; cbn [flat_map] in C. apply app_inv_tail in C.
    change ((cx :: x) ++ [us] = (cy :: y) ++ [us]) in C. now apply app_inv_tail in C.
Qed.

(** Requests without explicit directories that differ in one text of the name
    (types, titles, a date text of at most four characters, slices) have
    different names. *)
Theorem C155_names_partial : forall r r', sm_directories r = [] -> sm_directories r' = [] ->
  sm_ending r = sm_ending r' ->
  summary_name r = summary_name r' ->
  let T x := tjoin [us] (sm_types x) in let L x := tjoin [us] (sm_titles x) in
  let D x := date_text (sm_dates x) in let S x := tjoin [us] (sm_slices x) in
  (L r = L r' -> D r = D r' -> S r = S r' -> T r = T r') /\
  (T r = T r' -> D r = D r' -> S r = S r' -> L r = L r') /\
  (T r = T r' -> L r = L r' -> S r = S r' ->
     List.length (tjoin (tx "__") (sm_dates r)) <= 4 -> List.length (tjoin (tx "__") (sm_dates r')) <= 4 ->
     tjoin (tx "__") (sm_dates r) = tjoin (tx "__") (sm_dates r')) /\
  (T r = T r' -> L r = L r' -> D r = D r' -> S r = S r').
Proof.
  intros r r' E1 E2 EE E. cbn zeta. unfold summary_name, name_pieces in E. rewrite E1, E2 in E. cbv zeta in E.
  rewrite <- EE in E.
  set (last := (if nonempty (sm_ending r) then sm_ending r else tx "summaries") ++ tx ".csv") in E.
  assert (NL : last <> []) by (unfold last; intros Q; apply app_eq_nil in Q as [_ Q]; discriminate).
  clearbody last. repeat split.
  - intros A B C. rewrite A, B, C in E. eapply (one_piece [] [_; _; _]); [exact E | auto].
  - intros A B C. rewrite A, B, C in E. eapply (one_piece [_] [_; _]); [exact E | auto].
  - intros A B C H1 H2. rewrite A, B, C in E.
    assert (X : date_text (sm_dates r) = date_text (sm_dates r')) by (eapply (one_piece [_; _] [_]); [exact E | auto]).
    unfold date_text in X. apply Nat.ltb_ge in H1. apply Nat.ltb_ge in H2. now rewrite H1, H2 in X.
  - intros A B C. rewrite A, B, C in E. eapply (one_piece [_; _; _] []); [exact E | auto].
Qed.
Print Assumptions C155_names_partial.

(** Different endings give different names, with or without directories. *)
Theorem C155_endings : forall r r', sm_directories r = sm_directories r' ->
  sm_types r = sm_types r' -> sm_titles r = sm_titles r' -> sm_dates r = sm_dates r' -> sm_slices r = sm_slices r' ->
  sm_ending r <> [] -> sm_ending r' <> [] -> sm_ending r <> sm_ending r' -> summary_name r <> summary_name r'.
Proof.
  intros r r' A B C D E N1 N2 N Q. apply N. clear N.
  unfold summary_name, name_pieces in Q. rewrite <- A, <- B, <- C, <- D, <- E in Q. cbv zeta in Q.
  assert (X1 : nonempty (sm_ending r) = true) by (destruct (sm_ending r) eqn:Z; [now elim N1 | reflexivity]).
  assert (X2 : nonempty (sm_ending r') = true) by (destruct (sm_ending r') eqn:Z; [now elim N2 | reflexivity]).
  rewrite X1, X2 in Q.
  assert (G : forall pre x y, tjoin [us] (filter nonempty (pre ++ [x ++ tx ".csv"])) = tjoin [us] (filter nonempty (pre ++ [y ++ tx ".csv"])) -> x = y).
  { intros pre x y H.
    assert (NN : forall z, nonempty (z ++ tx ".csv") = true) by (intros z; destruct z; reflexivity).
    rewrite !filter_app in H. cbn [filter] in H. rewrite !NN in H.
    assert (K : forall z, filter nonempty pre ++ [z] <> []) by (intros z W; apply app_eq_nil in W as [_ W]; discriminate).
    apply (f_equal (fun t => t ++ [us])) in H. rewrite <- !closed_tjoin in H by auto. rewrite !closed_app in H.
    apply app_inv_head in H. unfold closed in H; cbn [flat_map] in H. rewrite !app_nil_r in H. apply app_inv_tail in H.
    now apply app_inv_tail in H. }
  destruct (sm_directories r).
  - apply (G [_; _; _; _] _ _ Q).
  - apply (G [_] _ _ Q).
Qed.
Print Assumptions C155_endings.

(** Two summaries of different dates are written to the same file, the second
    replacing the first: whatever the dates, once their texts have more than four
    characters. *)
Theorem C155_dates_refuted : forall r dates,
  4 < List.length (tjoin (tx "__") (sm_dates r)) -> 4 < List.length (tjoin (tx "__") dates) ->
  summary_path (mkrequest (sm_out r) (sm_datasets r) (sm_directories r) (sm_types r) (sm_titles r) dates (sm_slices r) (sm_ending r))
  = summary_path r.
Proof.
  intros r dates H1 H2. unfold summary_path, summary_name, name_pieces, date_text.
  cbn [sm_out sm_datasets sm_directories sm_types sm_titles sm_dates sm_slices sm_ending].
  apply Nat.ltb_lt in H1. apply Nat.ltb_lt in H2. now rewrite H1, H2.
Qed.
Print Assumptions C155_dates_refuted.

(** One dataset, and at most one directory, both relative: the file lies in the
    summaries directory below the output directory. *)
Lemma absolute_app : forall a b, a <> [] -> absolute (a ++ b) = absolute a.
Proof. intros [|c a] b H; [congruence|reflexivity]. Qed.
Lemma pjoin_extends : forall a b, a <> [] -> absolute b = false -> exists t, pjoin a b = a ++ t.
Proof.
  intros a b N A. unfold pjoin. rewrite A. destruct a as [|c a]; [congruence|].
  destruct (ends_slash (c :: a)); eauto.
Qed.
Lemma Ok_inj : forall A (a b : A), Ok a = Ok b -> a = b.
Proof. congruence. Qed.
Theorem C155_below_output : forall r d p, sm_out r <> [] -> dataset_directory (sm_datasets r) = Ok d ->
  absolute d = false -> (forall x, In x (sm_directories r) -> absolute x = false) ->
  absolute (summary_name r) = false -> summary_path r = Ok p ->
  (exists t, p = sm_out r ++ t) /\ (exists t, p = t ++ tx "summaries/" ++ summary_name r).
Proof.
  intros r d p NE DD AD AS AN E. unfold summary_path in E. rewrite DD in E. cbn [rbind] in E. apply Ok_inj in E. subst p.
  set (sub := match sm_directories r with [x] => x | _ => [] end).
  assert (ASub : absolute sub = false).
  { unfold sub. destruct (sm_directories r) as [|x [|y l]]; try reflexivity. apply AS; now left. }
  destruct (pjoin_extends (sm_out r) d NE AD) as [t1 E1]. rewrite E1.
  assert (N1 : sm_out r ++ t1 <> []) by (intros Q; apply app_eq_nil in Q; tauto).
  destruct (pjoin_extends _ sub N1 ASub) as [t2 E2]. rewrite E2.
  assert (N2 : (sm_out r ++ t1) ++ t2 <> []) by (intros Q; apply app_eq_nil in Q; tauto).
  destruct (pjoin_tail ((sm_out r ++ t1) ++ t2) (tx "summaries")) as [t3 E3].
  destruct (pjoin_extends _ (tx "summaries") N2 eq_refl) as [t4 E4].
  split.
  - destruct (pjoin_extends (pjoin ((sm_out r ++ t1) ++ t2) (tx "summaries")) (summary_name r)) as [t5 E5]; auto.
    { rewrite E4. intros Q; apply app_eq_nil in Q; tauto. }
    rewrite E5, E4. exists (t1 ++ t2 ++ t4 ++ t5). now rewrite <- !app_assoc.
  - exists t3. rewrite E3. rewrite pjoin_ne; auto.
    + replace (ends_slash (t3 ++ tx "summaries")) with false; [now rewrite <- !app_assoc|].
      unfold ends_slash. rewrite rev_app_distr. reflexivity.
    + intros Q. apply app_eq_nil in Q as [_ Q]. discriminate.
Qed.
Print Assumptions C155_below_output.

(** One dataset, a relative path, and no directory: the file lies below the
    directory of that dataset in the output directory. *)
Theorem C155_dataset : forall r n, sm_out r <> [] -> sm_datasets r = [n] -> sm_directories r = [] ->
  absolute n = false -> absolute (summary_name r) = false ->
  exists p t, summary_path r = Ok p /\ p = pjoin (sm_out r) n ++ t.
Proof.
  intros r n NE DS DR AN AS. unfold summary_path. rewrite DS, DR. cbn [dataset_directory rbind].
  set (b := pjoin (sm_out r) n).
  assert (N0 : b <> []). { unfold b. destruct (pjoin_extends (sm_out r) n NE AN) as [t ->]. intros Q; apply app_eq_nil in Q; tauto. }
  destruct (pjoin_extends b [] N0 eq_refl) as [t1 E1]. rewrite E1.
  assert (N1 : b ++ t1 <> []) by (intros Q; apply app_eq_nil in Q; tauto).
  destruct (pjoin_extends (b ++ t1) (tx "summaries") N1 eq_refl) as [t2 E2]. rewrite E2.
  assert (N2 : (b ++ t1) ++ t2 <> []) by (intros Q; apply app_eq_nil in Q; tauto).
  destruct (pjoin_extends ((b ++ t1) ++ t2) (summary_name r) N2 AS) as [t3 E3]. rewrite E3.
  exists (((b ++ t1) ++ t2) ++ t3), (t1 ++ t2 ++ t3). split; [reflexivity|]. now rewrite <- !app_assoc.
Qed.
Print Assumptions C155_dataset.

(** Datasets of different places that share the end of their path: the file is
    written to a directory at the root of the file system, whatever the output
    directory. *)
Theorem C155_outside_refuted : forall out,
  summary_path (mkrequest out [tx "leeds/2011"; tx "york/2011"] [] [tx "JointTableSIM_MCMC"] [] [] [] [])
  = Ok (tx "/2011datasets/summaries/JointTableSIM_MCMC_summaries.csv").
Proof. intros out. unfold summary_path. cbn [sm_out sm_datasets]. vm_compute. reflexivity. Qed.
Print Assumptions C155_outside_refuted.

Example C155_nonvacuous :
  let r := mkrequest (tx "out") [tx "york"] [] [tx "SIM_MCMC"] [tx "test"] [tx "2024"] [] (tx "fit") in
  let r' := mkrequest (tx "out") [tx "york"] [] [tx "SIM_MCMC"] [tx "test"] [tx "01_2024"] [] (tx "fit") in
  summary_path r = Ok (tx "out/york/summaries/SIM_MCMC_test_2024_fit.csv") /\
  4 < List.length (tjoin (tx "__") (sm_dates r')) /\
  summary_path r' = Ok (tx "out/york/summaries/SIM_MCMC_test_multiple_dates_fit.csv") /\
  dataset_directory (sm_datasets r) = Ok (tx "york") /\
  dataset_directory [tx "abc_x"; tx "abd_y"] = Ok (tx "abdatasets").
Proof. repeat split; vm_compute; auto; repeat constructor. Qed.

(** A sort that meets the hypotheses of [C155_sorted_partial]: by the value of
    the first column asked for. *)
Definition cell_of (by_ : list string) (r : @record nat) : nat :=
  match by_ with c :: _ => match aget c r with Some v => v | None => 0 end | [] => 0 end.
Fixpoint put_row (by_ : list string) (x : @record nat) (l : list (@record nat)) : list (@record nat) :=
  match l with
  | [] => [x]
  | y :: r => if cell_of by_ x <=? cell_of by_ y then x :: l else y :: put_row by_ x r
  end.
Definition sort_demo (by_ : list string) (asc : bool) (l : list (@record nat)) : list (@record nat) :=
  fold_right (put_row by_) [] l.
Example C155_sort_exists :
  let le (by_ : list string) (asc : bool) (a b : @record nat) := cell_of by_ a <= cell_of by_ b in
  (forall b a l, Permutation (sort_demo b a l) l) /\ (forall b a l, Sorted (le b a) (sort_demo b a l)).
Proof.
  cbn zeta. split; intros by_ asc l.
  - induction l as [|x r IH]; cbn; auto.
    assert (P : forall m, Permutation (put_row by_ x m) (x :: m)).
    { induction m as [|y m IHm]; cbn; auto. destruct (cell_of by_ x <=? cell_of by_ y); auto.
      eapply perm_trans; [apply perm_skip, IHm | constructor]. }
    eapply perm_trans; [apply P | auto].
  - induction l as [|x r IH]; cbn [sort_demo fold_right]; [constructor|]. fold (sort_demo by_ asc r).
    induction IH as [|y m Hm IHm Hd]; cbn [put_row]; [repeat constructor|].
    destruct (cell_of by_ x <=? cell_of by_ y) eqn:E.
    + apply Nat.leb_le in E. constructor; [constructor; auto | constructor; auto].
    + apply Nat.leb_gt in E. constructor; auto.
      destruct m as [|z m]; cbn [put_row]; [constructor; lia|].
      destruct (cell_of by_ x <=? cell_of by_ z); constructor; [lia | now inversion Hd].
Qed.
