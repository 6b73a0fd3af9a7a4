(** Proofs about the commands that run experiments (model: Handler). *)
From Coq Require Import String List ZArith Lia Bool Arith Ascii.
From Verif Require Import Base PyMonad ConfigTree ConfigSpec DictUtils DictUtilsProps.
From Verif Require Import Inputs InputsProps SummariseProps Handler.
Import ListNotations.
Local Open Scope string_scope.
Local Open Scope nat_scope.
Local Open Scope list_scope.

(** * Specification *)

(** A value an option can be given: not null; and not of length zero. *)
Definition significant (v : node) : Prop :=
  v <> Leaf LNone /\ v <> Leaf (LStr "") /\ v <> Dict [] /\ v <> LList [].

(** The settings written although the user did not ask for them, with their
    values: six defaults of options, the threads (null) and the samples. *)
Definition unasked : list (string * node) :=
  [("norm", Leaf (LStr "relative_l_1")); ("n_workers", Leaf (LNum 1)); ("n_threads", Leaf LNone);
   ("logging_mode", Leaf (LStr "info")); ("device", Leaf (LStr "cpu"));
   ("sparse_margins", Leaf (LBool false)); ("store_progress", Leaf (LNum 1)); ("sample", LList [])].

(** The options given are options of the command, with proper values. *)
Definition options_ok (params : list (string * node)) (given : list (string * node)) : Prop :=
  forall k v, In (k, v) given -> In k (map fst params) /\ significant v.

(** * Association lists *)

Lemma aget_filter : forall (P : node -> bool) k l, NoDup (map fst l) ->
  aget k (filter (fun kv => P (snd kv)) l) = match aget k l with Some v => if P v then Some v else None | None => None end.
Proof.
  intros P k l; induction l as [|[k' v'] l IH]; intros Hnd; [reflexivity|].
  cbn [map fst] in Hnd. inversion Hnd as [|? ? Hni Hnd']; subst. specialize (IH Hnd').
  cbn [filter snd aget]. destruct (String.eqb k k') eqn:E.
  - apply String.eqb_eq in E as <-. destruct (P v') eqn:EP.
    + cbn [aget]. rewrite String.eqb_refl. reflexivity.
    + rewrite IH. rewrite (proj2 (aget_None _ k l) Hni). reflexivity.
  - destruct (P v'); cbn [aget]; rewrite ?E; exact IH.
Qed.

Lemma filter_fst_In : forall (P : string * node -> bool) l x, In x (map fst (filter P l)) -> In x (map fst l).
Proof.
  intros P l x H. apply in_map_iff in H as (y & <- & Hy). apply filter_In in Hy as [Hy _]. apply in_map; auto.
Qed.
Lemma filter_NoDup_map : forall (g : string -> string) (P : string * node -> bool) l, NoDup (map (fun kv => g (fst kv)) l) ->
  NoDup (map (fun kv => g (fst kv)) (filter P l)).
Proof.
  intros g P l; induction l as [|x l IH]; intros H; [constructor|].
  cbn [map] in H. inversion H as [|? ? Hni Hnd]; subst. cbn [filter]. destruct (P x); [|auto].
  cbn [map]. constructor; [|auto]. intro HI. apply Hni. apply in_map_iff in HI as (y & E & Hy).
  apply filter_In in Hy as [Hy _]. rewrite <- E. apply (in_map (fun kv => g (fst kv))); exact Hy.
Qed.
Lemma aset_new : forall V k (v : V) l, ~ In k (map fst l) -> aset k v l = l ++ [(k, v)].
Proof.
  intros V k v l; induction l as [|[k' v'] l IH]; intros H; [reflexivity|].
  cbn [map fst In] in H. cbn [aset app]. destruct (String.eqb k k') eqn:E.
  - apply String.eqb_eq in E as ->. exfalso; auto.
  - rewrite IH; auto.
Qed.

Lemma capitalise_map : forall l, NoDup (map (fun kv => option_name (fst kv)) l) ->
  capitalise l = map (fun kv => (option_name (fst kv), snd kv)) l.
Proof.
  intros l H. unfold capitalise.
  assert (G : forall (l acc : list (string * node)), NoDup (map fst acc ++ map (fun kv => option_name (fst kv)) l) ->
    fold_left (fun d kv => aset (option_name (fst kv)) (snd kv) d) l acc =
    acc ++ map (fun kv => (option_name (fst kv), snd kv)) l).
  { clear. induction l as [|[k v] l IH]; intros acc H; [rewrite app_nil_r; reflexivity|].
    cbn [fold_left fst snd map]. cbn [map fst] in H. rewrite IH.
    - rewrite aset_new.
      + rewrite <- app_assoc. reflexivity.
      + apply NoDup_remove_2 in H. intro HI. apply H. apply in_or_app; auto.
    - rewrite aset_new.
      + rewrite map_app. cbn [map fst]. rewrite <- app_assoc. exact H.
      + apply NoDup_remove_2 in H. intro HI. apply H. apply in_or_app; auto. }
  rewrite (G l []); [reflexivity|exact H].
Qed.

(** Two names of options are capitalised differently. *)
Fixpoint nodupb (l : list string) : bool :=
  match l with [] => true | x :: r => negb (memb x r) && nodupb r end.
Lemma nodupb_NoDup : forall l, nodupb l = true -> NoDup l.
Proof.
  induction l as [|x l IH]; intros H; [constructor|]. cbn [nodupb] in H. apply andb_true_iff in H as [H1 H2].
  constructor; auto. intro HI. apply negb_true_iff in H1. unfold memb in H1.
  assert (existsb (String.eqb x) l = true) by (apply existsb_exists; exists x; split; [auto|apply String.eqb_refl]). congruence.
Qed.

Section Settings.
  Variable params : list (string * node).
  Hypothesis Hnames : nodupb (map option_name ("config_path" :: map fst params)) = true.

  Lemma names_NoDup : NoDup (map option_name ("config_path" :: map fst params)).
  Proof. apply nodupb_NoDup, Hnames. Qed.
  Lemma plain_NoDup : NoDup ("config_path" :: map fst params).
  Proof. eapply NoDup_map_inv, names_NoDup. Qed.
  Lemma option_name_inj : forall a b, In a ("config_path" :: map fst params) -> In b ("config_path" :: map fst params) ->
    option_name a = option_name b -> a = b.
  Proof.
    pose proof names_NoDup as H. clear Hnames. induction ("config_path" :: map fst params) as [|x l IH]; intros a b Ha Hb E; [destruct Ha|].
    cbn [map] in H. inversion H as [|? ? Hni Hnd]; subst.
    destruct Ha as [->|Ha], Hb as [->|Hb]; auto.
    - exfalso. apply Hni. rewrite E. apply in_map; auto.
    - exfalso. apply Hni. rewrite <- E. apply in_map; auto.
  Qed.

  Lemma locals_fst : forall path given, map fst (locals params path given) = "config_path" :: map fst params.
  Proof. intros. unfold locals. cbn [map fst]. rewrite map_map. reflexivity. Qed.
  Lemma locals_get : forall path given o d, In (o, d) params ->
    aget o (locals params path given) = Some (match aget o given with Some v => v | None => d end).
  Proof.
    intros path given o d H. apply aget_NoDup.
    - rewrite locals_fst. apply plain_NoDup.
    - unfold locals. right. apply in_map_iff. exists (o, d). auto.
  Qed.
  Lemma locals_path : forall path given, aget "config_path" (locals params path given) = Some path.
  Proof. intros. reflexivity. Qed.

  (** The settings before update_settings, for a filter. *)
  Lemma capitalised_get : forall P path given o, In o ("config_path" :: map fst params) ->
    aget (option_name o) (capitalise (filter (fun kv => P (snd kv)) (locals params path given))) =
    match aget o (locals params path given) with Some v => if P v then Some v else None | None => None end.
  Proof.
    intros P path given o Ho.
    assert (Hnd : NoDup (map (fun kv => option_name (fst kv)) (filter (fun kv : string * node => P (snd kv)) (locals params path given)))).
    { apply filter_NoDup_map. rewrite <- map_map, locals_fst. apply names_NoDup. }
    rewrite capitalise_map by exact Hnd.
    rewrite <- aget_filter by (rewrite locals_fst; apply plain_NoDup).
    set (l := filter _ _).
    assert (Hsub : forall x, In x (map fst l) -> In x ("config_path" :: map fst params)).
    { intros x Hx. apply filter_fst_In in Hx. rewrite locals_fst in Hx. exact Hx. }
    clearbody l. clear Hnd. induction l as [|[k v] l IH]; [reflexivity|].
    cbn [map fst snd aget]. destruct (String.eqb o k) eqn:E.
    - apply String.eqb_eq in E as <-. rewrite String.eqb_refl. reflexivity.
    - destruct (String.eqb (option_name o) (option_name k)) eqn:E2.
      + apply String.eqb_eq in E2. apply option_name_inj in E2; auto.
        * subst k. rewrite String.eqb_refl in E. discriminate.
        * apply Hsub. cbn; auto.
      + apply IH. intros x Hx. apply Hsub. cbn; auto.
  Qed.
  Lemma capitalised_keys : forall P path given k,
    In k (map fst (capitalise (filter (fun kv => P (snd kv)) (locals params path given)))) ->
    exists o v, In (o, v) (locals params path given) /\ P v = true /\ k = option_name o.
  Proof.
    intros P path given k H. rewrite capitalise_map in H.
    - rewrite map_map in H. cbn [fst] in H. apply in_map_iff in H as ([o v] & <- & Hi). apply filter_In in Hi as [Hi HP].
      exists o, v. auto.
    - apply filter_NoDup_map. rewrite <- map_map, locals_fst. apply names_NoDup.
  Qed.
End Settings.

Lemma run_names : nodupb (map option_name ("config_path" :: map fst run_parameters)) = true.
Proof. vm_compute. reflexivity. Qed.
Lemma optimise_names : nodupb (map option_name ("config_path" :: map fst optimise_parameters)) = true.
Proof. vm_compute. reflexivity. Qed.
Lemma create_names : nodupb (map option_name ("config_path" :: map fst create_parameters)) = true.
Proof. vm_compute. reflexivity. Qed.

Lemma drop_both : forall l, drop_empty (drop_null l) = filter (fun kv => negb (is_null (snd kv)) && negb (is_empty (snd kv))) l.
Proof.
  induction l as [|[k v] l IH]; [reflexivity|]. unfold drop_empty, drop_null in *. cbn [filter snd].
  destruct (is_null v); cbn [negb andb filter snd]; [exact IH|]. destruct (is_empty v); cbn [negb]; rewrite IH; reflexivity.
Qed.

Lemma update_settings_get : forall k l, k <> "sample" -> k <> "n_threads" -> k <> "n_workers" ->
  aget k (update_settings l) = aget k l.
Proof.
  intros k l H1 H2 H3. unfold update_settings. cbv zeta. rewrite !aget_aset_other; auto.
Qed.
Lemma update_settings_threads : forall l,
  aget "n_threads" (update_settings l) = Some (match aget "n_threads" l with Some v => v | None => none end).
Proof.
  intros l. unfold update_settings. cbv zeta. rewrite aget_aset_other by discriminate.
  rewrite aget_aset_other by discriminate. rewrite aget_aset_same. reflexivity.
Qed.
Lemma update_settings_workers : forall l,
  aget "n_workers" (update_settings l) = Some (match aget "n_workers" l with Some v => v | None => Leaf (LNum 1) end).
Proof.
  intros l. unfold update_settings. cbv zeta. rewrite aget_aset_other by discriminate.
  rewrite aget_aset_same. rewrite aget_aset_other by discriminate. reflexivity.
Qed.
Lemma update_settings_keys : forall l k, In k (map fst (update_settings l)) <->
  k = "sample" \/ k = "n_workers" \/ k = "n_threads" \/ In k (map fst l).
Proof. intros l k. unfold update_settings. cbv zeta. rewrite !aset_keys. tauto. Qed.


(** ** What the settings are, for a command *)

Section Command.
  Variable params : list (string * node).
  Variable P : node -> bool.
  Hypothesis Hnames : nodupb (map option_name ("config_path" :: map fst params)) = true.
  Hypothesis Hspecial : forallb (fun o => negb (String.eqb (option_name o) "sample") &&
    (negb (String.eqb (option_name o) "n_threads") || String.eqb o "n_threads") &&
    (negb (String.eqb (option_name o) "n_workers") || String.eqb o "n_workers")) (map fst params) = true.
  Hypothesis Hthreads : aget "n_threads" params = Some none.
  Hypothesis Hworkers : aget "n_workers" params = Some (Leaf (LNum 1)).
  Hypothesis PN : P none = false.
  Hypothesis P1 : P (Leaf (LNum 1)) = true.

  Definition command_settings (path : node) (given : list (string * node)) : list (string * node) :=
    update_settings (capitalise (filter (fun kv => P (snd kv)) (locals params path given))).

  Lemma params_NoDup : NoDup (map fst params).
  Proof. pose proof (plain_NoDup _ Hnames) as H. inversion H; auto. Qed.

  Lemma command_value : forall path given o d,
    (forall v, aget o given = Some v -> P v = true) -> In (o, d) params ->
    aget (option_name o) (command_settings path given) =
    match aget o given with
    | Some v => Some v
    | None => if String.eqb o "n_threads" then Some none else if P d then Some d else None
    end.
  Proof.
    intros path given o d Hg Hin.
    assert (Hin' : In o (map fst params)) by (apply (in_map fst) in Hin; exact Hin).
    assert (Ho : In o ("config_path" :: map fst params)) by (right; exact Hin').
    pose proof Hspecial as G. rewrite forallb_forall in G. specialize (G o Hin').
    apply andb_true_iff in G as [G G3]. apply andb_true_iff in G as [G1 G2].
    unfold command_settings.
    pose proof (capitalised_get params Hnames P path given o Ho) as G.
    rewrite (locals_get params Hnames path given o d Hin) in G. 
    set (l := capitalise _) in *. clearbody l.
    destruct (string_dec o "n_threads") as [->|Ht].
    - change (option_name "n_threads") with "n_threads" in *. rewrite update_settings_threads, G, String.eqb_refl.
      destruct (aget "n_threads" given) as [v|]; [rewrite (Hg v eq_refl); reflexivity|].
      rewrite (aget_NoDup _ _ _ _ params_NoDup Hin) in Hthreads. injection Hthreads as ->. rewrite PN. reflexivity.
    - rewrite (proj2 (String.eqb_neq o "n_threads") Ht) in *.
      destruct (string_dec o "n_workers") as [->|Hw].
      + change (option_name "n_workers") with "n_workers" in *. rewrite update_settings_workers, G.
        destruct (aget "n_workers" given) as [v|]; [rewrite (Hg v eq_refl); reflexivity|].
        rewrite (aget_NoDup _ _ _ _ params_NoDup Hin) in Hworkers. injection Hworkers as ->. rewrite P1. reflexivity.
      + rewrite (proj2 (String.eqb_neq o "n_workers") Hw) in *.
        rewrite orb_false_r in G2, G3. apply negb_true_iff, String.eqb_neq in G1, G2, G3.
        rewrite update_settings_get; auto. rewrite G.
        destruct (aget o given) as [v|]; [rewrite (Hg v eq_refl); reflexivity|]. reflexivity.
  Qed.

  Lemma command_path : forall path given, P path = true -> aget "config_path" (command_settings path given) = Some path.
  Proof.
    intros path given HP. unfold command_settings. rewrite update_settings_get by discriminate.
    change "config_path" with (option_name "config_path").
    rewrite (capitalised_get params Hnames P path given "config_path") by (left; reflexivity).
    change (option_name "config_path") with "config_path". rewrite locals_path, HP. reflexivity.
  Qed.

  Lemma command_sample : forall path given, aget "sample" (command_settings path given) = Some (LList []).
  Proof. intros. unfold command_settings, update_settings. cbv zeta. apply aget_aset_same. Qed.

  Lemma command_keys : forall path given k, In k (map fst (command_settings path given)) ->
    k = "sample" \/ k = "config_path" \/ exists o d, In (o, d) params /\ k = option_name o.
  Proof.
    intros path given k H. unfold command_settings in H. rewrite update_settings_keys in H.
    assert (Hp : forall o d, aget o params = Some d -> k = o -> option_name o = o ->
              exists o d, In (o, d) params /\ k = option_name o).
    { intros o d E -> E2. exists o, d. split; [apply aget_In; exact E|auto]. }
    destruct H as [->|[->|[->|H]]]; [auto| | |].
    - right; right. eapply Hp; [exact Hworkers|auto|reflexivity].
    - right; right. eapply Hp; [exact Hthreads|auto|reflexivity].
    - apply (capitalised_keys params Hnames) in H as (o & v & Hi & _ & ->).
      unfold locals in Hi. destruct Hi as [E|Hi]; [injection E as <- _; auto|].
      apply in_map_iff in Hi as ([o' d] & E & Hi). injection E as -> _. right; right. eauto.
  Qed.

  Lemma command_NoDup : forall path given, NoDup (map fst (command_settings path given)).
  Proof.
    intros path given. unfold command_settings, update_settings. cbv zeta. repeat apply aset_NoDup.
    rewrite capitalise_map; [rewrite map_map|]; apply filter_NoDup_map; rewrite <- map_map, locals_fst; apply (names_NoDup params Hnames).
  Qed.
End Command.

(** Values kept by run and optimise, and by create. *)
Definition kept (v : node) : bool := negb (is_null v) && negb (is_empty v).
Definition kept_create (v : node) : bool := negb (is_null v).

Lemma run_settings_command : forall path given, run_settings path given = command_settings run_parameters kept path given.
Proof. intros. unfold run_settings. rewrite drop_both. reflexivity. Qed.
Lemma create_settings_command : forall path given, create_settings path given = command_settings create_parameters kept_create path given.
Proof. intros. reflexivity. Qed.
Lemma optimise_settings_command : forall path given, optimise_settings path given =
  aset "export_metadata" (Leaf (LBool false)) (aset "export_samples" (Leaf (LBool false))
    (command_settings optimise_parameters kept path given)).
Proof. intros. unfold optimise_settings. rewrite drop_both. reflexivity. Qed.

Lemma significant_kept : forall v, significant v <-> kept v = true.
Proof.
  intros v. unfold significant, kept.
  destruct v as [[|b|z|[|c s]]|[|kv l]|[|x l]]; cbn; split; intros H; try reflexivity; try discriminate;
    try (repeat split; discriminate); destruct H as (H1 & H2 & H3 & H4); congruence.
Qed.

(** The name under which the value of an option is looked for in the
    configuration: --n is 'N', every other option has its own name. *)
Definition config_name (o : string) : string := if String.eqb o "n" then "N" else o.

Lemma config_name_option : forall params, forallb (fun o => String.eqb (option_name o) (config_name o)) (map fst params) = true ->
  forall o (d : node), In (o, d) params -> option_name o = config_name o.
Proof.
  intros params H o d Hi. rewrite forallb_forall in H. apply String.eqb_eq, H. apply (in_map fst) in Hi. exact Hi.
Qed.

(** * C170 *)

(** The settings of the command run are exactly: the options given, each under
    its name; the path of the configuration; and the [unasked] ones that were
    not given. *)
Theorem C170_run_settings_exact_partial : forall path given k w,
  NoDup (map fst given) -> options_ok run_parameters given -> significant path ->
  (aget k (run_settings path given) = Some w <->
   (exists o, In (o, w) given /\ k = config_name o) \/
   (k = "config_path" /\ w = path) \/
   (In (k, w) unasked /\ ~ In k (map fst given))).
Proof.
  intros path given k w Hnd Hok Hpath. rewrite run_settings_command.
  assert (Hcn : forall o d, In (o, d) run_parameters -> option_name o = config_name o)
    by (apply config_name_option; vm_compute; reflexivity).
  assert (Hval : forall o d, In (o, d) run_parameters ->
    aget (config_name o) (command_settings run_parameters kept path given) =
    match aget o given with Some v => Some v
    | None => if String.eqb o "n_threads" then Some none else if kept d then Some d else None end).
  { intros o d Hi. rewrite <- (Hcn o d Hi).
    apply (command_value run_parameters kept run_names); auto; try (vm_compute; reflexivity).
    intros v E. apply significant_kept. apply (Hok o v). apply aget_In; exact E. }
  assert (Hdef : forall o d, In (o, d) run_parameters ->
    (if String.eqb o "n_threads" then Some none else if kept d then Some d else None) =
    (if String.eqb o "sample" then None else aget o unasked) /\ (o <> "sample") /\ (aget o unasked <> None -> config_name o = o)).
  { intros o d Hi.
    assert (G : forallb (fun p => negb (String.eqb (fst p) "sample") &&
       match (if String.eqb (fst p) "n_threads" then Some none else if kept (snd p) then Some (snd p) else None), aget (fst p) unasked with
       | Some _, Some _ => String.eqb (config_name (fst p)) (fst p) | None, None => true | _, _ => false end) run_parameters = true)
      by (vm_compute; reflexivity).
    rewrite forallb_forall in G. specialize (G _ Hi). cbn [fst snd] in G. apply andb_true_iff in G as [G1 G2].
    apply negb_true_iff in G1. rewrite G1. apply String.eqb_neq in G1. split; [|split; [exact G1|]].
    - clear G2. revert o d Hi G1. 
      assert (E : Forall (fun p => fst p <> "sample" -> (if String.eqb (fst p) "n_threads" then Some none else if kept (snd p) then Some (snd p) else None) = aget (fst p) unasked) run_parameters).
      { repeat constructor; intros _; reflexivity. }
      intros o d Hi G1. rewrite Forall_forall in E. exact (E (o, d) Hi G1).
    - intros H. destruct (aget o unasked); [|congruence].
      destruct (if String.eqb o "n_threads" then _ else _); [|discriminate]. apply String.eqb_eq; exact G2. }
  assert (Hun : forall k w, In (k, w) unasked -> k = "sample" /\ w = LList [] \/ exists d, In (k, d) run_parameters).
  { intros k' w' H. cbn [unasked] in H. repeat (destruct H as [H|H]; [injection H as <- <-|]); [right..|left; auto|destruct H];
      match goal with |- exists d, In (?k, d) _ =>
        destruct (aget k run_parameters) as [d|] eqn:E; [exists d; apply aget_In; exact E|vm_compute in E; discriminate] end. }
  assert (HunND : NoDup (map fst unasked)) by (apply nodupb_NoDup; vm_compute; reflexivity).
  assert (HsampleG : ~ In "sample" (map fst given)).
  { intro H. apply in_map_iff in H as ([o v] & E & H). cbn in E. subst o. destruct (Hok _ _ H) as [H' _].
    apply in_map_iff in H' as ([o' d] & E & Hi). cbn in E. subst o'. destruct (Hdef _ _ Hi) as (_ & Hn & _). congruence. }
  split.
  - intros H.
    assert (Hk : In k (map fst (command_settings run_parameters kept path given))).
    { apply aget_In in H. apply (in_map fst) in H. exact H. }
    apply (command_keys run_parameters kept run_names) in Hk; try (vm_compute; reflexivity).
    destruct Hk as [->|[->|(o & d & Hi & ->)]].
    + rewrite command_sample in H. injection H as <-. right; right. split; [cbn; auto 10|exact HsampleG].
    + rewrite (command_path run_parameters kept run_names) in H by (apply significant_kept; exact Hpath).
      injection H as <-. auto.
    + rewrite (Hcn o d Hi) in *. rewrite (Hval o d Hi) in H. destruct (aget o given) as [v|] eqn:E.
      * injection H as <-. left. exists o. split; [apply aget_In; exact E|reflexivity].
      * destruct (Hdef o d Hi) as (E1 & Hs & Hc). rewrite E1 in H.
        rewrite (proj2 (String.eqb_neq o "sample") Hs) in H. right; right.
        rewrite Hc by congruence. split; [apply aget_In; exact H|]. apply aget_None; exact E.
  - intros [(o & Hi & ->)|[[-> ->]|[Hi Hn]]].
    + destruct (Hok o w Hi) as [Hp _]. apply in_map_iff in Hp as ([o' d] & E & Hp). cbn in E. subst o'.
      rewrite (Hval o d Hp). rewrite (aget_NoDup _ _ _ _ Hnd Hi). reflexivity.
    + apply command_path; [exact run_names|apply significant_kept; exact Hpath].
    + destruct (Hun _ _ Hi) as [[-> ->]|(d & Hp)]; [apply command_sample|].
      destruct (Hdef k d Hp) as (E1 & Hs & Hc).
      assert (E : aget k unasked = Some w) by (apply aget_NoDup; auto).
      rewrite <- (Hc ltac:(congruence)) at 1. rewrite (Hval k d Hp), (proj2 (aget_None _ k given) Hn), E1.
      rewrite (proj2 (String.eqb_neq k "sample") Hs). exact E.
Qed.
Print Assumptions C170_run_settings_exact_partial.

Lemma with_settings_keys : forall (us : list (string * node)) k v, In (k, v) (map (fun kv => (KS (fst kv), snd kv)) us) ->
  exists t, k = KS t.
Proof. intros us k v H. apply in_map_iff in H as (x & E & _). injection E as <- _. eauto. Qed.

(** What the configuration file says stays: a value on whose path none of the
    names given, none of the [unasked] and not 'config_path' occurs. *)
Theorem C170_left_out_kept_partial : forall path given l p x,
  NoDup (map fst given) -> options_ok run_parameters given -> significant path ->
  (forall t, In (KS t) p ->
     ~ In t (map config_name (map fst given)) /\ ~ In t (map fst unasked) /\ t <> "config_path") ->
  (reaches (with_settings (Dict l) (run_settings path given)) p (Leaf x) <-> reaches (Dict l) p (Leaf x)).
Proof.
  intros path given l p x Hnd Hok Hpath Hp. unfold with_settings. apply C87_settings_nothing_else.
  - apply with_settings_keys.
  - intros k Hk Hin. apply in_map_iff in Hin as ([k' v] & E & Hin). cbn [fst] in E. subst k'.
    apply in_map_iff in Hin as ([t w] & E & Hin). injection E as <- <-. cbn [fst snd] in *.
    assert (E : aget t (run_settings path given) = Some w).
    { apply aget_NoDup; [|exact Hin]. rewrite run_settings_command. apply command_NoDup. exact run_names. }
    apply C170_run_settings_exact_partial in E; auto. destruct (Hp t Hk) as (N1 & N2 & N3).
    destruct E as [(o & Hi & ->)|[[-> _]|[Hi _]]]; [|congruence|].
    + apply N1. apply in_map. change o with (fst (o, w)). apply in_map; exact Hi.
    + apply N2. change t with (fst (t, w)). apply in_map; exact Hi.
Qed.
Print Assumptions C170_left_out_kept_partial.

(** "An option left out leaves the setting of the configuration file alone" is
    false: whatever the file says, the number of workers (1), the threads (null),
    the device (cpu), the batch size, the sparsity of margins, the norm and the
    logging mode are replaced wherever they occur. *)
Theorem C170_left_out_refuted : forall path given l k w,
  flat_lists (Dict l) -> NoDup (map fst given) -> options_ok run_parameters given ->
  (forall o v, In (o, v) given -> plain v) -> significant path -> plain path ->
  In (k, w) unasked -> ~ In k (map fst given) ->
  forall x, In x (deep_get (KS k) (with_settings (Dict l) (run_settings path given))) -> x = w.
Proof.
  intros path given l k w Hf Hnd Hok Hpl Hpath Hpp Hin Hn x Hx.
  set (us := map (fun kv => (KS (fst kv), snd kv)) (run_settings path given)).
  assert (HN : NoDup (map fst (run_settings path given))).
  { rewrite run_settings_command. apply command_NoDup. exact run_names. }
  assert (Ek : aget k (run_settings path given) = Some w).
  { apply C170_run_settings_exact_partial; auto. }
  apply (C87_settings_effective_partial l us (KS k) w); auto.
  - split.
    + unfold us. rewrite map_map. cbn [fst]. rewrite <- map_map. apply FinFun.Injective_map_NoDup; [|exact HN].
      intros a b E. injection E as ->. reflexivity.
    + intros k' v' H. split; [|eapply with_settings_keys; exact H].
      apply in_map_iff in H as ([t w'] & E & H). injection E as <- <-. cbn [fst snd].
      apply (aget_NoDup _ _ _ _ HN), C170_run_settings_exact_partial in H; auto.
      destruct H as [(o & Hi & _)|[[_ ->]|[Hi _]]]; [exact (Hpl _ _ Hi)|exact Hpp|].
      cbn [unasked] in Hi. repeat (destruct Hi as [Hi|Hi]; [injection Hi as <- <-; cbn; try exact I; intros c []|]). destruct Hi.
  - unfold us. apply in_map_iff. exists (k, w). split; [reflexivity|]. apply aget_In; exact Ek.
Qed.
Print Assumptions C170_left_out_refuted.

(** The file asks for 4 workers, 8 threads and sparse margins; the command line
    sets alpha and the number of iterations. *)
Definition small_config : list (key * node) :=
  [(KS "inputs", Dict [(KS "n_workers", Leaf (LNum 4)); (KS "n_threads", Leaf (LNum 8)); (KS "dataset", Leaf (LStr "cambridge"))]);
   (KS "training", Dict [(KS "N", Leaf (LNum 100))]);
   (KS "contingency_table", Dict [(KS "sparse_margins", Leaf (LBool true))]);
   (KS "alpha", Leaf (LNum 0))].
Example C170_nonvacuous :
  let given := [("alpha", Leaf (LNum 1)); ("n", Leaf (LNum 10))] in
  let after := with_settings (Dict small_config) (run_settings (Leaf (LStr "c.toml")) given) in
  NoDup (map fst given) /\ options_ok run_parameters given /\ significant (Leaf (LStr "c.toml")) /\
  flat_lists (Dict small_config) /\
  after = Dict [(KS "inputs", Dict [(KS "n_workers", Leaf (LNum 1)); (KS "n_threads", Leaf LNone); (KS "dataset", Leaf (LStr "cambridge"))]);
   (KS "training", Dict [(KS "N", Leaf (LNum 10))]);
   (KS "contingency_table", Dict [(KS "sparse_margins", Leaf (LBool false))]);
   (KS "alpha", Leaf (LNum 1))].
Proof.
  cbv zeta. split; [repeat constructor; cbn; intuition discriminate|].
  split; [intros k v [E|[E|[]]]; injection E as <- <-; (split; [vm_compute; tauto|repeat split; discriminate])|].
  split; [repeat split; discriminate|]. split; [apply flat_lists_b; reflexivity|]. vm_compute. reflexivity.
Qed.

(** The command create also writes an empty output group and the method of
    synthesis, and keeps empty texts and lists given. *)
Theorem C170_create_option_given : forall path given o v,
  NoDup (map fst given) -> In (o, v) given -> In o (map fst create_parameters) -> is_null v = false ->
  aget (config_name o) (create_settings path given) = Some v.
Proof.
  intros path given o v Hnd Hi Hp Hv. rewrite create_settings_command.
  apply in_map_iff in Hp as ([o' d] & E & Hp). cbn in E. subst o'.
  rewrite <- (config_name_option create_parameters ltac:(vm_compute; reflexivity) o d Hp).
  rewrite (command_value create_parameters kept_create create_names) with (d := d); try (vm_compute; reflexivity); auto.
  - rewrite (aget_NoDup _ _ _ _ Hnd Hi). reflexivity.
  - intros v' E. rewrite (aget_NoDup _ _ _ _ Hnd Hi) in E. injection E as <-. unfold kept_create. rewrite Hv. reflexivity.
Qed.
Print Assumptions C170_create_option_given.

(** The command optimise passes on every option given and switches the export
    of samples and metadata off. *)
Theorem C170_optimise_option_given : forall path given o v,
  NoDup (map fst given) -> In (o, v) given -> In o (map fst optimise_parameters) -> significant v ->
  aget (config_name o) (optimise_settings path given) = Some v /\
  aget "export_samples" (optimise_settings path given) = Some (Leaf (LBool false)) /\
  aget "export_metadata" (optimise_settings path given) = Some (Leaf (LBool false)).
Proof.
  intros path given o v Hnd Hi Hp Hv. rewrite optimise_settings_command.
  split; [|split; [rewrite aget_aset_other by discriminate; apply aget_aset_same|apply aget_aset_same]].
  apply in_map_iff in Hp as ([o' d] & E & Hp). cbn in E. subst o'.
  assert (Hne : config_name o <> "export_metadata" /\ config_name o <> "export_samples").
  { assert (G : forallb (fun p => negb (String.eqb (config_name (fst p)) "export_metadata") && negb (String.eqb (config_name (fst p)) "export_samples")) optimise_parameters = true)
      by (vm_compute; reflexivity).
    rewrite forallb_forall in G. specialize (G _ Hp). cbn [fst] in G. apply andb_true_iff in G as [G1 G2].
    apply negb_true_iff, String.eqb_neq in G1, G2. auto. }
  rewrite !aget_aset_other by tauto.
  rewrite <- (config_name_option optimise_parameters ltac:(vm_compute; reflexivity) o d Hp).
  rewrite (command_value optimise_parameters kept optimise_names) with (d := d); try (vm_compute; reflexivity); auto.
  - rewrite (aget_NoDup _ _ _ _ Hnd Hi). reflexivity.
  - intros v' E. rewrite (aget_NoDup _ _ _ _ Hnd Hi) in E. injection E as <-. apply significant_kept. exact Hv.
Qed.
Print Assumptions C170_optimise_option_given.

(** The sizes given to create: all three or an error; the last value given for a
    dimension counts. *)
Theorem C170_create_dims : forall given,
  (dims_option given = Ok None <-> given = []) /\
  (forall d, dims_option given = Ok (Some d) ->
     (forall k v, aget k d = Some v <-> exists a b, given = a ++ (k, v) :: b /\ ~ In k (map fst b)) /\
     (forall k, k = "origin" \/ k = "destination" \/ k = "time" -> exists v, aget k d = Some v)) /\
  (given <> [] -> (exists k, (k = "origin" \/ k = "destination" \/ k = "time") /\ ~ In k (map fst given)) ->
     dims_option given = Raise EExn).
Proof.
  intros given.
  assert (G : forall (l acc : list (string * nat)) k, aget k (fold_left (fun d kv => aset (fst kv) (snd kv) d) l acc) =
    match aget k (rev l) with Some v => Some v | None => aget k acc end).
  { induction l as [|[k0 v0] l IH]; intros acc k; [reflexivity|].
    cbn [fold_left fst snd rev]. rewrite IH.
    assert (A : forall (a b : list (string * nat)), aget k (a ++ b) = match aget k a with Some v => Some v | None => aget k b end).
    { induction a as [|[k1 v1] a IHa]; intros b; [reflexivity|]. cbn [app aget]. destruct (String.eqb k k1); auto. }
    rewrite A. destruct (aget k (rev l)); [reflexivity|]. cbn [aget]. destruct (String.eqb k k0) eqn:E.
    - apply String.eqb_eq in E as ->. apply aget_aset_same.
    - apply aget_aset_other. apply String.eqb_neq; exact E. }
  assert (R : forall k v, aget k (rev given) = Some v <-> exists a b, given = a ++ (k, v) :: b /\ ~ In k (map fst b)).
  { clear G. intros k v. induction given as [|x given IH] using rev_ind.
    - split; [discriminate|]. intros (a & b & E & _). destruct a; discriminate.
    - rewrite rev_app_distr. cbn [rev app]. destruct x as [k0 v0]. cbn [aget]. destruct (String.eqb k k0) eqn:E.
      + apply String.eqb_eq in E as ->. split.
        * intros H. injection H as ->. exists given, []. auto.
        * intros (a & b & H & Hb). destruct b as [|y b] using rev_ind.
          -- apply app_inj_tail in H as [_ H]. injection H as ->. reflexivity.
          -- clear IHb. rewrite app_comm_cons, app_assoc in H. apply app_inj_tail in H as [_ <-].
             exfalso. apply Hb. rewrite map_app. apply in_or_app; right; cbn; auto.
      + rewrite IH. split.
        * intros (a & b & -> & Hb). exists a, (b ++ [(k0, v0)]). split; [rewrite <- app_assoc; reflexivity|].
          rewrite map_app, in_app_iff. cbn. intros [H|[H|[]]]; [auto|]. subst. rewrite String.eqb_refl in E. discriminate.
        * intros (a & b & H & Hb). destruct b as [|y b] using rev_ind.
          -- apply app_inj_tail in H as [_ H]. injection H as -> _. rewrite String.eqb_refl in E. discriminate.
          -- clear IHb. rewrite app_comm_cons, app_assoc in H. apply app_inj_tail in H as [-> _]. exists a, b. split; [reflexivity|].
             intro Hk. apply Hb. rewrite map_app. apply in_or_app; auto. }
  unfold dims_option. split; [|split].
  - split; [|intros ->; reflexivity]. destruct given; [reflexivity|]. destruct (_ && _ && _); discriminate.
  - intros d H. destruct given as [|x0 g0] eqn:Eg; [discriminate|]. rewrite <- Eg in *. clear Eg.
    destruct (_ && _ && _) eqn:E; [|discriminate]. injection H as <-. split.
    + intros k v. rewrite G. rewrite <- R. destruct (aget k (rev given)); cbn [aget]; reflexivity.
    + apply andb_true_iff in E as [E E3]. apply andb_true_iff in E as [E1 E2]. unfold mem in *.
      intros k [-> | [-> | ->]]; [destruct (aget "origin" _)|destruct (aget "destination" _)|destruct (aget "time" _)]; try discriminate; eauto.
  - intros Hne (k & Hk & Hin). destruct given as [|x0 g0] eqn:Eg; [congruence|]. rewrite <- Eg in *. clear Eg.
    assert (E : aget k (fold_left (fun d kv => aset (fst kv) (snd kv) d) given []) = None).
    { rewrite G. rewrite (proj2 (aget_None _ k (rev given))); [reflexivity|].
      intro H. apply Hin. rewrite map_rev in H. apply in_rev in H. exact H. }
    unfold mem. destruct Hk as [-> | [-> | ->]]; rewrite E; rewrite ?andb_false_r; reflexivity.
Qed.
Print Assumptions C170_create_dims.
Example C170_create_dims_nonvacuous :
  dims_option [("origin", 3); ("time", 1); ("destination", 5); ("origin", 4)] = Ok (Some [("origin", 4); ("time", 1); ("destination", 5)]).
Proof. reflexivity. Qed.

(** * Which experiments are run *)

(** The distinct members of a list in order of first occurrence. *)
Fixpoint firsts (l : list string) : list string :=
  match l with [] => [] | x :: r => x :: filter (fun y => negb (String.eqb y x)) (firsts r) end.

Lemma memb_spec : forall x l, memb x l = true <-> In x l.
Proof.
  intros x l. unfold memb. rewrite existsb_exists. split.
  - intros (y & Hy & E). apply String.eqb_eq in E as ->. exact Hy.
  - intros H. exists x. split; [exact H|apply String.eqb_refl].
Qed.
Lemma firsts_In : forall l x, In x (firsts l) <-> In x l.
Proof.
  induction l as [|y l IH]; intros x; [reflexivity|]. cbn [firsts In]. rewrite filter_In, IH.
  destruct (String.eqb_spec x y) as [->|N]; cbn [negb]; intuition congruence.
Qed.
Lemma firsts_distinct : forall l, NoDup l -> firsts l = l.
Proof.
  induction l as [|x l IH]; intros H; [reflexivity|]. inversion H as [|? ? Hni Hnd]; subst. cbn [firsts]. rewrite IH by auto.
  f_equal. clear - Hni. induction l as [|y l IH]; [reflexivity|]. cbn [filter]. cbn [In] in Hni.
  destruct (String.eqb_spec y x) as [->|N]; [tauto|]. cbn [negb]. rewrite IH; auto.
Qed.
Lemma filter_filter : forall A (f g : A -> bool) l, filter f (filter g l) = filter (fun x => f x && g x) l.
Proof.
  intros A f g; induction l as [|x l IH]; [reflexivity|]. cbn [filter]. destruct (g x) eqn:E; cbn [filter].
  - rewrite andb_true_r, IH. reflexivity.
  - rewrite andb_false_r. exact IH.
Qed.

Lemma nth_error_upd_other : forall A (f : A -> A) i j l, i <> j -> nth_error (upd_nth i f l) j = nth_error l j.
Proof.
  intros A f i j l; revert i j; induction l as [|x l IH]; intros [|i] [|j] H; cbn; auto; try congruence.
Qed.

Section HandlerProofs.
  Context {config entry object : Type}.
  Variable type_of : entry -> option string.
  Variable validate : @job config entry -> res (@job config entry).
  Variable class_exists : string -> bool.
  Variable sweeping : @job config entry -> bool.
  Variable make_sweep : @job config entry -> res (object * entry).
  Variable make_single : string -> @job config entry -> res (object * entry).
  Variable run : object -> res unit.

  Let handler := handler type_of validate class_exists sweeping make_sweep make_single.
  Let setup := setup validate class_exists sweeping make_sweep make_single.
  Let instantiate := instantiate class_exists sweeping make_sweep make_single.
  Let exec := exec type_of validate class_exists sweeping make_sweep make_single run.
  Let run_all := run_all run.

  (** Specification.  The types in the order of the file, the last entry of a
      type, and how an experiment is obtained from an entry: from the
      configuration of the file with that entry alone, through validation, as a
      sweep exactly when the validated configuration asks for one. *)
  Definition types (es : list entry) : list string :=
    flat_map (fun e => match type_of e with Some t => [t] | None => [] end) es.
  Definition all_typed (es : list entry) : Prop := forall e, In e es -> exists t, type_of e = Some t.
  Definition last_of (t : string) (es : list entry) (e : entry) : Prop :=
    exists a b, es = a ++ e :: b /\ type_of e = Some t /\ forall e', In e' b -> type_of e' <> Some t.
  Definition obtained (c : config) (t : string) (e : entry) (o : object) : Prop :=
    exists j e', validate (mkjob c e t) = Ok j /\ class_exists t = true /\
      (if sweeping j then make_sweep j = Ok (o, e') else make_single t j = Ok (o, e')).

  Lemma keep_asked_ok : forall asked es kept, keep_asked type_of asked es = Ok kept ->
    all_typed es /\ kept = filter (fun e => match type_of e with Some t => memb t asked | None => false end) es.
  Proof.
    intros asked es; induction es as [|e es IH]; intros k H; cbn [keep_asked] in H.
    - injection H as <-. split; [intros e []|reflexivity].
    - apply rbind_Ok_inv in H as (r' & H1 & H2). destruct (IH _ H1) as [Ht ->].
      destruct (type_of e) as [t|] eqn:E; [|discriminate]. injection H2 as <-. split.
      + intros e' [<-|H]; eauto.
      + cbn [filter]. rewrite E. reflexivity.
  Qed.
  Lemma keep_asked_total : forall asked es, all_typed es -> exists kept, keep_asked type_of asked es = Ok kept.
  Proof.
    intros asked es; induction es as [|e es IH]; intros H; [eexists; reflexivity|].
    destruct IH as (k & Ek); [intros e' He; apply H; cbn; auto|]. destruct (H e (or_introl eq_refl)) as (t & Et).
    cbn [keep_asked]. rewrite Ek. cbn [rbind]. rewrite Et. eexists; reflexivity.
  Qed.

  Lemma types_filter : forall asked es,
    types (filter (fun e => match type_of e with Some t => memb t asked | None => false end) es) =
    filter (fun t => memb t asked) (types es).
  Proof.
    intros asked es; induction es as [|e es IH]; [reflexivity|]. cbn [types flat_map filter]. unfold types in *.
    destruct (type_of e) as [t|] eqn:E.
    - cbn [app filter]. destruct (memb t asked); [|exact IH]. cbn [flat_map]. rewrite E. cbn [app]. rewrite IH. reflexivity.
    - exact IH.
  Qed.

  Lemma index_keys : forall es i acc,
    map fst (index_types type_of i es acc) =
    map fst acc ++ filter (fun t => negb (memb t (map fst acc))) (firsts (types es)).
  Proof.
    induction es as [|e es IH]; intros i acc; cbn [index_types types flat_map].
    - cbn. rewrite app_nil_r. reflexivity.
    - rewrite IH. fold (types es). destruct (type_of e) as [t|]; [|reflexivity]. cbn [app firsts filter].
      destruct (memb t (map fst acc)) eqn:M; cbn [negb].
      + rewrite InputsProps.aset_keys by (apply memb_spec; exact M). f_equal.
        rewrite filter_filter. apply filter_ext. intros a.
        destruct (String.eqb_spec a t) as [->|N]; [rewrite M; reflexivity|]. cbn [negb]. rewrite andb_true_r. reflexivity.
      + rewrite aset_new by (intro H; apply memb_spec in H; congruence). rewrite map_app. cbn [map fst].
        rewrite <- app_assoc. cbn [app]. f_equal. f_equal. rewrite filter_filter. apply filter_ext. intros a.
        unfold memb. rewrite existsb_app. cbn [existsb]. rewrite orb_false_r, negb_orb. reflexivity.
  Qed.

  (** The index stored for a type is the one of its last entry. *)
  Lemma index_last : forall es i acc t k, aget t (index_types type_of i es acc) = Some k ->
    (aget t acc = Some k /\ (forall e, In e es -> type_of e <> Some t)) \/
    (exists a e b, es = a ++ e :: b /\ k = i + List.length a /\ type_of e = Some t /\ forall e', In e' b -> type_of e' <> Some t).
  Proof.
    induction es as [|e es IH]; intros i acc t k H; cbn [index_types] in H.
    - left. split; [exact H|intros e []].
    - apply IH in H. destruct H as [[H Hn]|(a & e1 & b & -> & -> & Ht & Hb)].
      + destruct (type_of e) as [t'|] eqn:E.
        * destruct (String.eqb_spec t t') as [->|N].
          -- rewrite aget_aset_same in H. injection H as <-. right. exists [], e, es. cbn. repeat split; auto.
          -- rewrite aget_aset_other in H by exact N. left. split; [exact H|]. intros e' [<-|He]; [congruence|auto].
        * left. split; [exact H|]. intros e' [<-|He]; [congruence|auto].
      + right. exists (e :: a), e1, b. cbn [app List.length]. repeat split; auto. lia.
  Qed.
  Lemma index_bounds : forall es i acc, (forall t k, In (t, k) acc -> k < i) -> NoDup (map fst acc) -> NoDup (map snd acc) ->
    NoDup (map fst (index_types type_of i es acc)) /\ NoDup (map snd (index_types type_of i es acc)).
  Proof.
    induction es as [|e es IH]; intros i acc Hlt Hf Hs; cbn [index_types]; [auto|].
    destruct (type_of e) as [t|]; [|apply IH; auto; intros t k H; specialize (Hlt t k H); lia].
    assert (G : forall acc : list (string * nat), (forall t k, In (t, k) acc -> k < i) -> NoDup (map snd acc) ->
       (forall t' k, In (t', k) (aset t i acc) -> k < S i) /\ NoDup (map snd (aset t i acc)) /\
       (forall k, In k (map snd (aset t i acc)) -> k = i \/ In k (map snd acc))).
    { clear. induction acc as [|[t1 k1] acc IH]; intros Hlt Hs.
      - cbn [aset]. split; [|split].
        + intros t' k [E|[]]. injection E as _ <-. lia.
        + cbn. constructor; [tauto|constructor].
        + cbn. intuition.
      - cbn [map snd] in Hs. inversion Hs as [|? ? Hni Hnd]; subst.
        destruct IH as (A & B & C); [intros t' k H; apply (Hlt t' k); cbn; auto|auto|].
        cbn [aset]. destruct (String.eqb t t1).
        + split; [|split].
          * intros t' k [E|H]; [injection E as _ <-; lia|]. specialize (Hlt t' k (or_intror H)). lia.
          * cbn [map snd]. constructor; [|auto]. intro H. apply in_map_iff in H as ([t' k] & E & H). cbn in E. subst k.
            specialize (Hlt t' i (or_intror H)). lia.
          * cbn [map snd In]. intuition.
        + split; [|split].
          * intros t' k [E|H]; [injection E as _ <-; specialize (Hlt t1 k1 (or_introl eq_refl)); lia|eauto].
          * cbn [map snd]. constructor; [|auto]. intro H. apply C in H as [->|H]; [|auto].
            specialize (Hlt t1 i (or_introl eq_refl)). lia.
          * cbn [map snd In]. intros k [->|H]; [auto|]. apply C in H. intuition. }
    destruct (G acc Hlt Hs) as (A & B & _). apply IH; auto. apply aset_NoDup; exact Hf.
  Qed.

  (** Setting up: one experiment per type, from the entry as it is in the file. *)
  Lemma setup_ok : forall types0 c es l, NoDup (map snd types0) -> setup c es types0 = Ok l ->
    Forall2 (fun ti to => fst ti = fst to /\ exists e, nth_error es (snd ti) = Some e /\ obtained c (fst ti) e (snd to)) types0 l.
  Proof.
    induction types0 as [|[t i] ts IH]; intros c es l Hnd H.
    - cbn in H. injection H as <-. constructor.
    - cbn [map snd] in Hnd. inversion Hnd as [|? ? Hni Hnd']; subst.
      unfold setup in H. cbn [Handler.setup] in H. destruct (nth_error es i) as [e|] eqn:E; [|discriminate].
      apply rbind_Ok_inv in H as (j & Hj & H). apply rbind_Ok_inv in H as ([o e'] & Ho & H).
      apply rbind_Ok_inv in H as (rest & Hr & H). injection H as <-. cbn [fst snd] in *.
      constructor.
      + cbn [fst snd]. split; [reflexivity|]. exists e. split; [exact E|]. exists j, e'. split; [exact Hj|].
        unfold Handler.instantiate in Ho. destruct (class_exists t); [|discriminate]. split; [reflexivity|].
        destruct (sweeping j); exact Ho.
      + apply IH in Hr; auto.
        assert (W : forall (ts : list (string * nat)) rest, ~ In i (map snd ts) ->
          Forall2 (fun ti to => fst ti = fst to /\ exists e0, nth_error (upd_nth i (fun _ => e') es) (snd ti) = Some e0 /\ obtained c (fst ti) e0 (snd to)) ts rest ->
          Forall2 (fun ti to => fst ti = fst to /\ exists e0, nth_error es (snd ti) = Some e0 /\ obtained c (fst ti) e0 (snd to)) ts rest).
        { clear. intros ts rest Hni H. induction H as [|[t1 k1] [t2 o2] ts rest H HF IH]; [constructor|].
          cbn [map snd In] in Hni. constructor; [|apply IH; tauto].
          destruct H as (E & e0 & E0 & Ob). split; [exact E|]. exists e0. split; [|exact Ob].
          rewrite nth_error_upd_other in E0; auto. }
        apply W; auto.
  Qed.
  Lemma Forall2_fst : forall (R : string * nat -> string * object -> Prop) a b,
    (forall x y, R x y -> fst x = fst y) -> Forall2 R a b -> map fst a = map fst b.
  Proof. intros R a b HR H. induction H as [|x y a b Hxy H IH]; [reflexivity|]. cbn [map]. rewrite (HR _ _ Hxy), IH. reflexivity. Qed.
  Lemma Forall2_In_r : forall (R : string * nat -> string * object -> Prop) a b y, Forall2 R a b -> In y b -> exists x, In x a /\ R x y.
  Proof.
    intros R a b y H; induction H as [|x y' a b Hxy H IH]; intros Hy; [destruct Hy|].
    destruct Hy as [->|Hy]; [exists x; cbn; auto|]. destruct (IH Hy) as (x' & Hx & HR). exists x'; cbn; auto.
  Qed.

  Lemma last_of_filter : forall asked es t e, In t asked ->
    last_of t (filter (fun e => match type_of e with Some t => memb t asked | None => false end) es) e -> last_of t es e.
  Proof.
    intros asked es t e Ht; induction es as [|e1 es IH]; intros (a & b & E & Et & Hb).
    - destruct a; discriminate.
    - cbn [filter] in E. destruct (match type_of e1 with Some t0 => memb t0 asked | None => false end) eqn:F.
      + destruct a as [|a1 a].
        * injection E as -> E. exists [], es. split; [reflexivity|split; [exact Et|]].
          intros e' He' Et'. apply (Hb e'); [|exact Et']. rewrite <- E. apply filter_In. split; [exact He'|].
          rewrite Et'. apply memb_spec; exact Ht.
        * injection E as -> E. destruct IH as (a' & b' & -> & H2 & H3); [exists a, b; auto|].
          exists (a1 :: a'), b'. repeat split; auto.
      + destruct IH as (a' & b' & -> & H2 & H3); [exists a, b; auto|]. exists (e1 :: a'), b'. repeat split; auto.
  Qed.

  (** ** C171 *)

  (** One experiment per type that is both asked for and in the file, in the
      order of first occurrence; each made from the last entry of its type and
      from the configuration as it is in the file, whatever the others did. *)
  Theorem C171_selected_partial : forall c es asked l, handler c es asked = Ok l ->
    map fst l = firsts (filter (fun t => memb t asked) (types es)) /\
    forall t o, In (t, o) l -> In t asked /\ exists e, last_of t es e /\ obtained c t e o.
  Proof.
    intros c es asked l H. unfold handler, Handler.handler in H. apply rbind_Ok_inv in H as (k & Hk & H).
    apply keep_asked_ok in Hk as [Hty ->]. set (k := filter _ es) in *.
    destruct (index_bounds k 0 [] ltac:(intros ? ? []) ltac:(constructor) ltac:(constructor)) as [N1 N2].
    pose proof (setup_ok _ _ _ _ N2 H) as HF.
    assert (EK : map fst (index_types type_of 0 k []) = firsts (filter (fun t => memb t asked) (types es))).
    { rewrite index_keys. cbn [map app]. rewrite <- types_filter. fold k. clear.
      induction (firsts (types k)) as [|x r IH]; [reflexivity|]. cbn [filter]. cbn. f_equal. exact IH. }
    split.
    - rewrite <- EK. symmetry. eapply Forall2_fst; [|exact HF]. intros x y [E _]. exact E.
    - intros t o Hi. destruct (Forall2_In_r _ _ _ _ HF Hi) as ([t' i] & Hti & E & e & En & Ob). cbn [fst snd] in *. subst t'.
      assert (Ha : In t asked).
      { apply (in_map fst) in Hti. cbn [fst] in Hti. rewrite EK, firsts_In, filter_In in Hti. apply memb_spec, Hti. }
      split; [exact Ha|]. exists e. split; [|exact Ob]. apply (last_of_filter asked); [exact Ha|]. fold k.
      pose proof (index_last k 0 [] t i (aget_NoDup _ _ _ _ N1 Hti)) as [[E _]|(a & e1 & b & Ek & -> & Et & Hb)]; [discriminate|].
      rewrite Ek in En. cbn in En. rewrite nth_error_app2 in En by lia. rewrite Nat.sub_diag in En. injection En as <-.
      exists a, b. auto.
  Qed.

  (** When no type occurs twice in the file: every entry of a type asked for, in
      the order of the file. *)
  Theorem C171_distinct_types_partial : forall c es asked l, NoDup (types es) -> handler c es asked = Ok l ->
    map fst l = filter (fun t => memb t asked) (types es) /\
    forall e t, In e es -> type_of e = Some t -> In t asked -> exists o, In (t, o) l /\ obtained c t e o.
  Proof.
    intros c es asked l Hnd H. destruct (C171_selected_partial c es asked l H) as [E1 E2].
    rewrite firsts_distinct in E1 by (apply NoDup_filter; exact Hnd). split; [exact E1|].
    intros e t He Ht Ha.
    assert (Hi : In t (map fst l)).
    { rewrite E1, filter_In. split; [|apply memb_spec; exact Ha]. unfold types. apply in_flat_map. exists e. rewrite Ht. cbn; auto. }
    apply in_map_iff in Hi as ([t' o] & Et & Hi). cbn in Et. subst t'. exists o. split; [exact Hi|].
    destruct (E2 t o Hi) as [_ (e' & (a & b & Ee & Et' & Hb) & Ob)].
    assert (e = e') as ->; [|exact Ob].
    subst es. unfold types in Hnd. rewrite flat_map_app in Hnd. cbn [flat_map] in Hnd. rewrite Et' in Hnd. cbn [app] in Hnd.
    apply NoDup_remove_2 in Hnd. apply in_app_or in He as [He|[->|He]]; [|reflexivity|exfalso; exact (Hb e He Ht)].
    exfalso. apply Hnd. apply in_or_app; left. apply in_flat_map. exists e. rewrite Ht. cbn; auto.
  Qed.

  (** ** C172 *)

  (** Types asked for that the file does not contain change nothing. *)
  Theorem C172_unknown_type_ignored_refuted : forall c es asked extra,
    (forall t, In t extra -> ~ In t (types es)) -> exec c es (asked ++ extra) = exec c es asked.
  Proof.
    intros c es asked extra Hx. unfold exec, Handler.exec, Handler.handler.
    assert (E : keep_asked type_of (asked ++ extra) es = keep_asked type_of asked es).
    { induction es as [|e es IH]; [reflexivity|]. cbn [keep_asked]. rewrite IH.
      - destruct (keep_asked type_of asked es); [|reflexivity]. cbn [rbind]. destruct (type_of e) as [t|] eqn:Et; [|reflexivity].
        assert (M : memb t (asked ++ extra) = memb t asked).
        { unfold memb. rewrite existsb_app. destruct (existsb (String.eqb t) extra) eqn:X; [|apply orb_false_r].
          exfalso. apply (Hx t); [apply memb_spec; exact X|]. unfold types. cbn [flat_map]. rewrite Et. cbn; auto. }
        rewrite M. reflexivity.
      - intros t Ht Hin. apply (Hx t Ht). unfold types. cbn [flat_map]. apply in_or_app; right; exact Hin. }
    rewrite E. reflexivity.
  Qed.
  (** Asking for nothing runs nothing, and succeeds. *)
  Theorem C172_nothing_asked : forall c es, all_typed es -> exec c es [] = ([], Ok tt).
  Proof.
    intros c es H. unfold exec, Handler.exec, Handler.handler. destruct (keep_asked_total [] es H) as (k & E).
    rewrite E. apply keep_asked_ok in E as [_ ->].
    assert (F : filter (fun e => match type_of e with Some t => memb t [] | None => false end) es = []).
    { clear. induction es as [|e es IH]; [reflexivity|]. cbn [filter]. destruct (type_of e); exact IH. }
    rewrite F. reflexivity.
  Qed.

  (** ** C173 *)

  (** Nothing is run unless every selected experiment could be set up. *)
  Theorem C173_all_set_up_first : forall c es asked t e,
    In t asked -> last_of t es e -> (forall o, ~ obtained c t e o) ->
    exists x, exec c es asked = ([], Raise x).
  Proof.
    intros c es asked t e Ha Hl Hn. unfold exec, Handler.exec.
    destruct (Handler.handler type_of validate class_exists sweeping make_sweep make_single c es asked) as [l|x] eqn:E; [|eauto].
    exfalso. destruct (C171_selected_partial c es asked l E) as [E1 E2].
    destruct Hl as (a & b & Ees & Et & Hb).
    assert (Hi : In t (map fst l)).
    { rewrite E1, firsts_In, filter_In. split; [|apply memb_spec; exact Ha]. unfold types. apply in_flat_map. exists e.
      split; [rewrite Ees; apply in_or_app; right; cbn; auto|rewrite Et; cbn; auto]. }
    apply in_map_iff in Hi as ([t' o] & Et' & Hi). cbn in Et'. subst t'.
    destruct (E2 t o Hi) as [_ (e' & (a' & b' & Ees' & Et' & Hb') & Ob)].
    assert (e' = e) as ->; [|exact (Hn o Ob)].
    rewrite Ees in Ees'. clear - Ees' Et Et' Hb Hb'. revert a' Ees'.
    induction a as [|x a IH]; intros [|x' a'] H; cbn [app] in H; injection H as H1 H2.
    - congruence.
    - subst. exfalso. apply (Hb e'); [apply in_or_app; right; cbn; auto|exact Et'].
    - subst. exfalso. apply (Hb' e); [apply in_or_app; right; cbn; auto|exact Et].
    - exact (IH a' H2).
  Qed.

  (** The experiments are run one after the other; one that fails is the last
      one started, and its error is the result. *)
  Theorem C173_run_in_turn : forall c es asked l, handler c es asked = Ok l ->
    (exec c es asked = (map fst l, Ok tt) /\ forall t o, In (t, o) l -> run o = Ok tt) \/
    (exists l1 t o l2 x, l = l1 ++ (t, o) :: l2 /\ (forall t' o', In (t', o') l1 -> run o' = Ok tt) /\
       run o = Raise x /\ exec c es asked = (map fst l1 ++ [t], Raise x)).
  Proof.
    intros c es asked l H. unfold exec, Handler.exec. unfold handler in H. rewrite H. clear H.
    induction l as [|[t o] l IH]; [left; split; [reflexivity|intros t o []]|].
    cbn [Handler.run_all]. destruct (run o) as [u|x] eqn:E.
    - destruct u. destruct IH as [[IH1 IH2]|(l1 & t1 & o1 & l2 & x & -> & A & B & C)].
      + left. rewrite IH1. split; [reflexivity|]. intros t' o' [X|X]; [injection X as <- <-; exact E|eauto].
      + right. exists ((t, o) :: l1), t1, o1, l2, x. rewrite C. split; [reflexivity|split; [|split; [exact B|reflexivity]]].
        intros t' o' [X|X]; [injection X as <- <-; exact E|eauto].
    - right. exists [], t, o, l, x. split; [reflexivity|split; [intros ? ? []|split; [exact E|reflexivity]]].
  Qed.

  (** A failed set-up or a failed run is never reported as success. *)
  Theorem C173_success : forall c es asked started, exec c es asked = (started, Ok tt) ->
    exists l, handler c es asked = Ok l /\ started = map fst l /\ forall t o, In (t, o) l -> run o = Ok tt.
  Proof.
    intros c es asked started H. destruct (handler c es asked) as [l|x] eqn:E.
    - destruct (C173_run_in_turn c es asked l E) as [[A B]|(l1 & t & o & l2 & x & -> & A & B & C)].
      + rewrite A in H. injection H as <-. eauto.
      + rewrite C in H. discriminate.
    - unfold exec, Handler.exec in H. unfold handler in E. rewrite E in H. discriminate.
  Qed.
End HandlerProofs.
Print Assumptions C171_selected_partial.
Print Assumptions C171_distinct_types_partial.
Print Assumptions C172_unknown_type_ignored_refuted.
Print Assumptions C172_nothing_asked.
Print Assumptions C173_all_set_up_first.
Print Assumptions C173_run_in_turn.
Print Assumptions C173_success.

(** A file with three experiments, two of them of the same type: an entry is its
    type and a number; an experiment is its type, its number and whether it is a
    sweep.  Validation rejects the number 9; the run of number 7 fails. *)
Definition demo_type (e : string * nat) : option string := Some (fst e).
Definition demo_validate (j : @job unit (string * nat)) : res (@job unit (string * nat)) :=
  if snd (job_entry j) =? 9 then Raise EValue else Ok j.
Definition demo_run (o : string * nat) : res unit := if snd o =? 7 then Raise EExn else Ok tt.
Definition demo_handler := handler demo_type demo_validate (fun _ => true) (fun _ => false)
  (fun j => Ok (job_entry j, job_entry j)) (fun _ j => Ok (job_entry j, job_entry j)) tt.
Definition demo_exec := exec demo_type demo_validate (fun _ => true) (fun _ => false)
  (fun j => Ok (job_entry j, job_entry j)) (fun _ j => Ok (job_entry j, job_entry j)) demo_run tt.

(** "Every experiment of the file whose type is asked for is run" is false: of two
    entries of one type the first is dropped without a message. *)
Theorem C171_repeated_type_refuted :
  demo_handler [("SIM_NN", 1); ("SIM_MCMC", 2); ("SIM_NN", 3)] ["SIM_NN"; "SIM_MCMC"]
    = Ok [("SIM_NN", ("SIM_NN", 3)); ("SIM_MCMC", ("SIM_MCMC", 2))].
Proof. reflexivity. Qed.
Print Assumptions C171_repeated_type_refuted.

Example C171_nonvacuous :
  NoDup (types demo_type [("SIM_NN", 1); ("Table_MCMC", 5); ("SIM_MCMC", 2)]) /\
  demo_handler [("SIM_NN", 1); ("Table_MCMC", 5); ("SIM_MCMC", 2)] ["SIM_MCMC"; "SIM_NN"]
    = Ok [("SIM_NN", ("SIM_NN", 1)); ("SIM_MCMC", ("SIM_MCMC", 2))].
Proof. split; [repeat constructor; cbn; intuition discriminate|reflexivity]. Qed.
Example C172_nonvacuous :
  demo_exec [("SIM_NN", 1)] ["SIM_MCMC"] = ([], Ok tt).
Proof. reflexivity. Qed.
Example C173_nonvacuous :
  demo_exec [("SIM_NN", 1); ("SIM_MCMC", 9)] ["SIM_MCMC"; "SIM_NN"] = ([], Raise EValue) /\
  demo_exec [("SIM_NN", 1); ("SIM_MCMC", 7); ("Table_MCMC", 2)] ["SIM_MCMC"; "SIM_NN"; "Table_MCMC"] = (["SIM_NN"; "SIM_MCMC"], Raise EExn).
Proof. split; reflexivity. Qed.
