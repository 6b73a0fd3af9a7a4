(** The forward pass of the neural network (learning_models/
    HarrisWilsonModel_NeuralNet.py 146-300) over the reals, and what it can
    predict. *)
From Coq Require Import List ZArith Reals Lra Lia Bool Arith String.
From Verif Require Import Base PyMonad RealBase Learning.
Import ListNotations.
Local Open Scope R_scope.

(** One layer: nn.Linear(in, out, bias = ...), lines 213-232, with its weights and
    the bias left out when the setting is None. *)
Record linear := mkLin { l_in : nat; l_out : nat; l_w : nat -> nat -> R; l_b : option (nat -> R) }.

(** nn.Linear applied to one sample: x W^T + b; a sample of another width raises
    (torch's RuntimeError). *)
Definition apply_linear (l : linear) (x : list R) : res (list R) :=
  if Nat.eqb (List.length x) (l_in l) then
    Ok (map (fun o => rsum (l_in l) (fun i => l_w l o i * nth i x 0)
                      + match l_b l with Some b => b o | None => 0 end) (seq 0 (l_out l)))
  else Raise EExn.

(** The activations offered to the hyperparameter search (line 280) and the
    default one (global_variables.py 737-766): torch.abs, nn.ReLU, nn.Tanh,
    nn.Hardsigmoid (0 below -3, 1 above 3, x/6 + 1/2 between).  The other names of
    that table are not modelled. *)
Definition hardsigmoid (x : R) : R := Rmin 1 (Rmax 0 (x / 6 + 1 / 2)).
Definition act_fun (name : string) : R -> R :=
  if String.eqb name "abs" then Rabs
  else if String.eqb name "relu" then Rmax 0
  else if String.eqb name "tanh" then tanh
  else if String.eqb name "hardsigmoid" then hardsigmoid
  else fun x => x.

(** The names with the function each calls; None for "linear"
    (global_variables.py 738, 745, 749, 753, 763). *)
Definition known_acts : list (string * option string) :=
  [("abs", Some "abs"); ("hardsigmoid", Some "hardsigmoid"); ("linear", None);
   ("relu", Some "relu"); ("tanh", Some "tanh")]%string.

(** forward, lines 290-300: layer i then activation i, None leaving the layer's
    output as it is; a layer without an entry in the list raises IndexError. *)
Fixpoint forward (ls : list linear) (acts : list (option string)) (x : list R) : res (list R) :=
  match ls with
  | [] => Ok x
  | l :: ls' =>
      match acts with
      | [] => Raise EIndex
      | a :: acts' =>
          do y <- apply_linear l x ;
          forward ls' acts' (match a with Some f => map (act_fun f) y | None => y end)
      end
  end.

(** The layers line 213-232 builds from an architecture, whatever their weights. *)
Definition built (arch : list nat) (ls : list linear) : Prop :=
  map l_in ls = removelast arch /\ map l_out ls = tl arch.

(** ** Facts *)

Lemma apply_linear_ok : forall l x, List.length x = l_in l ->
  exists y, apply_linear l x = Ok y /\ List.length y = l_out l.
Proof.
  intros l x H. unfold apply_linear. rewrite H, Nat.eqb_refl. eexists. split; [reflexivity|].
  now rewrite map_length, seq_length.
Qed.

(** The last activation applied. *)
Lemma forward_last : forall ls acts x a0 d, ls <> [] ->
  List.length acts = List.length ls ->
  match ls with l :: _ => List.length x = l_in l | [] => True end ->
  map l_in (tl ls) = removelast (map l_out ls) ->
  exists y z, forward ls acts x = Ok y /\
    List.length y = last (map l_out ls) d /\
    y = match last acts a0 with Some f => map (act_fun f) z | None => z end.
Proof.
  induction ls as [|l ls IH]; intros acts x a0 d Hne HL Hx HC; [congruence|].
  destruct acts as [|a acts]; [discriminate|]. cbn [List.length] in HL. injection HL as HL.
  destruct (apply_linear_ok l x Hx) as [y [Hy Ly]]. cbn [forward]. rewrite Hy. cbn [rbind].
  destruct ls as [|l2 ls].
  - destruct acts; [|discriminate]. cbn [forward map last]. eexists. exists y. split; [reflexivity|].
    split; [|reflexivity]. destruct a; [now rewrite map_length|exact Ly].
  - cbn [tl] in HC. cbn [map] in HC.
    assert (HC2 : l_in l2 = l_out l /\ map l_in ls = removelast (map l_out (l2 :: ls))).
    { cbn [removelast] in HC. destruct (map l_out ls) eqn:E; cbn [removelast] in HC; injection HC as H1 H2; split; auto; cbn [map]; rewrite E; exact H2. }
    destruct HC2 as [HC1 HC2].
    edestruct (IH acts (match a with Some f => map (act_fun f) y | None => y end) a0 d) as (y' & z & H1 & H2 & H3).
    + discriminate.
    + exact HL.
    + rewrite HC1, <- Ly. destruct a; [now rewrite map_length|reflexivity].
    + exact HC2.
    + exists y', z. split; [exact H1|]. split.
      * rewrite H2. reflexivity.
      * destruct acts; [discriminate|]. exact H3.
Qed.

Lemma set_layers_length : forall A conv sp (l l' : list A), set_layers conv sp l = Ok l' -> List.length l' = List.length l.
Proof.
  intros A conv sp. induction sp as [|[k v] sp IH]; intros l l' H; cbn [set_layers] in H; [now injection H as <-|].
  destruct (rbind_Ok_inv _ _ _ _ _ H) as [z [_ H2]]. destruct (rbind_Ok_inv _ _ _ _ _ H2) as [l2 [Hl H3]].
  apply IH in H3. rewrite H3. unfold list_set in Hl. destruct (rbind_Ok_inv _ _ _ _ _ Hl) as [n [_ E]]. injection E as <-.
  clear. revert n. induction l as [|x l IH]; intros [|n]; cbn; auto.
Qed.
Lemma act_funcs_length : forall known sp l l', act_funcs known sp l = Ok l' -> List.length l' = List.length l.
Proof.
  intros known sp. induction sp as [|[k v] sp IH]; intros l l' H; cbn [act_funcs] in H; [now injection H as <-|].
  destruct (rbind_Ok_inv _ _ _ _ _ H) as [f [_ H1]]. destruct (rbind_Ok_inv _ _ _ _ _ H1) as [z [_ H2]].
  destruct (rbind_Ok_inv _ _ _ _ _ H2) as [l2 [Hl H3]].
  apply IH in H3. rewrite H3. unfold list_set in Hl. destruct (rbind_Ok_inv _ _ _ _ _ Hl) as [n [_ E]]. injection E as <-.
  clear. revert n. induction l as [|x l IH]; intros [|n]; cbn; auto.
Qed.

Lemma removelast_app_one : forall A (l : list A) x, removelast (l ++ [x]) = l.
Proof. intros. rewrite removelast_app by discriminate. cbn. apply app_nil_r. Qed.

Lemma built_forward : forall inp out n dn sn da sa arch acts ls x a0,
  get_architecture inp out n dn sn = Ok arch ->
  get_activation_funcs known_acts n da sa = Ok acts ->
  built arch ls -> List.length x = inp ->
  exists y z, forward ls acts x = Ok y /\ List.length y = out /\
    y = match last acts a0 with Some f => map (act_fun f) z | None => z end.
Proof.
  intros inp out n dn sn da sa arch acts ls x a0 HA HF [Hi Ho] Hx.
  unfold get_architecture in HA. destruct (rbind_Ok_inv _ _ _ _ _ HA) as [hid [Hh E]]. injection E as <-.
  apply set_layers_length in Hh. rewrite repeat_length in Hh.
  unfold get_activation_funcs in HF. destruct (rbind_Ok_inv _ _ _ _ _ HF) as [d [_ HF2]].
  apply act_funcs_length in HF2. rewrite repeat_length in HF2.
  assert (Hlen : List.length ls = S n).
  { rewrite <- (map_length l_out), Ho. cbn. rewrite app_length. cbn. lia. }
  cbn [tl] in Ho. change (inp :: hid ++ [out]) with ((inp :: hid) ++ [out]) in Hi. rewrite removelast_app_one in Hi.
  destruct ls as [|l ls]; [discriminate|].
  edestruct (forward_last (l :: ls) acts x a0 0%nat) as (y & z & H1 & H2 & H3).
  - discriminate.
  - congruence.
  - cbn in Hi. injection Hi as H _. congruence.
  - rewrite Ho, removelast_app_one. cbn [tl map] in *. now injection Hi.
  - exists y, z. split; [exact H1|]. split; [|exact H3]. rewrite H2, Ho. apply last_last.
Qed.

(** ** C203: what a network predicts *)

(** Whatever the configured layers, weights and sample, the network predicts
    exactly one value per parameter. *)
Theorem C203_one_value_per_parameter : forall inp out n dn sn da sa arch acts ls x,
  get_architecture inp out n dn sn = Ok arch ->
  get_activation_funcs known_acts n da sa = Ok acts ->
  built arch ls -> List.length x = inp ->
  exists y, forward ls acts x = Ok y /\ List.length y = out.
Proof.
  intros inp out n dn sn da sa arch acts ls x HA HF HB Hx.
  destruct (built_forward _ _ _ _ _ _ _ _ _ _ _ None HA HF HB Hx) as (y & z & H1 & H2 & _). eauto.
Qed.
Print Assumptions C203_one_value_per_parameter.

Lemma tanh_bounds : forall x, -1 < tanh x < 1.
Proof.
  intros x. unfold tanh, sinh, cosh.
  pose proof (exp_pos x) as H1. pose proof (exp_pos (- x)) as H2.
  assert (E : (exp x - exp (- x)) / 2 / ((exp x + exp (- x)) / 2) = (exp x - exp (- x)) / (exp x + exp (- x))) by (field; lra).
  rewrite E. split.
  - apply Rmult_lt_reg_r with (exp x + exp (- x)); [lra|]. unfold Rdiv. rewrite Rmult_assoc, Rinv_l by lra. lra.
  - apply Rmult_lt_reg_r with (exp x + exp (- x)); [lra|]. unfold Rdiv. rewrite Rmult_assoc, Rinv_l by lra. lra.
Qed.

(** The range of every predicted value is that of the last layer's activation. *)
Theorem C203_ranges : forall inp out n dn sn da sa arch acts ls x y f,
  get_architecture inp out n dn sn = Ok arch ->
  get_activation_funcs known_acts n da sa = Ok acts ->
  built arch ls -> List.length x = inp ->
  forward ls acts x = Ok y ->
  last acts None = Some f ->
  Forall (fun v => (f = "abs"%string \/ f = "relu"%string -> 0 <= v) /\
                   (f = "hardsigmoid"%string -> 0 <= v <= 1) /\
                   (f = "tanh"%string -> -1 < v < 1)) y.
Proof.
  intros inp out n dn sn da sa arch acts ls x y f HA HF HB Hx Hy Hl.
  destruct (built_forward _ _ _ _ _ _ _ _ _ _ _ None HA HF HB Hx) as (y' & z & H1 & _ & H3).
  rewrite Hy in H1. injection H1 as <-. rewrite Hl in H3. subst y.
  apply Forall_forall. intros v Hv. apply in_map_iff in Hv. destruct Hv as [u [<- _]].
  split; [|split].
  - intros [-> | ->]; cbn [act_fun String.eqb Ascii.eqb Bool.eqb]; [apply Rabs_pos|apply Rmax_l].
  - intros ->. cbn [act_fun String.eqb Ascii.eqb Bool.eqb]. unfold hardsigmoid. split.
    + apply Rmin_glb; [lra|apply Rmax_l].
    + apply Rmin_l.
  - intros ->. cbn [act_fun String.eqb Ascii.eqb Bool.eqb]. apply tanh_bounds.
Qed.
Print Assumptions C203_ranges.

(** The network with the default hyperparameters (lines 19-37: one hidden layer of
    20 nodes without activation, absolute values at the end). *)
Definition default_acts : res (list (option string)) :=
  get_activation_funcs known_acts 1 (ActName "linear") [(LId 1, ActName "abs")].

(** Its predictions are never negative. *)
Theorem C203_default_nonnegative : forall inp out arch acts ls x y,
  get_architecture inp out 1 20%nat [] = Ok arch ->
  default_acts = Ok acts ->
  built arch ls -> List.length x = inp ->
  forward ls acts x = Ok y ->
  List.length y = out /\ Forall (fun v => 0 <= v) y.
Proof.
  intros inp out arch acts ls x y HA HF HB Hx Hy.
  destruct (C203_one_value_per_parameter _ _ _ _ _ _ _ _ _ _ _ HA HF HB Hx) as (y' & H1 & H2).
  rewrite Hy in H1. injection H1 as <-. split; [exact H2|].
  assert (Hl : last acts None = Some "abs"%string) by (injection HF as <-; reflexivity).
  assert (HR := C203_ranges _ _ _ _ _ _ _ _ _ _ _ _ _ HA HF HB Hx Hy Hl).
  revert HR. apply Forall_impl. intros v [H _]. apply H. now left.
Qed.
Print Assumptions C203_default_nonnegative.

(** The bias of one output of a layer, 0 when it has none. *)
Definition bias_of (l : linear) (o : nat) : R := match l_b l with Some b => b o | None => 0 end.

(** Its hidden layer adds nothing: the network without any, with the product of
    the two weight matrices, predicts the same for every sample. *)
Theorem C203_default_hidden_layer_idle : forall inp out arch acts ls,
  get_architecture inp out 1 20%nat [] = Ok arch ->
  default_acts = Ok acts ->
  built arch ls ->
  exists l1 l2, ls = [l1; l2] /\
  let W o i := rsum 20 (fun k => l_w l2 o k * l_w l1 k i) in
  let b o := rsum 20 (fun k => l_w l2 o k * bias_of l1 k) + bias_of l2 o in
  forall x, List.length x = inp ->
    forward ls acts x =
    Ok (map (fun o => Rabs (rsum inp (fun i => W o i * nth i x 0) + b o)) (seq 0 out)).
Proof.
  intros inp out arch acts ls HA HF [Hi Ho].
  injection HA as <-. injection HF as <-. cbn in Hi, Ho.
  destruct ls as [|l1 [|l2 [|]]]; try discriminate.
  cbn in Hi, Ho. injection Hi as H1 H2. injection Ho as H3 H4.
  exists l1, l2. split; [reflexivity|]. cbv zeta.
  intros x Hx. cbn [forward]. unfold apply_linear at 1. rewrite H1, Hx, Nat.eqb_refl. cbn [rbind].
  unfold apply_linear. rewrite map_length, seq_length, H3, H2. cbn [Nat.eqb]. cbn [rbind]. f_equal.
  rewrite map_map, H4. apply map_ext. intros o. cbn [act_fun String.eqb Ascii.eqb Bool.eqb]. f_equal.
  fold (bias_of l2 o). rewrite <- Rplus_assoc. f_equal.
  transitivity (rsum 20 (fun k => l_w l2 o k * (rsum inp (fun i => l_w l1 k i * nth i x 0) + bias_of l1 k))).
  - apply rsum_ext. intros k Hk. f_equal.
    set (g := fun o0 => rsum inp (fun i => l_w l1 o0 i * nth i x 0) + bias_of l1 o0).
    change (nth k (map g (seq 0 20)) 0 = g k).
    rewrite (nth_indep _ 0 (g 0%nat)) by now rewrite map_length, seq_length.
    rewrite map_nth, seq_nth by exact Hk. reflexivity.
  - rewrite (rsum_ext _ _ (fun k => rsum inp (fun i => l_w l2 o k * l_w l1 k i * nth i x 0) + l_w l2 o k * bias_of l1 k)).
    + rewrite rsum_add, rsum_swap. f_equal. apply rsum_ext. intros i Hi. now rewrite rsum_scal_r.
    + intros k Hk. rewrite Rmult_plus_distr_l, <- rsum_scal. f_equal. apply rsum_ext. intros i Hi. ring.
Qed.
Print Assumptions C203_default_hidden_layer_idle.

(** A hyperparameter trial may choose "linear" or "tanh" for the last layer
    (lines 276-288), and then negative parameters are predicted. *)
Theorem C203_trial_negative_refuted :
  forall f, f = "linear"%string \/ f = "tanh"%string ->
  exists arch acts ls (y : list R) (v : R),
    get_architecture 1%nat 1%nat 1 1%nat [(LId 0, 1%nat)] = Ok arch /\
    get_activation_funcs known_acts 1 (ActName f) [(LId 0, ActName f); (LId 1, ActName f)] = Ok acts /\
    built arch ls /\ forward ls acts [1] = Ok y /\ In v y /\ v < 0.
Proof.
  set (l1 := mkLin 1 1 (fun _ _ => 1) None). set (l2 := mkLin 1 1 (fun _ _ => -1) None).
  intros f [-> | ->].
  - do 2 eexists. exists [l1; l2]. do 2 eexists. split; [reflexivity|]. split; [reflexivity|].
    split; [split; reflexivity|]. split; [reflexivity|]. split; [left; reflexivity|]. cbn. lra.
  - do 2 eexists. exists [l1; l2]. do 2 eexists. split; [reflexivity|]. split; [reflexivity|].
    split; [split; reflexivity|]. split; [reflexivity|]. split; [left; reflexivity|].
    cbn [l1 l2 l_in l_out l_w l_b seq map act_fun String.eqb Ascii.eqb Bool.eqb nth rsum].
    assert (P : forall u, 0 < u -> 0 < tanh u).
    { intros u Hu. unfold tanh, sinh, cosh. pose proof (exp_increasing (- u) u ltac:(lra)) as H.
      pose proof (exp_pos u). pose proof (exp_pos (- u)).
      apply Rdiv_lt_0_compat; lra. }
    assert (O : forall u, tanh (- u) = - tanh u).
    { intros u. unfold tanh, sinh, cosh. rewrite Ropp_involutive. pose proof (exp_pos u). pose proof (exp_pos (- u)). field. lra. }
    set (t := tanh (0 + 1 * 1 + 0)).
    assert (Ht : 0 < t) by (apply P; lra).
    replace (0 + -1 * t + 0) with (- t) by ring. rewrite O. specialize (P t Ht). lra.
Qed.
Print Assumptions C203_trial_negative_refuted.

(** Two inputs, one parameter, the default layers with all weights minus one:
    the prediction is |sum of 20 copies of (x1 + x2)|. *)
Example C203_nonvacuous :
  exists arch acts,
    get_architecture 2%nat 1%nat 1 20%nat [] = Ok arch /\ default_acts = Ok acts /\
    let ls := [mkLin 2 20 (fun _ _ => -1) None; mkLin 20 1 (fun _ _ => 1) None] in
    built arch ls /\ exists y, forward ls acts [1; 2] = Ok y /\ y = [60].
Proof.
  do 2 eexists. split; [reflexivity|]. split; [reflexivity|]. cbn zeta. split; [split; reflexivity|].
  eexists. split; [reflexivity|].
  cbn [seq map act_fun String.eqb Ascii.eqb Bool.eqb nth rsum l_in l_out l_w l_b]. f_equal.
  match goal with |- Rabs ?e = _ => replace e with (- (60)) by lra end.
  rewrite Rabs_Ropp. apply Rabs_pos_eq. lra.
Qed.
