(** Properties C117 (validation covers every listed setting), C118 (sweeps are
    discovered) of Validate.v. *)
From Coq Require Import List ZArith Lia Bool Arith String Ascii.
From Verif Require Import Base PyMonad ConfigTree ConfigSpec ConfigProps ConfigFind Validate.
Import ListNotations.
Local Open Scope string_scope.
Local Open Scope nat_scope.
Local Open Scope list_scope.

(** * Templates *)

(** The shape of cfg_parameters.json: dictionaries with distinct keys, no key twice
    along a path; lists of dictionaries or lists; 'sweep' is the only key of its
    dictionary, not at the top, and has the keys 'default' and 'range'. *)
Definition sweep_shape (v : node) : Prop :=
  exists a b, v = Dict [(KS "default", Leaf a); (KS "range", Leaf b)].

Record template (t : node) : Prop := {
  t_wf : wf t;
  t_keys : no_repeated_keys t;
  t_top : exists l, t = Dict l /\ ~ In (KS "sweep") (map fst l);
  t_lists : forall p l c, reaches t p (LList l) -> In c l -> is_container c = true;
  t_sweeps : forall p l v, reaches t p (Dict l) -> In (KS "sweep", v) l -> l = [(KS "sweep", v)] /\ sweep_shape v
}.

(** * Positions visited *)

Inductive position := PLeaf (p : list key) | PSweep (p : list key).
Definition pos_path (x : position) : list key := match x with PLeaf p => p | PSweep p => p end.

Fixpoint positions (pre : list key) (t : node) : list position :=
  let step k v :=
    if key_eqb k (KS "sweep") then [PSweep pre]
    else match v with Leaf _ => [PLeaf (pre ++ [k])] | _ => positions (pre ++ [k]) v end in
  match t with
  | Leaf _ => []
  | Dict l => (fix go (l : list (key * node)) := match l with [] => [] | (k, v) :: l' => step k v ++ go l' end) l
  | LList l => (fix go (i : nat) (l : list node) := match l with [] => [] | v :: l' => step (KI i) v ++ go (S i) l' end) 0 l
  end.

Definition pos_item (pre : list key) (kv : key * node) : list position :=
  if key_eqb (fst kv) (KS "sweep") then [PSweep pre]
  else match snd kv with Leaf _ => [PLeaf (pre ++ [fst kv])] | _ => positions (pre ++ [fst kv]) (snd kv) end.

Lemma positions_items : forall pre t, positions pre t = flat_map (pos_item pre) (items t).
Proof.
  intros pre [lf|l|l]; cbn [positions items]; [reflexivity| |].
  - induction l as [|[k v] l IH]; [reflexivity|]. cbn [flat_map]. rewrite <- IH. unfold pos_item. cbn [fst snd].
    destruct (key_eqb k (KS "sweep")); [reflexivity|]. destruct v; reflexivity.
  - generalize 0 as i. induction l as [|v l IH]; intros i; [reflexivity|]. cbn [List.length seq map combine flat_map]. rewrite <- IH.
    unfold pos_item. cbn [fst snd key_eqb]. destruct v; reflexivity.
Qed.

(** The paths of the positions are pairwise unrelated. *)
Lemma prefix_app : forall a b, prefix a (a ++ b).
Proof. intros a b. exists b. reflexivity. Qed.

Lemma prefix_trans : forall a b c, prefix a b -> prefix b c -> prefix a c.
Proof. intros a b c [x ->] [y ->]. exists (x ++ y). rewrite app_assoc. reflexivity. Qed.

Lemma prefix_comparable : forall a b q, prefix a q -> prefix b q -> prefix a b \/ prefix b a.
Proof.
  induction a as [|k a IH]; intros b q Ha Hb; [left; apply prefix_nil|].
  destruct b as [|k' b]; [right; apply prefix_nil|]. destruct q as [|x q]; [destruct Ha; discriminate|].
  destruct Ha as [r Ha], Hb as [r' Hb]. cbn in Ha, Hb. injection Ha as -> Ha. injection Hb as <- Hb.
  destruct (IH b q) as [H|H]; [exists r; exact Ha|exists r'; exact Hb|left|right]; apply prefix_cons; exact H.
Qed.

Lemma unrelated_below : forall a b q, unrelated a b -> prefix b q -> unrelated a q.
Proof.
  intros a b q [H1 H2] H. split; intros Hp.
  - destruct (prefix_comparable a b q Hp H); contradiction.
  - apply H2. eapply prefix_trans; eassumption.
Qed.

Lemma unrelated_sym : forall a b, unrelated a b -> unrelated b a.
Proof. intros a b [H1 H2]. split; assumption. Qed.

Lemma positions_below : forall t pre x, In x (positions pre t) -> prefix pre (pos_path x).
Proof.
  intros t. induction t as [t IH] using node_items_ind. intros pre x Hx. rewrite positions_items in Hx.
  apply in_flat_map in Hx as [[k v] [Hin Hx]]. unfold pos_item in Hx. cbn [fst snd] in Hx.
  destruct (key_eqb k (KS "sweep")); [destruct Hx as [<-|[]]; exists []; rewrite app_nil_r; reflexivity|].
  destruct v as [a|l|l].
  - destruct Hx as [<-|[]]. apply prefix_app.
  - eapply prefix_trans; [apply prefix_app|]. eapply IH; [exact Hin|exact Hx].
  - eapply prefix_trans; [apply prefix_app|]. eapply IH; [exact Hin|exact Hx].
Qed.

Lemma pos_item_below : forall pre k v x, k <> KS "sweep" -> In x (pos_item pre (k, v)) -> prefix (pre ++ [k]) (pos_path x).
Proof.
  intros pre k v x Hk Hx. unfold pos_item in Hx. cbn [fst snd] in Hx. rewrite (key_eqb_neq _ _ Hk) in Hx.
  destruct v as [a|l|l].
  - destruct Hx as [<-|[]]. exists []. rewrite app_nil_r. reflexivity.
  - eapply positions_below; exact Hx.
  - eapply positions_below; exact Hx.
Qed.

Inductive apart : list position -> Prop :=
| ap_nil : apart []
| ap_cons : forall x l, (forall y, In y l -> unrelated (pos_path x) (pos_path y)) -> apart l -> apart (x :: l).

Lemma apart_app : forall a b, apart a -> apart b -> (forall x y, In x a -> In y b -> unrelated (pos_path x) (pos_path y)) -> apart (a ++ b).
Proof.
  induction a as [|x a IH]; intros b Ha Hb H; [exact Hb|]. inversion Ha as [|? ? H1 H2]; subst. cbn. constructor.
  - intros y Hy. apply in_app_or in Hy as [Hy|Hy]; [apply H1; exact Hy|apply H; [left; reflexivity|exact Hy]].
  - apply IH; [exact H2|exact Hb|]. intros x' y Hx Hy. apply H; [right; exact Hx|exact Hy].
Qed.

Lemma app_unrelated : forall pre k k', k <> k' -> unrelated (pre ++ [k]) (pre ++ [k']).
Proof.
  intros pre k k' H. split; intros [r Hr]; rewrite <- app_assoc in Hr; apply app_inv_head in Hr; cbn in Hr; congruence.
Qed.

Lemma items_apart : forall pre l, NoDup (map fst l) -> (forall k v, In (k, v) l -> k <> KS "sweep") ->
  (forall kv, In kv l -> apart (pos_item pre kv)) -> apart (flat_map (pos_item pre) l).
Proof.
  induction l as [|[k v] l IH]; intros HN HK HA; [constructor|]. cbn [flat_map]. cbn [map fst] in HN. inversion HN as [|? ? Hk HN']; subst.
  apply apart_app.
  - apply HA. left; reflexivity.
  - apply IH; [exact HN'| |]; intros; [eapply HK; right; eassumption|apply HA; right; assumption].
  - intros x y Hx Hy. apply in_flat_map in Hy as [[k' v'] [Hin Hy]].
    assert (k <> KS "sweep") by (eapply HK; left; reflexivity). assert (k' <> KS "sweep") by (eapply HK; right; exact Hin).
    apply pos_item_below in Hx; [|assumption]. apply pos_item_below in Hy; [|assumption].
    assert (Hne : k <> k') by (intros ->; apply Hk; apply in_map_iff; exists (k', v'); auto).
    apply (app_unrelated pre) in Hne.
    eapply unrelated_below; [|exact Hy]. apply unrelated_sym. eapply unrelated_below; [|exact Hx]. apply unrelated_sym. exact Hne.
Qed.

(** Hereditary form of the shape. *)
Definition shaped (t : node) : Prop :=
  (forall p l c, reaches t p (LList l) -> In c l -> is_container c = true) /\
  (forall p l v, reaches t p (Dict l) -> In (KS "sweep", v) l -> l = [(KS "sweep", v)] /\ sweep_shape v).

Lemma shaped_item : forall t k v, shaped t -> In (k, v) (items t) -> shaped v.
Proof.
  intros t k v [H1 H2] Hin. split.
  - intros p l c Hr Hc. apply (H1 (k :: p) l c); [|exact Hc]. apply reaches_items. exists v. auto.
  - intros p l w Hr Hw. apply (H2 (k :: p) l w); [|exact Hw]. apply reaches_items. exists v. auto.
Qed.

Lemma sweep_item : forall t v, shaped t -> In (KS "sweep", v) (items t) -> items t = [(KS "sweep", v)] /\ sweep_shape v.
Proof.
  intros [a|l|l] v [H1 H2] Hin; cbn [items] in *.
  - destruct Hin.
  - apply (H2 [] l v); [constructor|exact Hin].
  - apply combine_seq_In in Hin as [n [E _]]. discriminate.
Qed.

Lemma positions_apart : forall t pre, wf t -> shaped t -> apart (positions pre t).
Proof.
  intros t. induction t as [t IH] using node_items_ind. intros pre Hwf Hsh. rewrite positions_items.
  destruct (wf_items t Hwf) as [HN HW].
  destruct (in_dec key_eq_dec (KS "sweep") (map fst (items t))) as [Hin|Hno].
  - apply in_map_iff in Hin as [[k v] [E Hin]]. cbn in E. subst k. destruct (sweep_item t v Hsh Hin) as [-> _].
    cbn. constructor; [intros y []|constructor].
  - apply items_apart; [exact HN| |].
    + intros k v Hin ->. apply Hno, in_map_iff. exists (KS "sweep", v). auto.
    + intros [k v] Hin. unfold pos_item. cbn [fst snd]. destruct (key_eqb k (KS "sweep")); [constructor; [intros y []|constructor]|].
      assert (Hv : apart (positions (pre ++ [k]) v)) by (apply (IH k v Hin); [eapply HW; exact Hin|eapply shaped_item; eassumption]).
      destruct v; [constructor; [intros y []|constructor]|exact Hv|exact Hv].
Qed.

(** Which positions there are. *)
Lemma leaf_position : forall t pre p a, shaped t -> reaches t p (Leaf a) -> p <> [] -> ~ In (KS "sweep") p ->
  In (PLeaf (pre ++ p)) (positions pre t).
Proof.
  intros t. induction t as [t IH] using node_items_ind. intros pre p a Hsh Hr Hp Hs.
  destruct p as [|k p]; [congruence|]. apply reaches_items in Hr as [c [Hin Hr]]. rewrite positions_items.
  apply in_flat_map. exists (k, c). split; [exact Hin|]. unfold pos_item. cbn [fst snd].
  assert (Hk : k <> KS "sweep") by (intros ->; apply Hs; left; reflexivity). rewrite (key_eqb_neq _ _ Hk).
  destruct p as [|k2 p].
  - inversion Hr; subst. left; reflexivity.
  - assert (Hc : In (PLeaf (pre ++ k :: k2 :: p)) (positions (pre ++ [k]) c)).
    { replace (pre ++ k :: k2 :: p) with ((pre ++ [k]) ++ k2 :: p) by (rewrite <- app_assoc; reflexivity).
      eapply IH; [exact Hin|eapply shaped_item; eassumption|exact Hr|congruence|]. intros H. apply Hs. right; exact H. }
    destruct c; [inversion Hr|exact Hc|exact Hc].
Qed.

Lemma sweep_position : forall t pre p v, shaped t -> reaches t (p ++ [KS "sweep"]) v -> ~ In (KS "sweep") p ->
  In (PSweep (pre ++ p)) (positions pre t).
Proof.
  intros t. induction t as [t IH] using node_items_ind. intros pre p v Hsh Hr Hs. rewrite positions_items.
  destruct p as [|k p].
  - cbn in Hr. apply reaches_items in Hr as [c [Hin Hr]]. apply in_flat_map. exists (KS "sweep", c). split; [exact Hin|].
    unfold pos_item. cbn. left. rewrite app_nil_r. reflexivity.
  - cbn in Hr. apply reaches_items in Hr as [c [Hin Hr]]. apply in_flat_map. exists (k, c). split; [exact Hin|]. unfold pos_item. cbn [fst snd].
    assert (Hk : k <> KS "sweep") by (intros ->; apply Hs; left; reflexivity). rewrite (key_eqb_neq _ _ Hk).
    assert (Hc : In (PSweep (pre ++ k :: p)) (positions (pre ++ [k]) c)).
    { replace (pre ++ k :: p) with ((pre ++ [k]) ++ p) by (rewrite <- app_assoc; reflexivity).
      eapply IH; [exact Hin|eapply shaped_item; eassumption|exact Hr|]. intros H. apply Hs. right; exact H. }
    destruct c; [destruct p; inversion Hr|exact Hc|exact Hc].
Qed.

(** * Reading after setting *)

Lemma path_get_loop_app : forall p s q, path_get_loop s (p ++ q) =
  match path_get_loop s p with (Some v, _) => path_get_loop v q | (None, _) => (None, false) end.
Proof.
  induction p as [|k p IH]; intros s q; [reflexivity|]. cbn [app path_get_loop].
  destruct (key_eqb k (KS "sweep")).
  - destruct s as [a|l|l]; [reflexivity| |reflexivity]. destruct (dget k l) as [v|]; [|reflexivity]. destruct (is_not_found v); [reflexivity|apply IH].
  - destruct (get_item s k); [apply IH|reflexivity].
Qed.

Lemma path_get_loop_eq : forall p s, p <> [] -> path_get p s = path_get_loop s p.
Proof. intros [|k p] s H; [congruence|reflexivity]. Qed.

Lemma dget_dset_ne : forall l k k2 v, k2 <> k -> dget k2 (dset k v l) = dget k2 l.
Proof. exact dget_dset_other. Qed.

Lemma path_set_elsewhere : forall p s v s' b q, path_set false s v p = Ok (s', b) -> unrelated p q ->
  path_get_loop s' q = path_get_loop s q.
Proof.
  induction p as [|k p IH]; intros s v s' b q H HU; [destruct HU as [HU _]; exfalso; apply HU, prefix_nil|].
  destruct q as [|k2 q]; [destruct HU as [_ HU]; exfalso; apply HU, prefix_nil|].
  destruct (key_eq_dec k2 k) as [->|Hne].
  - apply (unrelated_cons k p q) in HU.
    destruct p as [|k3 p]; [destruct HU as [HU _]; exfalso; apply HU, prefix_nil|]. rewrite path_set_cons in H.
    destruct s as [a|l|l]; try discriminate. destruct (dget k l) as [c|] eqn:E.
    + apply rbind_Ok_inv in H as [[c' b'] [H1 H2]]. cbn [fst snd] in H2. injection H2 as <- <-. cbn [path_get_loop].
      specialize (IH c v c' b' q H1 HU).
      destruct (key_eqb k (KS "sweep")) eqn:Ek.
      * rewrite dget_dset_same, E.
        assert (Hc : is_not_found c' = is_not_found c).
        { destruct c as [[| | |t]|l1|l1]; cbn [path_set] in H1; destruct p; try discriminate.
          - apply rbind_Ok_inv in H1 as [x [X1 X2]]. injection X2 as <- <-. unfold set_item in X1. injection X1 as <-. reflexivity.
          - destruct (dget k3 l1); apply rbind_Ok_inv in H1 as [x [X1 X2]]; injection X2 as <- <-; reflexivity.
          - apply rbind_Ok_inv in H1 as [x [X1 X2]]. injection X2 as <- <-. unfold set_item in X1. destruct k3; [discriminate|]. destruct (n <? List.length l1); [|discriminate]. injection X1 as <-. reflexivity. }
        rewrite Hc. destruct (is_not_found c); [reflexivity|exact IH].
      * unfold get_item. rewrite dget_dset_same, E. exact IH.
    + apply rbind_Ok_inv in H as [r [H1 H2]]. injection H2 as <- <-. reflexivity.
  - clear IH HU. assert (Hget : forall vv s s', set_item s k vv = Ok s' -> path_get_loop s' (k2 :: q) = path_get_loop s (k2 :: q)).
    { intros vv s0 s0' Hs. cbn [path_get_loop]. unfold set_item in Hs. destruct s0 as [a|l|l]; [discriminate| |].
      - injection Hs as <-. unfold get_item. rewrite dget_dset_other by congruence. reflexivity.
      - destruct k as [x|n]; [discriminate|]. destruct (n <? List.length l); [|discriminate]. injection Hs as <-.
        destruct (key_eqb k2 (KS "sweep")); [reflexivity|]. unfold get_item. destruct k2 as [x|m]; [reflexivity|]. rewrite nth_error_lset_other by congruence. reflexivity. }
    destruct p as [|k3 p].
    + cbn [path_set] in H. apply rbind_Ok_inv in H as [x [H1 H2]]. injection H2 as <- <-. exact (Hget v s x H1).
    + rewrite path_set_cons in H. destruct s as [a|l|l]; try discriminate. destruct (dget k l) as [c|].
      * apply rbind_Ok_inv in H as [r [H1 H2]]. injection H2 as <- <-.
        exact (Hget (fst r) (Dict l) (Dict (dset k (fst r) l)) eq_refl).
      * apply rbind_Ok_inv in H as [r [H1 H2]]. injection H2 as <- <-. reflexivity.
Qed.

Lemma path_set_there : forall p s v s' d b, p <> [] -> ~ In (KS "sweep") p -> path_get_loop s p = (Some d, b) ->
  path_set false s v p = Ok (s', true) -> path_get_loop s' p = (Some v, negb (is_not_found v)).
Proof.
  induction p as [|k p IH]; intros s v s' d b Hp Hs Hg H; [congruence|].
  assert (Hk : key_eqb k (KS "sweep") = false) by (apply key_eqb_neq; intros ->; apply Hs; left; reflexivity).
  cbn [path_get_loop] in Hg |- *. rewrite Hk in Hg |- *. destruct p as [|k2 p].
  - cbn [path_set] in H. apply rbind_Ok_inv in H as [x [H1 H2]]. injection H2 as <-.
    unfold set_item in H1. unfold get_item. destruct s as [a|l|l]; [discriminate| |].
    + injection H1 as <-. rewrite dget_dset_same. reflexivity.
    + destruct k as [x'|n]; [discriminate|]. destruct (n <? List.length l) eqn:E; [|discriminate]. injection H1 as <-.
      apply Nat.ltb_lt in E. rewrite nth_error_lset_same by exact E. reflexivity.
  - rewrite path_set_cons in H. destruct s as [a|l|l]; try discriminate. unfold get_item in Hg. destruct (dget k l) as [c|] eqn:E; [|discriminate].
    apply rbind_Ok_inv in H as [[c' b'] [H1 H2]]. cbn [fst snd] in H2. injection H2 as <- ->. unfold get_item. rewrite dget_dset_same.
    eapply IH; [congruence| |exact Hg|exact H1]. intros H; apply Hs; right; exact H.
Qed.

Section Run.
  Variable schema : node.
  Variable entry_ok : node -> node -> bool.

  Definition sw (p : list key) : list key := p ++ [KS "sweep"].

  (** One position with its true path. *)
  Definition do_pos (x : position) (st : vst) : res vst :=
    match x with
    | PLeaf p => do q <- visit schema entry_ok p false st ; Ok (fst q)
    | PSweep p =>
      do q <- visit schema entry_ok (sw p) true st ;
      if snd q then
        do a <- visit schema entry_ok (sw p ++ [KS "default"]) false (fst q) ;
        do b <- visit schema entry_ok (sw p ++ [KS "range"]) false (fst a) ; Ok (fst b)
      else Ok (fst q)
    end.
  Fixpoint run (l : list position) (st : vst) : res vst :=
    match l with [] => Ok st | x :: r => do s <- do_pos x st ; run r s end.

  Lemma run_app : forall a b st, run (a ++ b) st = (do s <- run a st ; run b s).
  Proof.
    induction a as [|x a IH]; intros b st; [reflexivity|]. cbn [app run]. destruct (do_pos x st) as [s|e]; [|reflexivity]. cbn [rbind]. apply IH.
  Qed.

  (** The step of the model, restated. *)
  Definition vstep (k : key) (v : node) (pst : list key * vst) : res (list key * vst) :=
    let p1 := fst pst ++ [k] in
    do r <- match v with
            | LList l =>
              (fix each (i : nat) (l : list node) (pst : list key * vst) : res (list key * vst) :=
                 match l with
                 | [] => Ok pst
                 | x :: l' =>
                   do r <- validate schema entry_ok x (fst pst ++ [KI i], snd pst) ;
                   each (S i) l' (remove_first (KI i) (fst r), snd r)
                 end) 0 l (p1, snd pst)
            | Dict _ =>
              if key_eqb k (KS "sweep") then
                do q <- visit schema entry_ok p1 true (snd pst) ;
                if snd q then validate schema entry_ok v (p1, fst q) else Ok (p1, fst q)
              else validate schema entry_ok v (p1, snd pst)
            | Leaf _ => do q <- visit schema entry_ok p1 false (snd pst) ; Ok (p1, fst q)
            end ;
    Ok (remove_first k (fst r), snd r).

  Fixpoint vsteps (l : list (key * node)) (pst : list key * vst) : res (list key * vst) :=
    match l with [] => Ok pst | (k, v) :: l' => do r <- vstep k v pst ; vsteps l' r end.

  Lemma validate_steps : forall t pst, is_container t = true -> validate schema entry_ok t pst = vsteps (items t) pst.
  Proof.
    intros [a|l|l] pst H; [discriminate| |]; cbn [items validate].
    - clear H. revert pst. induction l as [|[k v] l IH]; intros pst; [reflexivity|]. cbn [vsteps].
      match goal with |- rbind ?a _ = rbind ?b _ => assert (E : a = b) by (destruct v; reflexivity); rewrite E; clear E; destruct b as [r|e]; [|reflexivity] end.
      cbn [rbind]. apply IH.
    - clear H. match goal with |- ?f 0 l pst = _ => set (go := f) end. revert pst. generalize 0 as i.
      induction l as [|v l IH]; intros i pst; [reflexivity|]. cbn [List.length seq map combine vsteps]. unfold go at 1. fold go.
      match goal with |- rbind ?a _ = rbind ?b _ => assert (E : a = b) by (destruct v; reflexivity); rewrite E; clear E; destruct b as [r|e]; [|reflexivity] end.
      cbn [rbind]. apply IH.
  Qed.


  Lemma NoDup_app_r : forall (A : Type) (a b : list A), NoDup (a ++ b) -> forall x, In x b -> ~ In x a.
  Proof.
    induction a as [|y a IH]; intros b H x Hx; [intros []|]. cbn in H. inversion H as [|? ? H1 H2]; subst.
    intros [->|Hin]; [apply H1, in_or_app; right; exact Hx|eapply IH; eassumption].
  Qed.

  (** The walk is a pass over the positions, the path being restored after each. *)
  Lemma validate_run : forall t pre st, is_container t = true -> shaped t ->
    (forall p w, reaches t p w -> NoDup (pre ++ p)) ->
    validate schema entry_ok t (pre, st) = (do s <- run (positions pre t) st ; Ok (pre, s)).
  Proof.
    intros t. induction t as [t IH0] using (induction_ltof1 node nsize). intros pre st Hc Hsh HN.
    assert (IH : forall k v, In (k, v) (items t) -> forall pre st, is_container v = true -> shaped v ->
      (forall p w, reaches v p w -> NoDup (pre ++ p)) -> validate schema entry_ok v (pre, st) = (do s <- run (positions pre v) st ; Ok (pre, s)))
      by (intros k v Hin; apply IH0; unfold ltof; eapply items_size; exact Hin).
    rewrite validate_steps by exact Hc. rewrite positions_items.
    destruct (in_dec key_eq_dec (KS "sweep") (map fst (items t))) as [Hin|Hno].
    - apply in_map_iff in Hin as [[k v] [E Hin]]. cbn in E. subst k. destruct (sweep_item t v Hsh Hin) as [Ei [a [b ->]]].
      assert (Hns : ~ In (KS "sweep") pre).
      { apply (NoDup_app_r _ pre [KS "sweep"]); [|left; reflexivity]. eapply HN. apply reaches_items. eexists. split; [exact Hin|constructor]. }
      assert (Hnd : forall x w, In (x, w) [(KS "default", Leaf a); (KS "range", Leaf b)] -> ~ In x (pre ++ [KS "sweep"])).
      { intros x w Hx. apply (NoDup_app_r _ (pre ++ [KS "sweep"]) [x]); [|left; reflexivity]. rewrite <- app_assoc. apply (HN [KS "sweep"; x] w).
        apply reaches_items. eexists. split; [exact Hin|]. apply reaches_items. exists w. split; [exact Hx|constructor]. }
      rewrite Ei. cbn [vsteps flat_map]. unfold pos_item. cbn [fst key_eqb]. rewrite String.eqb_refl. cbn [app run do_pos].
      unfold vstep. cbn [fst snd key_eqb]. rewrite String.eqb_refl. fold (sw pre).
      destruct (visit schema entry_ok (sw pre) true st) as [[st1 rc]|e]; [|reflexivity]. cbn [rbind fst snd].
      destruct rc.
      + rewrite validate_steps by reflexivity. cbn [items vsteps]. unfold vstep. cbn [fst snd].
        destruct (visit schema entry_ok (sw pre ++ [KS "default"]) false st1) as [[st2 r2]|e]; [|reflexivity]. cbn [rbind fst snd].
        rewrite (remove_first_app (KS "default")) by (eapply Hnd; left; reflexivity).
        destruct (visit schema entry_ok (sw pre ++ [KS "range"]) false st2) as [[st3 r3]|e]; [|reflexivity]. cbn [rbind fst snd].
        rewrite (remove_first_app (KS "range")) by (eapply Hnd; right; left; reflexivity). cbn [fst snd].
        unfold sw. rewrite remove_first_app by exact Hns. reflexivity.
      + cbn [rbind fst snd]. unfold sw. rewrite remove_first_app by exact Hns. reflexivity.
    - assert (Hstep : forall k v st, In (k, v) (items t) -> vstep k v (pre, st) = (do s <- run (pos_item pre (k, v)) st ; Ok (pre, s))).
      { clear st. intros k v st Hin.
        assert (Hk : ~ In k pre) by (apply (NoDup_app_r _ pre [k]); [eapply HN; apply reaches_items; exists v; split; [exact Hin|constructor]|left; reflexivity]).
        assert (Hks : k <> KS "sweep") by (intros ->; apply Hno, in_map_iff; exists (KS "sweep", v); auto).
        assert (HNv : forall p w, reaches v p w -> NoDup ((pre ++ [k]) ++ p)).
        { intros p w Hr. rewrite <- app_assoc. apply (HN (k :: p) w). apply reaches_items. exists v. auto. }
        unfold vstep, pos_item. cbn [fst snd]. rewrite (key_eqb_neq _ _ Hks).
        destruct v as [a|l|l].
        - cbn [run do_pos]. destruct (visit schema entry_ok (pre ++ [k]) false st) as [[s1 r1]|e]; [|reflexivity]. cbn [rbind fst snd].
          rewrite remove_first_app by exact Hk. reflexivity.
        - rewrite (IH k (Dict l) Hin (pre ++ [k]) st eq_refl (shaped_item t k _ Hsh Hin) HNv).
          destruct (run (positions (pre ++ [k]) (Dict l)) st) as [s1|e]; [|reflexivity]. cbn [rbind fst snd]. rewrite remove_first_app by exact Hk. reflexivity.
        - assert (HL : forall c, In c l -> is_container c = true) by (intros c Hcl; destruct (shaped_item t k _ Hsh Hin) as [H1 _]; apply (H1 [] l c); [constructor|exact Hcl]).
          assert (HX : forall n c st, nth_error l n = Some c -> validate schema entry_ok c ((pre ++ [k]) ++ [KI n], st) = (do s <- run (positions ((pre ++ [k]) ++ [KI n]) c) st ; Ok ((pre ++ [k]) ++ [KI n], s))).
          { clear st. intros n c st Hn.
            assert (Hc' : In (KI n, c) (items (LList l))) by (cbn [items]; apply combine_seq_In; exists n; auto).
            assert (Hcs : shaped c) by (eapply shaped_item; [eapply shaped_item; [exact Hsh|exact Hin]|exact Hc']).
            assert (HNc : forall p w, reaches c p w -> NoDup (((pre ++ [k]) ++ [KI n]) ++ p)).
            { intros p w Hr. rewrite <- app_assoc. apply (HNv (KI n :: p) w). apply reaches_items. exists c. auto. }
            apply IH0; [|apply HL; eapply nth_error_In; exact Hn|exact Hcs|exact HNc].
            unfold ltof. apply items_size in Hin. apply items_size in Hc'. lia. }
          assert (HKI : forall n, n < List.length l -> ~ In (KI n) (pre ++ [k])).
          { intros n Hn. apply nth_error_Some in Hn. destruct (nth_error l n) as [c|] eqn:En; [|congruence].
            apply (NoDup_app_r _ (pre ++ [k]) [KI n]); [|left; reflexivity]. apply (HNv [KI n] c). apply reaches_items. exists c.
            split; [cbn [items]; apply combine_seq_In; exists n; auto|constructor]. }
          rewrite positions_items. cbn [items].
          match goal with |- context [?f 0 l (pre ++ [k], st)] => set (each := f) end.
          assert (HE : forall l' i st, (forall n c, nth_error l' n = Some c -> nth_error l (i + n) = Some c) ->
            each i l' (pre ++ [k], st) = (do s <- run (flat_map (pos_item (pre ++ [k])) (combine (map KI (seq i (List.length l'))) l')) st ; Ok (pre ++ [k], s))).
          { clear st. induction l' as [|x l' IHl]; intros i st Hl; [reflexivity|].
            cbn [List.length seq map combine flat_map]. unfold each. fold each. cbn [fst snd].
            rewrite (HX i x st) by (rewrite <- (Nat.add_0_r i); apply Hl; reflexivity).
            rewrite run_app. unfold pos_item at 1. cbn [fst snd key_eqb].
            assert (Hx : is_container x = true) by (apply HL; eapply nth_error_In; apply (Hl 0); reflexivity).
            replace (match x with Leaf _ => [PLeaf ((pre ++ [k]) ++ [KI i])] | _ => positions ((pre ++ [k]) ++ [KI i]) x end) with (positions ((pre ++ [k]) ++ [KI i]) x) by (destruct x; [discriminate|reflexivity|reflexivity]).
            destruct (run (positions ((pre ++ [k]) ++ [KI i]) x) st) as [s1|e]; [|reflexivity]. cbn [rbind fst snd].
            rewrite remove_first_app by (apply HKI; apply nth_error_Some; rewrite <- (Nat.add_0_r i), (Hl 0 x eq_refl); discriminate).
            apply IHl. intros n c Hn. replace (S i + n) with (i + S n) by lia. apply Hl. exact Hn. }
          rewrite HE by (intros n c Hn; exact Hn). cbn [List.length].
          destruct (run (flat_map (pos_item (pre ++ [k])) (combine (map KI (seq 0 (List.length l))) l)) st) as [s1|e]; [|reflexivity].
          cbn [rbind fst snd]. rewrite remove_first_app by exact Hk. reflexivity. }
      clear IH IH0 HN. revert st. induction (items t) as [|[k v] l IHl]; intros st; [reflexivity|].
      cbn [vsteps flat_map]. rewrite Hstep by (left; reflexivity). rewrite run_app.
      destruct (run (pos_item pre (k, v)) st) as [s1|e]; [|reflexivity]. cbn [rbind]. apply IHl.
      + intros H. apply Hno. right; exact H.
      + intros k' v' st' Hin. apply Hstep. right; exact Hin.
  Qed.

  (** * One visit *)

  Lemma path_get_true : forall p s, snd (path_get p s) = true -> exists v, path_get p s = (Some v, true).
  Proof.
    intros p s H. destruct (path_get p s) as [[v|] b] eqn:E; cbn in H; subst; [exists v; reflexivity|].
    exfalso. destruct p as [|k p]; [discriminate|]. rewrite path_get_loop_eq in E by discriminate. revert s E. generalize (k :: p) as q. clear.
    induction q as [|k q IH]; intros s E; [discriminate|]. cbn [path_get_loop] in E. destruct (key_eqb k (KS "sweep")).
    - destruct s as [a|l|l]; try discriminate. destruct (dget k l) as [v|]; [|discriminate]. destruct (is_not_found v); [discriminate|]. eapply IH; exact E.
    - destruct (get_item s k); [eapply IH; exact E|discriminate].
  Qed.

  Lemma visit_plain : forall p b st st' rc, last_is "sweep" p = false -> visit schema entry_ok p b st = Ok (st', rc) ->
    v_set st' = v_set st /\ v_iso st' = v_iso st /\ v_cou st' = v_cou st /\
    v_act st' = (if last_is "sweep_mode" p then truthy_opt (fst (path_get p (v_set st))) else v_act st) /\
    exists sch, path_get p schema = (Some sch, true) /\
      (~ In (KS "sweep") p -> snd (path_get p (v_set st)) = false -> check_optional (Some sch) = Ok tt) /\
      (b = false -> forall v, path_get p (v_set st) = (Some v, true) -> entry_ok v sch = true).
  Proof.
    intros p b st st' rc Hl H. unfold visit in H. rewrite Hl in H. cbn [andb] in H.
    destruct (snd (path_get p schema)) eqn:Es; [|discriminate]. cbn [negb] in H.
    destruct (path_get_true p schema Es) as [sch Esch].
    apply rbind_Ok_inv in H as [u [H1 H]]. cbn [rbind] in H.
    assert (HS : v_set st' = v_set st /\ v_iso st' = v_iso st /\ v_cou st' = v_cou st /\
      v_act st' = (if last_is "sweep_mode" p then truthy_opt (fst (path_get p (v_set st))) else v_act st)).
    { destruct (last_is "sweep_mode" p); destruct (snd (path_get p (v_set st))).
      - destruct (_ && _ && _) in H; [injection H as <- _; repeat split|apply rbind_Ok_inv in H as [? [_ H]]; injection H as <- _; repeat split].
      - injection H as <- _; repeat split.
      - destruct (_ && _ && _) in H; [injection H as <- _; repeat split|apply rbind_Ok_inv in H as [? [_ H]]; injection H as <- _; repeat split].
      - injection H as <- _; repeat split. }
    destruct HS as [HS1 [HS2 [HS3 HS4]]]. repeat (split; [assumption|]). exists sch. split; [exact Esch|]. split.
    - intros Hns Hf. rewrite Hf in H1. cbn [negb] in H1. rewrite Esch in H1. cbn [fst] in H1.
      assert (Hex : existsb (key_eqb (KS "sweep")) p = false).
      { destruct (existsb _ p) eqn:E; [|reflexivity]. apply existsb_exists in E as [x [Hx E]]. destruct (key_eqb_spec (KS "sweep") x) as [<-|]; [contradiction|discriminate]. }
      rewrite Hex in H1. cbn [negb andb] in H1. destruct u. exact H1.
    - intros -> v Hv. rewrite Hv in H. cbn [fst snd is_dict] in H. rewrite andb_false_r in H.
      apply rbind_Ok_inv in H as [u' [H2 _]]. unfold check_entry in H2. rewrite Esch in H2. cbn [or_none fst] in H2. destruct (entry_ok v sch); [reflexivity|discriminate].
  Qed.

  Lemma sw_facts : forall P, last_is "sweep" (sw P) = true /\ last_is "sweep_mode" (sw P) = false /\ removelast (sw P) = P /\
    existsb (key_eqb (KS "sweep")) (sw P) = true.
  Proof.
    intros P. unfold last_is, sw. rewrite rev_app_distr. cbn. split; [reflexivity|]. split; [reflexivity|]. split; [apply removelast_last|].
    rewrite existsb_app. cbn. apply orb_true_r.
  Qed.

  Lemma record_keeps : forall p d b st st', record_sweep p d b st = Ok st' -> v_set st' = v_set st /\ v_act st' = v_act st.
  Proof.
    intros p d b st st' H. unfold record_sweep in H.
    destruct (match dget (KS "coupled") d with Some b => truthy b | None => false end).
    - destruct (dget (KS "target_name") d) as [tn|]; [|discriminate]. destruct (as_key tn) as [tk|]; [|discriminate].
      destruct (path_exists tk (v_set st) false); [|discriminate]. apply rbind_Ok_inv in H as [name [_ H]].
      destruct (kget tk (v_cou st)); [injection H as <-; split; reflexivity|].
      destruct (kget tk (v_iso st)); [injection H as <-; split; reflexivity|].
      destruct (path_find tk (v_set st)); [discriminate|injection H as <-; split; reflexivity].
    - destruct b; [|injection H as <-; split; reflexivity].
      apply rbind_Ok_inv in H as [a [_ H]]. apply rbind_Ok_inv in H as [name [_ H]]. injection H as <-; split; reflexivity.
  Qed.

  Definition has_key (k : string) (d : list (key * node)) : bool := match dget (KS k) d with Some _ => true | None => false end.

  (** [dv] is not the text 'not-found' and has no sweep of its own. *)
  Definition plain_value (dv : node) : Prop := dv <> not_found /\ snd (path_get_loop dv [KS "sweep"; KS "default"]) = false.

  Definition checked_default (sch v : node) : Prop := exists e, get_item sch (KS "default") = Ok e /\ entry_ok v e = true.

  Definition sweepable_at (P : list key) : Prop :=
    exists par b, fst (path_get P schema) = Some par /\ get_item par (KS "sweepable") = Ok b /\ truthy b = true.

  Definition recorded (P : list key) (d : list (key * node)) (st st' : vst) : Prop :=
    exists st0 st1, record_sweep (sw P) d (has_key "range" d) st0 = Ok st1 /\
      v_iso st0 = v_iso st /\ v_cou st0 = v_cou st /\ v_iso st' = v_iso st1 /\ v_cou st' = v_cou st1.

  Lemma check_range_spec : forall P d dv st r, P <> [] -> ~ In (KS "sweep") P ->
    path_get_loop (v_set st) (sw P) = (Some (Dict d), true) -> dget (KS "default") d = Some dv ->
    check_range (sw P) d st = Ok r ->
    v_act (fst r) = v_act st /\ v_iso (fst r) = v_iso st /\ v_cou (fst r) = v_cou st /\ snd r = has_key "range" d /\
    (forall q, unrelated P q -> path_get_loop (v_set (fst r)) q = path_get_loop (v_set st) q) /\
    (if has_key "range" d then v_set (fst r) = v_set st
     else path_get_loop (v_set (fst r)) P = (Some dv, negb (is_not_found dv))).
  Proof.
    intros P d dv st r HP HS Hg Hd H. unfold check_range in H. unfold has_key. destruct (dget (KS "range") d) as [rv|].
    - injection H as <-. cbn. repeat split; reflexivity.
    - destruct (sw_facts P) as [_ [_ [E _]]]. rewrite E in H. clear E.
      assert (Ec : fst (path_get (sw P ++ [KS "default"]) (v_set st)) = Some dv).
      { rewrite path_get_loop_eq by (destruct P; discriminate). rewrite path_get_loop_app, Hg. cbn. rewrite Hd. reflexivity. }
      rewrite Ec in H. cbn [or_none] in H.
      destruct (path_set false (v_set st) dv P) as [[s' [|]]|e] eqn:Eps; try discriminate. injection H as <-. cbn.
      repeat (split; [reflexivity|]). split.
      + intros q HU. eapply path_set_elsewhere; eassumption.
      + unfold sw in Hg. rewrite path_get_loop_app in Hg. destruct (path_get_loop (v_set st) P) as [[x|] b] eqn:Ex; [|discriminate].
        eapply path_set_there; eassumption.
  Qed.

  Lemma visit_sweep : forall P st st' rc, P <> [] -> ~ In (KS "sweep") P -> visit schema entry_ok (sw P) true st = Ok (st', rc) ->
    v_act st' = v_act st /\
    (forall q, unrelated P q -> path_get_loop (v_set st') q = path_get_loop (v_set st) q) /\
    exists sch, path_get (sw P) schema = (Some sch, true) /\
    match path_get (sw P) (v_set st) with
    | (Some v, true) => rc = true /\ sweepable_at P /\ exists d dv, v = Dict d /\ dget (KS "default") d = Some dv /\ recorded P d st st' /\
        (if has_key "range" d then
           if v_act st then v_set st' = v_set st
           else dv <> not_found -> path_get P (v_set st') = (Some dv, true) /\ checked_default sch dv
         else plain_value dv -> path_get P (v_set st') = (Some dv, true) /\ (v_act st = false -> checked_default sch dv))
    | _ => rc = false /\ st' = st /\
        match path_get P (v_set st) with
        | (Some v, true) => checked_default sch v
        | _ => check_optional (fst (path_get P schema)) = Ok tt
        end
    end.
  Proof.
    intros P st st' rc HP HS H. destruct (sw_facts P) as [F1 [F2 [F3 F4]]].
    unfold visit in H. rewrite F1, F2, F4 in H. cbn [negb andb] in H.
    destruct (snd (path_get (sw P) schema)) eqn:Es; [|discriminate]. cbn [negb rbind] in H.
    destruct (path_get_true (sw P) schema Es) as [sch Esch]. rewrite Esch in H |- *. cbn [fst] in H.
    assert (Hf : path_get (sw P) (v_set st) = path_get_loop (v_set st) (sw P)) by (apply path_get_loop_eq; destruct P; discriminate).
    assert (HfP : forall s, path_get P s = path_get_loop s P) by (intros s; apply path_get_loop_eq; exact HP).
    destruct (path_get (sw P) (v_set st)) as [ov b] eqn:Eg. cbn [fst snd] in H. destruct b.
    - destruct (path_get_true (sw P) (v_set st)) as [v Ev]; [rewrite Eg; reflexivity|]. rewrite Eg in Ev. injection Ev as ->.
      apply rbind_Ok_inv in H as [st1 [H1 H]]. unfold sweep_checks in H1. rewrite F3 in H1.
      destruct (fst (path_get P schema)) as [par|] eqn:Epar; [|discriminate].
      apply rbind_Ok_inv in H1 as [bb [Hb H1]]. destruct (truthy bb) eqn:Eb; [|discriminate].
      destruct v as [a|d|l]; try discriminate. destruct (dget (KS "default") d) as [dv|] eqn:Ed; [|discriminate].
      apply rbind_Ok_inv in H1 as [r [Hr Hrec]].
      destruct (check_range_spec P d dv st r HP HS (eq_sym Hf) Ed Hr) as [R1 [R2 [R3 [R4 [R5 R6]]]]].
      destruct (record_keeps _ _ _ _ _ Hrec) as [K1 K2]. rewrite R4 in Hrec.
      assert (Hhs : forall s, has_sweep (sw P) s = true) by (intros s; unfold has_sweep; rewrite F4; reflexivity).
      assert (Hsweepable : sweepable_at P) by (exists par, bb; auto).
      apply rbind_Ok_inv in H as [st3 [H3 H]]. rewrite Hhs in H. cbn [is_dict andb] in H. injection H as <- <-.
      rewrite orb_false_r, K2, R1 in H3. destruct (v_act st) eqn:Ea; cbn [negb] in H3.
      + injection H3 as <-. split; [congruence|]. split; [intros q HU; rewrite K1; apply R5; exact HU|]. exists sch. split; [reflexivity|].
        split; [reflexivity|]. split; [exact Hsweepable|]. exists d, dv. split; [reflexivity|]. split; [exact Ed|].
        split; [exists (fst r), st1; repeat split; auto|]. destruct (has_key "range" d); [congruence|].
        intros [Hp1 Hp2]. rewrite HfP, K1, R6. split; [|discriminate]. destruct (is_not_found dv) eqn:En; [apply is_not_found_iff in En; contradiction|reflexivity].
      + unfold use_default in H3. rewrite F3 in H3. apply rbind_Ok_inv in H3 as [[st4 c] [H3 H4]].
        set (c1 := path_get (sw P ++ [KS "default"]) (v_set st1)) in *. set (cc := if snd c1 then c1 else path_get P (v_set st1)) in *.
        destruct (snd cc) eqn:Ecc; [|discriminate].
        destruct (path_set false (v_set st1) (or_none (fst cc)) P) as [[s' [|]]|e] eqn:Eps; try discriminate. injection H3 as <- <-.
        cbn [fst snd] in H4. rewrite Ecc in H4.
        apply rbind_Ok_inv in H4 as [e [He H4]]. apply rbind_Ok_inv in H4 as [u [Hu H4]]. injection H4 as <-. cbn [fst snd] in *. unfold with_set. cbn.
        assert (Hck : entry_ok (or_none (fst cc)) e = true) by (unfold check_entry in Hu; destruct (entry_ok _ e); [reflexivity|discriminate]).
        assert (Hx : exists x b, path_get_loop (v_set st1) P = (Some x, b)).
        { rewrite K1. destruct (has_key "range" d); [|rewrite R6; eauto]. rewrite R6. unfold sw in Hf. rewrite path_get_loop_app in Hf.
          destruct (path_get_loop (v_set st) P) as [[x|] b]; [eauto|discriminate]. }
        destruct Hx as [x [bx Hx]]. pose proof (path_set_there P _ _ _ _ _ HP HS Hx Eps) as Hthere.
        split; [congruence|]. split; [intros q HU; rewrite (path_set_elsewhere _ _ _ _ _ q Eps HU), K1; apply R5; exact HU|]. exists sch. split; [reflexivity|].
        split; [reflexivity|]. split; [exact Hsweepable|]. exists d, dv. split; [reflexivity|]. split; [exact Ed|].
        split; [exists (fst r), st1; repeat split; auto|].
        assert (Hfin : cc = (Some dv, true) -> path_get P s' = (Some dv, true) /\ checked_default sch dv).
        { intros E. rewrite E in Hthere, Hck, Ecc. cbn [fst or_none] in Hthere, Hck. rewrite HfP, Hthere. split; [|exists e; auto].
          destruct (is_not_found dv) eqn:En; [|reflexivity]. exfalso. apply is_not_found_iff in En. subst dv.
          assert (Hno : forall q w, path_get_loop w q <> (Some not_found, true)).
          { clear. induction q as [|k q IH]; intros w; [cbn; intros E; injection E as -> E; discriminate|]. cbn [path_get_loop].
            destruct (key_eqb k (KS "sweep")); [destruct w as [a|l|l]; try discriminate; destruct (dget k l) as [z|]; [|discriminate]; destruct (is_not_found z); [discriminate|apply IH]|].
            destruct (get_item w k); [apply IH|discriminate]. }
          unfold cc, c1 in E. destruct (snd (path_get (sw P ++ [KS "default"]) (v_set st1))) in E; [rewrite path_get_loop_eq in E by (destruct P; discriminate)|rewrite HfP in E]; eapply Hno; exact E. }
        assert (Hc1 : c1 = path_get_loop (v_set st1) (sw P ++ [KS "default"])) by (unfold c1; apply path_get_loop_eq; destruct P; discriminate).
        destruct (has_key "range" d) eqn:Ehr.
        * intros Hdn. apply Hfin. unfold cc. rewrite Hc1, K1, R6, path_get_loop_app, <- Hf. cbn. rewrite Ed.
          destruct (is_not_found dv) eqn:En; [apply is_not_found_iff in En; contradiction|reflexivity].
        * intros [Hp1 Hp2]. assert (Ecc' : cc = (Some dv, true)).
          { unfold cc. rewrite Hc1. unfold sw. rewrite <- app_assoc, path_get_loop_app, K1, R6. cbn [app]. rewrite Hp2, HfP, R6.
            destruct (is_not_found dv) eqn:En; [apply is_not_found_iff in En; contradiction|reflexivity]. }
          destruct (Hfin Ecc') as [G1 G2]. split; [exact G1|intros _; exact G2].
    - cbn [rbind] in H. rewrite orb_true_r in H. apply rbind_Ok_inv in H as [st3 [H3 H]]. injection H as <- <-.
      unfold use_default in H3. rewrite F3 in H3. apply rbind_Ok_inv in H3 as [[st4 c] [H3 H4]].
      apply rbind_Ok_inv in H3 as [u [Hu H3]]. injection H3 as <- <-. cbn [fst snd] in H4.
      assert (Hst : st3 = st).
      { destruct (snd (path_get P (v_set st))); [|injection H4 as <-; reflexivity].
        apply rbind_Ok_inv in H4 as [e [_ H4]]. apply rbind_Ok_inv in H4 as [u' [_ H4]]. injection H4 as <-. reflexivity. }
      subst st3. split; [reflexivity|]. split; [reflexivity|]. exists sch. split; [reflexivity|].
      assert (G : match path_get P (v_set st) with (Some v, true) => checked_default sch v | _ => check_optional (fst (path_get P schema)) = Ok tt end).
      { destruct (path_get P (v_set st)) as [[v|] [|]] eqn:EP; cbn [fst snd] in H4, Hu.
        - apply rbind_Ok_inv in H4 as [e [He H4]]. apply rbind_Ok_inv in H4 as [u' [Hu' _]]. exists e. split; [exact He|].
          unfold check_entry in Hu'. cbn [or_none] in Hu'. destruct (entry_ok v e); [reflexivity|discriminate].
        - destruct u; exact Hu.
        - exfalso. destruct (path_get_true P (v_set st)) as [v Hv]; [rewrite EP; reflexivity|congruence].
        - destruct u; exact Hu. }
      destruct ov; split; auto.
  Qed.

  (** * The whole pass *)

  Definition pos_ok (x : position) : Prop := pos_path x <> [] /\ ~ In (KS "sweep") (pos_path x).

  Definition sets_mode (x : position) : bool := match x with PLeaf p => last_is "sweep_mode" p | PSweep _ => false end.

  Lemma leaf_last : forall p, p <> [] -> ~ In (KS "sweep") p -> last_is "sweep" p = false.
  Proof.
    intros p Hp Hs. unfold last_is. destruct (nth_error (rev p) 0) as [k|] eqn:E; [|reflexivity]. apply key_eqb_neq.
    intros ->. apply Hs. apply in_rev. eapply nth_error_In; exact E.
  Qed.

  Lemma last_snoc : forall s p k, last_is s (p ++ [k]) = key_eqb k (KS s).
  Proof. intros s p k. unfold last_is. rewrite rev_app_distr. reflexivity. Qed.

  (** What one position does. *)
  Lemma do_pos_frame : forall x st st', pos_ok x -> do_pos x st = Ok st' ->
    (forall q, unrelated (pos_path x) q -> path_get_loop (v_set st') q = path_get_loop (v_set st) q) /\
    (sets_mode x = false -> v_act st' = v_act st).
  Proof.
    intros [p|p] st st' [Hp Hs] H; cbn [pos_path sets_mode do_pos] in *.
    - apply rbind_Ok_inv in H as [[s1 rc] [H1 H2]]. injection H2 as <-. cbn [fst].
      destruct (visit_plain _ _ _ _ _ (leaf_last p Hp Hs) H1) as [E1 [_ [_ [E2 _]]]]. rewrite E1. split; [reflexivity|]. intros E. rewrite E2, E. reflexivity.
    - apply rbind_Ok_inv in H as [[s1 rc] [H1 H2]]. cbn [fst snd] in H2.
      destruct (visit_sweep _ _ _ _ Hp Hs H1) as [E1 [E2 _]]. destruct rc; [|injection H2 as <-; split; auto].
      apply rbind_Ok_inv in H2 as [[s2 r2] [H3 H4]]. cbn [fst] in H4. apply rbind_Ok_inv in H4 as [[s3 r3] [H5 H6]]. injection H6 as <-. cbn [fst].
      apply visit_plain in H3 as [A1 [_ [_ [A2 _]]]]; [|apply last_snoc]. apply visit_plain in H5 as [B1 [_ [_ [B2 _]]]]; [|apply last_snoc].
      rewrite last_snoc in A2, B2. cbn in A2, B2. split; [intros q Hq; rewrite B1, A1; apply E2; exact Hq|]. intros _. congruence.
  Qed.

  Lemma run_frame : forall l st st', (forall x, In x l -> pos_ok x) -> run l st = Ok st' ->
    (forall q, (forall x, In x l -> unrelated (pos_path x) q) -> path_get_loop (v_set st') q = path_get_loop (v_set st) q) /\
    ((forall x, In x l -> sets_mode x = false) -> v_act st' = v_act st).
  Proof.
    induction l as [|x l IH]; intros st st' Hok H; cbn [run] in H; [injection H as <-; split; reflexivity|].
    apply rbind_Ok_inv in H as [s1 [H1 H2]]. destruct (do_pos_frame x st s1 (Hok x (or_introl eq_refl)) H1) as [F1 F2].
    destruct (IH s1 st' (fun y Hy => Hok y (or_intror Hy)) H2) as [G1 G2]. split.
    - intros q Hq. rewrite G1 by (intros y Hy; apply Hq; right; exact Hy). apply F1, Hq. left; reflexivity.
    - intros Hm. rewrite G2 by (intros y Hy; apply Hm; right; exact Hy). apply F2, Hm. left; reflexivity.
  Qed.

  Lemma run_at : forall l st st' x, run l st = Ok st' -> In x l ->
    exists a b s1 s2, l = a ++ x :: b /\ run a st = Ok s1 /\ do_pos x s1 = Ok s2 /\ run b s2 = Ok st'.
  Proof.
    intros l st st' x H Hx. apply in_split in Hx as [a [b ->]]. rewrite run_app in H. apply rbind_Ok_inv in H as [s1 [H1 H2]].
    cbn [run] in H2. apply rbind_Ok_inv in H2 as [s2 [H2 H3]]. exists a, b, s1, s2. auto.
  Qed.

  Lemma apart_split : forall a x b, apart (a ++ x :: b) ->
    (forall y, In y a -> unrelated (pos_path y) (pos_path x)) /\ (forall y, In y b -> unrelated (pos_path y) (pos_path x)).
  Proof.
    induction a as [|z a IH]; intros x b H; cbn in H; inversion H as [|? ? H1 H2]; subst.
    - split; [intros y []|]. intros y Hy. apply unrelated_sym, H1, Hy.
    - destruct (IH x b H2) as [G1 G2]. split; [|exact G2]. intros y [->|Hy]; [|apply G1, Hy]. apply H1, in_or_app. right; left; reflexivity.
  Qed.
End Run.

(** * Specification *)

(** The value found at a path, and its absence (path_get; C05 and C06 relate it to
    the tree). *)
Definition given (s : node) (p : list key) (v : node) : Prop := path_get p s = (Some v, true).
Definition absent (s : node) (p : list key) : Prop := snd (path_get p s) = false.

(** The schema's entry for [p], if it is a dictionary, says that it may be absent. *)
Definition may_be_absent (schema : node) (p : list key) : Prop :=
  forall l, fst (path_get p schema) = Some (Dict l) -> exists b, dget (KS "optional") l = Some b /\ truthy b = true.

(** The value passes the check against the schema's entry for [p]. *)
Definition accepted (schema : node) (entry_ok : node -> node -> bool) (p : list key) (v : node) : Prop :=
  exists e, fst (path_get p schema) = Some e /\ entry_ok v e = true.

(** 'sweep_mode' comes first in the template and nowhere else. *)
Definition mode_first (t : node) : Prop :=
  (exists a l, t = Dict ((KS "sweep_mode", Leaf a) :: l)) /\
  forall q w, reaches t (q ++ [KS "sweep_mode"]) w -> q = [].

Definition swept (settings : node) : bool := truthy_opt (fst (path_get [KS "sweep_mode"] settings)).

Lemma template_shaped : forall t, template t -> shaped t.
Proof. intros t H. split; [apply t_lists|apply t_sweeps]; exact H. Qed.

Lemma no_sweep_in_positions : forall t pre x, ~ In (KS "sweep") pre -> In x (positions pre t) -> ~ In (KS "sweep") (pos_path x).
Proof.
  intros t. induction t as [t IH] using node_items_ind. intros pre x Hpre Hx. rewrite positions_items in Hx.
  apply in_flat_map in Hx as [[k v] [Hin Hx]]. unfold pos_item in Hx. cbn [fst snd] in Hx.
  destruct (key_eqb_spec k (KS "sweep")) as [->|Hk]; [destruct Hx as [<-|[]]; exact Hpre|].
  assert (Hp : ~ In (KS "sweep") (pre ++ [k])) by (intros H; apply in_app_or in H as [H|[H|[]]]; [contradiction|congruence]).
  destruct v as [a|l|l]; [destruct Hx as [<-|[]]; exact Hp| |]; (eapply IH; [exact Hin|exact Hp|exact Hx]).
Qed.

Lemma template_pos_ok : forall t, template t -> forall x, In x (positions [] t) -> pos_ok x.
Proof.
  intros t Ht x Hx. split; [|eapply no_sweep_in_positions; [|exact Hx]; intros []].
  destruct (t_top t Ht) as [l [-> Hl]]. rewrite positions_items in Hx. cbn [items] in Hx.
  apply in_flat_map in Hx as [[k v] [Hin Hx]].
  assert (Hk : k <> KS "sweep") by (intros ->; apply Hl, in_map_iff; exists (KS "sweep", v); auto).
  apply pos_item_below in Hx as [r Hr]; [|exact Hk]. rewrite Hr. discriminate.
Qed.

(** Every position comes from the template. *)
Lemma leaf_reaches : forall t pre x p, In x (positions pre t) -> pos_path x = pre ++ p ->
  match x with PLeaf _ => exists a, reaches t p (Leaf a) | PSweep _ => exists w, reaches t (p ++ [KS "sweep"]) w end.
Proof.
  intros t. induction t as [t IH] using node_items_ind. intros pre x p Hx Ep. rewrite positions_items in Hx.
  apply in_flat_map in Hx as [[k v] [Hin Hx]].
  destruct (key_eqb_spec k (KS "sweep")) as [->|Hk].
  - unfold pos_item in Hx. cbn in Hx. destruct Hx as [<-|[]]. cbn in Ep. assert (p = []) as -> by (apply (app_inv_head pre); rewrite app_nil_r; congruence).
    exists v. apply reaches_items. exists v. split; [exact Hin|constructor].
  - pose proof (pos_item_below _ _ _ _ Hk Hx) as [r Hr]. rewrite Hr, <- app_assoc in Ep. apply app_inv_head in Ep. cbn in Ep. subst p.
    unfold pos_item in Hx. cbn [fst snd] in Hx. rewrite (key_eqb_neq _ _ Hk) in Hx.
    destruct v as [a|l|l].
    + destruct Hx as [<-|[]]. cbn in Hr. assert (r = []) as -> by (apply (app_inv_head (pre ++ [k])); rewrite app_nil_r; congruence).
      exists a. apply reaches_items. exists (Leaf a). split; [exact Hin|constructor].
    + specialize (IH k _ Hin (pre ++ [k]) x r Hx Hr). destruct x; destruct IH as [w Hw]; exists w; apply reaches_items; exists (Dict l); auto.
    + specialize (IH k _ Hin (pre ++ [k]) x r Hx Hr). destruct x; destruct IH as [w Hw]; exists w; apply reaches_items; exists (LList l); auto.
Qed.

Lemma no_key_after_sweep : forall t P w, template t -> reaches t (P ++ [KS "sweep"]) w -> ~ In (KS "sweep") P /\ P <> [].
Proof.
  intros t P w Ht Hr. split.
  - pose proof (t_keys t Ht _ _ Hr) as HN. intros Hin. exact (NoDup_app_r _ P [KS "sweep"] HN (KS "sweep") (or_introl eq_refl) Hin).
  - intros ->. destruct (t_top t Ht) as [l [-> Hl]]. cbn in Hr. apply reaches_items in Hr as [c [Hin _]]. cbn in Hin.
    apply Hl, in_map_iff. exists (KS "sweep", c). auto.
Qed.

(** The state in which a position is visited. *)
Lemma located : forall schema entry_ok t settings st x, template t -> mode_first t ->
  validate_config schema entry_ok t settings = Ok st -> In x (positions [] t) ->
  exists s1 s2, do_pos schema entry_ok x s1 = Ok s2 /\
    (forall q, prefix (pos_path x) q -> path_get q (v_set s1) = path_get q settings) /\
    (forall q, prefix (pos_path x) q -> path_get q (v_set st) = path_get q (v_set s2)) /\
    (sets_mode x = false -> v_act s1 = swept settings).
Proof.
  intros schema entry_ok t settings st x Ht Hm H Hx. unfold validate_config in H.
  rewrite validate_run in H; [|destruct (t_top t Ht) as [l [-> _]]; reflexivity|apply template_shaped; exact Ht|exact (t_keys t Ht)].
  apply rbind_Ok_inv in H as [r [H E]]. injection E as <-. apply rbind_Ok_inv in H as [s [H E]]. injection E as <-. cbn [snd].
  pose proof (template_pos_ok t Ht) as Hok. pose proof (positions_apart t [] (t_wf t Ht) (template_shaped t Ht)) as Hap.
  destruct (run_at _ _ _ _ _ _ H Hx) as [a [b [s1 [s2 [El [Ha [Hd Hb]]]]]]].
  rewrite El in Hap, Hok. destruct (apart_split a x b Hap) as [Ua Ub].
  assert (Hoka : forall y, In y a -> pos_ok y) by (intros y Hy; apply Hok, in_or_app; left; exact Hy).
  assert (Hokb : forall y, In y b -> pos_ok y) by (intros y Hy; apply Hok, in_or_app; right; right; exact Hy).
  destruct (run_frame _ _ _ _ _ Hoka Ha) as [Fa1 Fa2]. destruct (run_frame _ _ _ _ _ Hokb Hb) as [Fb1 _].
  assert (Hne : forall q, prefix (pos_path x) q -> q <> []).
  { intros q [r Hr] ->. destruct (Hok x) as [Hne _]; [apply in_or_app; right; left; reflexivity|]. destruct (pos_path x); [congruence|discriminate]. }
  exists s1, s2. split; [exact Hd|]. split; [|split].
  - intros q Hq. rewrite !path_get_loop_eq by (apply Hne; exact Hq). rewrite Fa1; [reflexivity|]. intros y Hy. eapply unrelated_below; [apply Ua; exact Hy|exact Hq].
  - intros q Hq. rewrite !path_get_loop_eq by (apply Hne; exact Hq). apply Fb1. intros y Hy. eapply unrelated_below; [apply Ub; exact Hy|exact Hq].
  - intros Hs. destruct Hm as [[a0 [l0 ->]] Hm]. rewrite positions_items in El. cbn [items flat_map] in El.
    change (pos_item [] (KS "sweep_mode", Leaf a0)) with [PLeaf [KS "sweep_mode"]] in El. cbn [app] in El.
    destruct a as [|y a]; [cbn in El; injection El as <- _; discriminate|]. cbn in El. injection El as <- El.
    cbn [run] in Ha. apply rbind_Ok_inv in Ha as [s0 [H0 Ha]].
    assert (Hm' : forall y, In y a -> sets_mode y = false).
    { intros y Hy. destruct y as [p|p]; [|reflexivity]. cbn [sets_mode].
      assert (Hyl : In (PLeaf p) (positions [] (Dict ((KS "sweep_mode", Leaf a0) :: l0)))).
      { rewrite positions_items. cbn [items flat_map]. apply in_or_app. right. rewrite El. apply in_or_app. left. exact Hy. }
      destruct (last_is "sweep_mode" p) eqn:E; [|reflexivity]. exfalso.
      assert (Ep : exists q, p = q ++ [KS "sweep_mode"]).
      { destruct (exists_last (proj1 (template_pos_ok _ Ht _ Hyl) : p <> [])) as [q [k Ek]]. rewrite Ek in E |- *. rewrite last_snoc in E. destruct (key_eqb_spec k (KS "sweep_mode")) as [Ekk|]; [|discriminate]. exists q. rewrite Ekk. reflexivity. }
      destruct Ep as [q ->]. destruct (leaf_reaches _ [] _ (q ++ [KS "sweep_mode"]) Hyl eq_refl) as [w Hw]. apply Hm in Hw. subst q.
      cbn in Hap. inversion Hap as [|? ? Hun _]; subst. destruct (Hun (PLeaf [KS "sweep_mode"])) as [Hu _]; [apply in_or_app; left; exact Hy|].
      apply Hu. exists []. reflexivity. }
    destruct (run_frame _ _ _ _ _ (fun y Hy => Hoka y (or_intror Hy)) Ha) as [_ G2]. rewrite G2 by exact Hm'.
    cbn [do_pos] in H0. apply rbind_Ok_inv in H0 as [[s0' rc] [H0 E0]]. injection E0 as <-. cbn [fst].
    apply visit_plain in H0 as [_ [_ [_ [E _]]]]; [|reflexivity]. rewrite E. reflexivity.
Qed.

Lemma check_optional_spec : forall schema p, check_optional (fst (path_get p schema)) = Ok tt -> may_be_absent schema p.
Proof.
  intros schema p H l E. rewrite E in H. cbn in H. destruct (dget (KS "optional") l) as [b|]; [|discriminate].
  exists b. split; [reflexivity|]. destruct (truthy b); [reflexivity|discriminate].
Qed.

Lemma get_after : forall p k s v, p <> [] -> k <> KS "sweep" -> path_get p s = (Some v, true) ->
  path_get (p ++ [k]) s = match get_item v k with Ok x => (Some x, negb (is_not_found x)) | Raise _ => (None, false) end.
Proof.
  intros p k s v Hp Hk H. rewrite path_get_loop_eq in H by exact Hp. rewrite path_get_loop_eq by (destruct p; discriminate). rewrite path_get_loop_app, H. cbn [path_get_loop].
  rewrite (key_eqb_neq _ _ Hk). reflexivity.
Qed.

Lemma checked_default_spec : forall schema entry_ok P sch v, path_get (sw P) schema = (Some sch, true) ->
  checked_default entry_ok sch v -> accepted schema entry_ok (sw P ++ [KS "default"]) v.
Proof.
  intros schema entry_ok P sch v Hs [e [He Hv]]. exists e. split; [|exact Hv].
  rewrite (get_after (sw P) (KS "default") schema sch); [rewrite He; reflexivity|destruct P; discriminate|discriminate|exact Hs].
Qed.

(** C117 *)
Theorem C117_validation_partial : forall schema entry_ok t settings st, template t -> mode_first t ->
  validate_config schema entry_ok t settings = Ok st ->
  (forall p a, reaches t p (Leaf a) -> ~ In (KS "sweep") p ->
     (forall v, given settings p v -> accepted schema entry_ok p v) /\
     (absent settings p -> may_be_absent schema p) /\
     path_get p (v_set st) = path_get p settings) /\
  (forall P w, reaches t (P ++ [KS "sweep"]) w ->
     (absent settings (P ++ [KS "sweep"]) ->
        (forall v, given settings P v -> accepted schema entry_ok (P ++ [KS "sweep"; KS "default"]) v) /\
        (absent settings P -> may_be_absent schema P) /\
        path_get P (v_set st) = path_get P settings) /\
     (forall v, given settings (P ++ [KS "sweep"]) v ->
        (exists par b, fst (path_get P schema) = Some par /\ get_item par (KS "sweepable") = Ok b /\ truthy b = true) /\
        exists d dv, v = Dict d /\ dget (KS "default") d = Some dv /\
          (forall rv, dget (KS "range") d = Some rv ->
             (swept settings = true ->
                (dv <> not_found -> accepted schema entry_ok (P ++ [KS "sweep"; KS "default"]) dv) /\
                (rv <> not_found -> accepted schema entry_ok (P ++ [KS "sweep"; KS "range"]) rv) /\
                given (v_set st) (P ++ [KS "sweep"]) v) /\
             (swept settings = false -> dv <> not_found ->
                accepted schema entry_ok (P ++ [KS "sweep"; KS "default"]) dv /\ given (v_set st) P dv)) /\
          (dget (KS "range") d = None -> plain_value dv ->
             given (v_set st) P dv /\
             (swept settings = false -> accepted schema entry_ok (P ++ [KS "sweep"; KS "default"]) dv)))).
Proof.
  intros schema entry_ok t settings st Ht Hm H. pose proof (template_shaped t Ht) as Hsh. split.
  - intros p a Hr Hs.
    assert (Hp : p <> []) by (intros ->; destruct (t_top t Ht) as [l [-> _]]; inversion Hr).
    pose proof (leaf_position t [] p a Hsh Hr Hp Hs) as Hx. cbn [app] in Hx.
    destruct (located _ _ _ _ _ _ Ht Hm H Hx) as [s1 [s2 [Hd [Q1 [Q2 _]]]]]. cbn [pos_path] in Q1, Q2.
    assert (Hpp : prefix p p) by (exists []; rewrite app_nil_r; reflexivity).
    cbn [do_pos] in Hd. apply rbind_Ok_inv in Hd as [[s2' rc] [Hd E]]. injection E as <-. cbn [fst] in Q2.
    destruct (visit_plain _ _ _ _ _ _ _ (leaf_last p Hp Hs) Hd) as [V1 [_ [_ [_ [sch [Esch [Vo Ve]]]]]]].
    rewrite Q1 in Vo, Ve by exact Hpp. split; [|split].
    + intros v Hv. exists sch. rewrite Esch. split; [reflexivity|]. apply Ve; [reflexivity|exact Hv].
    + intros Ha. apply check_optional_spec. rewrite Esch. apply Vo; [exact Hs|exact Ha].
    + rewrite Q2 by exact Hpp. rewrite V1. apply Q1. exact Hpp.
  - intros P w Hr. destruct (no_key_after_sweep t P w Ht Hr) as [Hs HP].
    pose proof (sweep_position t [] P w Hsh Hr Hs) as Hx. cbn [app] in Hx.
    destruct (located _ _ _ _ _ _ Ht Hm H Hx) as [s1 [s2 [Hd [Q1 [Q2 Q3]]]]]. cbn [pos_path] in Q1, Q2. specialize (Q3 eq_refl).
    assert (HPP : prefix P P) by (exists []; rewrite app_nil_r; reflexivity).
    assert (HPs : forall r, prefix P (P ++ r)) by (intros r; exists r; reflexivity).
    cbn [do_pos] in Hd. apply rbind_Ok_inv in Hd as [[s3 rc] [Hd1 Hd2]]. cbn [fst snd] in Hd2.
    destruct (visit_sweep _ _ _ _ _ _ HP Hs Hd1) as [_ [_ [sch [Esch V]]]]. fold (sw P).
    replace (P ++ [KS "sweep"; KS "default"]) with (sw P ++ [KS "default"]) by (unfold sw; rewrite <- app_assoc; reflexivity).
    replace (P ++ [KS "sweep"; KS "range"]) with (sw P ++ [KS "range"]) by (unfold sw; rewrite <- app_assoc; reflexivity).
    rewrite (Q1 (sw P) (HPs _)) in V. split.
    + intros Ha. unfold absent in Ha.
      assert (V' : rc = false /\ s3 = s1 /\ match path_get P (v_set s1) with
        | (Some v, true) => checked_default entry_ok sch v | _ => check_optional (fst (path_get P schema)) = Ok tt end).
      { destruct (path_get (sw P) settings) as [[v|] [|]]; cbn in Ha; [discriminate|exact V|discriminate|exact V]. }
      destruct V' as [-> [-> V']]. cbn in Hd2. injection Hd2 as <-. rewrite Q1 in V' by exact HPP. split; [|split].
      * intros v Hv. rewrite Hv in V'. eapply checked_default_spec; eassumption.
      * intros Hab. apply check_optional_spec. unfold absent in Hab. destruct (path_get P settings) as [[v|] [|]]; cbn in Hab; [discriminate|exact V'|discriminate|exact V'].
      * rewrite Q2 by exact HPP. apply Q1. exact HPP.
    + intros v Hv. rewrite Hv in V. destruct V as [-> [Hsw [d [dv [-> [Hdv [_ Hcase]]]]]]]. split; [exact Hsw|].
      exists d, dv. split; [reflexivity|]. split; [exact Hdv|].
      apply rbind_Ok_inv in Hd2 as [[s4 r4] [Hv1 Hd2]]. cbn [fst] in Hd2. apply rbind_Ok_inv in Hd2 as [[s5 r5] [Hv2 Hd2]]. injection Hd2 as <-. cbn [fst] in Q2.
      apply visit_plain in Hv1 as [W1 [_ [_ [_ [sd [Esd [_ Wd]]]]]]]; [|apply last_snoc].
      apply visit_plain in Hv2 as [W2 [_ [_ [_ [sr [Esr [_ Wr]]]]]]]; [|apply last_snoc].
      assert (Hset : v_set s5 = v_set s3) by congruence. unfold has_key in Hcase. rewrite Q3 in Hcase. split.
      * intros rv Hrv. rewrite Hrv in Hcase. split.
        -- intros Hact. rewrite Hact in Hcase.
           assert (Hsame : forall q, prefix P q -> path_get q (v_set s3) = path_get q settings) by (intros q Hq; rewrite Hcase; apply Q1; exact Hq).
           assert (Hget : forall k x, dget (KS k) d = Some x -> k <> "sweep" -> x <> not_found -> path_get (sw P ++ [KS k]) (v_set s3) = (Some x, true)).
           { intros k x Hk Hks Hnf. rewrite Hsame by (unfold sw; rewrite <- app_assoc; apply HPs).
             rewrite (get_after (sw P) (KS k) settings (Dict d)); [|destruct P; discriminate|congruence|exact Hv].
             unfold get_item. rewrite Hk. destruct (is_not_found x) eqn:En; [apply is_not_found_iff in En; contradiction|reflexivity]. }
           split; [|split].
           ++ intros Hnf. exists sd. rewrite Esd. split; [reflexivity|]. apply Wd; [reflexivity|]. apply Hget; [exact Hdv|discriminate|exact Hnf].
           ++ intros Hnf. exists sr. rewrite Esr. split; [reflexivity|]. apply Wr; [reflexivity|]. rewrite W1. apply Hget; [exact Hrv|discriminate|exact Hnf].
           ++ unfold given. rewrite Q2, Hset, Hsame by apply HPs. exact Hv.
        -- intros Hact Hnf. rewrite Hact in Hcase. destruct (Hcase Hnf) as [C1 C2]. split; [eapply checked_default_spec; eassumption|].
           unfold given. rewrite Q2, Hset by exact HPP. exact C1.
      * intros Hrv Hpl. rewrite Hrv in Hcase. destruct (Hcase Hpl) as [C1 C2]. split; [unfold given; rewrite Q2, Hset by exact HPP; exact C1|].
        intros Hact. eapply checked_default_spec; [exact Esch|]. apply C2. exact Hact.
Qed.
Print Assumptions C117_validation_partial.

(** * Deciding the shape *)

Definition memk (k : key) (l : list key) : bool := existsb (key_eqb k) l.
Lemma memk_iff : forall k l, memk k l = true <-> In k l.
Proof.
  intros k l. unfold memk. rewrite existsb_exists. split.
  - intros [x [Hx E]]. destruct (key_eqb_spec k x) as [->|]; [exact Hx|discriminate].
  - intros H. exists k. split; [exact H|]. destruct (key_eqb_spec k k); [reflexivity|congruence].
Qed.
Fixpoint nodupk (l : list key) : bool := match l with [] => true | k :: r => negb (memk k r) && nodupk r end.
Lemma nodupk_sound : forall l, nodupk l = true -> NoDup l.
Proof.
  induction l as [|k l IH]; intros H; [constructor|]. cbn in H. apply andb_prop in H as [H1 H2]. constructor; [|apply IH; exact H2].
  intros Hin. apply memk_iff in Hin. rewrite Hin in H1. discriminate.
Qed.

Definition local_ok (t : node) : bool :=
  match t with
  | Leaf _ => true
  | Dict l => nodupk (map fst l) &&
      (negb (memk (KS "sweep") (map fst l)) ||
       match l with
       | [(_, Dict [(KS a, Leaf _); (KS b, Leaf _)])] => String.eqb a "default" && String.eqb b "range"
       | _ => false
       end)
  | LList l => forallb is_container l
  end.
Fixpoint shape_ok (seen : list key) (t : node) : bool :=
  local_ok t &&
  match t with
  | Leaf _ => true
  | Dict l => (fix go (l : list (key * node)) := match l with [] => true | (k, v) :: l' => negb (memk k seen) && shape_ok (k :: seen) v && go l' end) l
  | LList l => (fix go (i : nat) (l : list node) := match l with [] => true | v :: l' => negb (memk (KI i) seen) && shape_ok (KI i :: seen) v && go (S i) l' end) 0 l
  end.
Lemma shape_ok_items : forall seen t, shape_ok seen t =
  local_ok t && forallb (fun kv => negb (memk (fst kv) seen) && shape_ok (fst kv :: seen) (snd kv)) (items t).
Proof.
  intros seen [a|l|l]; cbn [shape_ok items]; [reflexivity| |]; f_equal.
  - induction l as [|[k v] l IH]; [reflexivity|]. cbn [forallb fst snd]. rewrite <- IH. reflexivity.
  - match goal with |- ?f 0 l = _ => set (go := f) end. generalize 0 as i. induction l as [|v l IH]; intros i; [reflexivity|].
    cbn [List.length seq map combine forallb fst snd]. rewrite <- IH. reflexivity.
Qed.

Lemma shape_ok_sound : forall t seen, shape_ok seen t = true ->
  wf t /\ shaped t /\ (forall p w, reaches t p w -> NoDup p /\ forall k, In k p -> ~ In k seen).
Proof.
  intros t. induction t as [t IH] using node_items_ind. intros seen H. rewrite shape_ok_items in H. apply andb_prop in H as [HL HF].
  rewrite forallb_forall in HF.
  assert (HI : forall k v, In (k, v) (items t) -> ~ In k seen /\ wf v /\ shaped v /\
    (forall p w, reaches v p w -> NoDup p /\ forall k', In k' p -> ~ In k' (k :: seen))).
  { intros k v Hin. specialize (HF _ Hin). cbn [fst snd] in HF. apply andb_prop in HF as [H1 H2]. split.
    - intros Hi. apply memk_iff in Hi. rewrite Hi in H1. discriminate.
    - apply (IH k v Hin). exact H2. }
  split; [|split].
  - destruct t as [a|l|l]; cbn [local_ok items] in *; [constructor| |].
    + apply andb_prop in HL as [HL _]. constructor; [apply nodupk_sound; exact HL|]. intros k c Hc. apply (HI k c Hc).
    + constructor. intros c Hc. apply In_nth_error in Hc as [n Hn]. apply (HI (KI n) c). apply combine_seq_In. exists n. auto.
  - split.
    + intros p l c Hr Hc. destruct p as [|k p].
      * inversion Hr; subst. cbn in HL. rewrite forallb_forall in HL. apply HL. exact Hc.
      * apply reaches_items in Hr as [v [Hin Hr]]. destruct (HI k v Hin) as [_ [_ [[S1 _] _]]]. eapply S1; eassumption.
    + intros p l v Hr Hin. destruct p as [|k p].
      * inversion Hr; subst. cbn in HL. apply andb_prop in HL as [_ HL].
        assert (Hm : memk (KS "sweep") (map fst l) = true) by (apply memk_iff, in_map_iff; exists (KS "sweep", v); auto).
        rewrite Hm in HL. cbn [negb orb] in HL. destruct l as [|[k0 w] [|? ?]]; try discriminate; [|destruct w as [|[|[[?|?] [?|?|?]] [|[[?|?] [?|?|?]] [|? ?]]]|]; discriminate].
        destruct Hin as [E|[]]. injection E as -> ->. split; [reflexivity|].
        destruct v as [|[|[[a|?] [x|?|?]] [|[[b|?] [y|?|?]] [|? ?]]]|]; try discriminate.
        apply andb_prop in HL as [E1 E2]. apply String.eqb_eq in E1, E2. subst. exists x, y. reflexivity.
      * apply reaches_items in Hr as [c [Hc Hr]]. destruct (HI k c Hc) as [_ [_ [[_ S2] _]]]. eapply S2; eassumption.
  - intros p w Hr. destruct p as [|k p]; [split; [constructor|intros k []]|].
    apply reaches_items in Hr as [c [Hc Hr]]. destruct (HI k c Hc) as [Hk [_ [_ HN]]]. destruct (HN p w Hr) as [N1 N2]. split.
    + constructor; [|exact N1]. intros Hin. apply (N2 k Hin). left; reflexivity.
    + intros k' [<-|Hin]; [exact Hk|]. intros Hs. apply (N2 k' Hin). right; exact Hs.
Qed.

Lemma shape_ok_template : forall l, shape_ok [] (Dict l) = true -> memk (KS "sweep") (map fst l) = false -> template (Dict l).
Proof.
  intros l H Hs. destruct (shape_ok_sound _ _ H) as [H1 [[H2 H3] H4]]. constructor; [exact H1| | |exact H2|exact H3].
  - intros p w Hr. apply (H4 p w Hr).
  - exists l. split; [reflexivity|]. intros Hin. apply memk_iff in Hin. congruence.
Qed.

(** Keys below the top that are called 'sweep_mode'. *)
Fixpoint mentions (k : key) (t : node) : bool :=
  match t with
  | Leaf _ => false
  | Dict l => (fix go (l : list (key * node)) := match l with [] => false | (k', v) :: l' => key_eqb k k' || mentions k v || go l' end) l
  | LList l => (fix go (i : nat) (l : list node) := match l with [] => false | v :: l' => key_eqb k (KI i) || mentions k v || go (S i) l' end) 0 l
  end.
Lemma mentions_items : forall k t, mentions k t = existsb (fun kv => key_eqb k (fst kv) || mentions k (snd kv)) (items t).
Proof.
  intros k [a|l|l]; cbn [mentions items]; [reflexivity| |].
  - induction l as [|[k' v] l IH]; [reflexivity|]. cbn [existsb fst snd]. rewrite <- IH. reflexivity.
  - match goal with |- ?f 0 l = _ => set (go := f) end. generalize 0 as i. induction l as [|v l IH]; intros i; [reflexivity|].
    cbn [List.length seq map combine existsb fst snd]. rewrite <- IH. reflexivity.
Qed.
Lemma mentions_reaches : forall t k p w, reaches t p w -> In k p -> mentions k t = true.
Proof.
  intros t. induction t as [t IH] using node_items_ind. intros k p w Hr Hin. destruct p as [|k' p]; [destruct Hin|].
  apply reaches_items in Hr as [c [Hc Hr]]. rewrite mentions_items. apply existsb_exists. exists (k', c). split; [exact Hc|]. cbn [fst snd].
  destruct Hin as [->|Hin]; [destruct (key_eqb_spec k k); [reflexivity|congruence]|]. rewrite (IH k' c Hc k p w Hr Hin). apply orb_true_r.
Qed.

Lemma mode_first_check : forall a l, existsb (fun kv => mentions (KS "sweep_mode") (snd kv)) l = false ->
  mode_first (Dict ((KS "sweep_mode", Leaf a) :: l)).
Proof.
  intros a l H. split; [exists a, l; reflexivity|]. intros q w Hr. destruct q as [|k q]; [reflexivity|exfalso].
  cbn in Hr. apply reaches_items in Hr as [c [[E|Hc] Hr]].
  - injection E as <- <-. destruct q; inversion Hr.
  - assert (Hm : mentions (KS "sweep_mode") c = true) by (eapply mentions_reaches; [exact Hr|apply in_or_app; right; left; reflexivity]).
    assert (existsb (fun kv => mentions (KS "sweep_mode") (snd kv)) l = true) by (apply existsb_exists; exists (k, c); auto). congruence.
Qed.

(** * Examples *)

Definition yes : node := Leaf (LBool true).
Definition txt (s : string) : node := Leaf (LStr s).
Definition num (z : Z) : node := Leaf (LNum z).
Definition ex_sweep : node := Dict [(KS "sweep", Dict [(KS "default", yes); (KS "range", yes)])].
Definition ex_sweep_schema : node :=
  Dict [(KS "sweepable", yes); (KS "optional", yes); (KS "sweep", Dict [(KS "default", txt "int"); (KS "range", txt "list")])].

(** sweep_mode, a number, a number that can be swept, a list of files that can be
    swept (as margins and cells_subset in cfg_parameters.json). *)
Definition ex_template : node :=
  Dict [(KS "sweep_mode", yes); (KS "n_workers", yes); (KS "seed", ex_sweep); (KS "dim", ex_sweep);
        (KS "margins", LList [Dict [(KS "file", ex_sweep)]]); (KS "cells", LList [Dict [(KS "file", ex_sweep)]])].
Definition ex_schema : node :=
  Dict [(KS "sweep_mode", txt "bool"); (KS "n_workers", txt "int"); (KS "seed", ex_sweep_schema); (KS "dim", ex_sweep_schema);
        (KS "margins", LList [Dict [(KS "file", ex_sweep_schema)]]); (KS "cells", LList [Dict [(KS "file", ex_sweep_schema)]])].
Definition ex_entry_ok (v e : node) : bool :=
  match e, v with
  | Leaf (LStr s), Leaf (LNum _) => String.eqb s "int"
  | Leaf (LStr s), Leaf (LBool _) => String.eqb s "bool"
  | Leaf (LStr s), LList _ => String.eqb s "list"
  | _, _ => false
  end.
Definition ex_swept (d : Z) (r : list Z) : node :=
  Dict [(KS "sweep", Dict [(KS "default", num d); (KS "range", LList (map num r))])].
Definition ex_settings (mode : bool) : node :=
  Dict [(KS "sweep_mode", Leaf (LBool mode)); (KS "n_workers", num 4); (KS "seed", ex_swept 1 [1; 2; 3]%Z); (KS "dim", num 10)].

Example C117_nonvacuous :
  template ex_template /\ mode_first ex_template /\
  (exists st, validate_config ex_schema ex_entry_ok ex_template (ex_settings true) = Ok st /\ v_set st = ex_settings true) /\
  (exists st, validate_config ex_schema ex_entry_ok ex_template (ex_settings false) = Ok st /\
     path_get [KS "seed"] (v_set st) = (Some (num 1), true)) /\
  validate_config ex_schema ex_entry_ok ex_template
    (Dict [(KS "sweep_mode", yes); (KS "n_workers", txt "four")]) = Raise EExn.
Proof.
  split; [apply shape_ok_template; vm_compute; reflexivity|]. split; [apply mode_first_check; vm_compute; reflexivity|].
  split; [eexists; split; vm_compute; reflexivity|]. split; [eexists; split; vm_compute; reflexivity|]. vm_compute. reflexivity.
Qed.

(** While sweeping, the default of a sweep without range is used and never checked:
    whatever it is (plain), the configuration passes. *)
Definition ex_no_range (v : node) : node :=
  Dict [(KS "sweep_mode", yes); (KS "n_workers", num 4); (KS "seed", Dict [(KS "sweep", Dict [(KS "default", v)])])].
Theorem C117_default_refuted :
  template ex_template /\ mode_first ex_template /\
  exists st, validate_config ex_schema ex_entry_ok ex_template (ex_no_range (txt "many")) = Ok st /\
    given (v_set st) [KS "seed"] (txt "many") /\
    ~ accepted ex_schema ex_entry_ok [KS "seed"; KS "sweep"; KS "default"] (txt "many").
Proof.
  split; [apply C117_nonvacuous|]. split; [apply C117_nonvacuous|]. eexists. split; [vm_compute; reflexivity|]. split; [vm_compute; reflexivity|].
  intros [e [E H]]. vm_compute in E. injection E as <-. vm_compute in H. discriminate.
Qed.
Print Assumptions C117_default_refuted.

(** Settings that the template does not list are not checked at all: any value
    passes under an unknown key, and in the second entry of a list. *)
Definition ex_unlisted (v : node) : node :=
  Dict [(KS "sweep_mode", yes); (KS "n_workers", num 4); (KS "n_wrokers", v);
        (KS "margins", LList [Dict [(KS "file", num 3)]; Dict [(KS "file", v)]])].
Theorem C117_unlisted_refuted : template ex_template /\ mode_first ex_template /\
  forall v, exists st, validate_config ex_schema ex_entry_ok ex_template (ex_unlisted v) = Ok st /\ v_set st = ex_unlisted v.
Proof.
  split; [apply C117_nonvacuous|]. split; [apply C117_nonvacuous|]. intros v. eexists. split; vm_compute; reflexivity.
Qed.
Print Assumptions C117_unlisted_refuted.

(** A sweep inside a list entry passes while sweeping, but with sweeping switched
    off the same configuration is refused, because its default cannot be written
    through the list. *)
Definition ex_in_list (mode : bool) : node :=
  Dict [(KS "sweep_mode", Leaf (LBool mode)); (KS "n_workers", num 4); (KS "margins", LList [Dict [(KS "file", ex_swept 1 [1; 2]%Z)]])].
Theorem C117_list_sweep_refuted : template ex_template /\ mode_first ex_template /\
  is_ok (validate_config ex_schema ex_entry_ok ex_template (ex_in_list true)) = true /\
  is_ok (validate_config ex_schema ex_entry_ok ex_template (ex_in_list false)) = false.
Proof.
  split; [apply C117_nonvacuous|]. split; [apply C117_nonvacuous|]. split; vm_compute; reflexivity.
Qed.
Print Assumptions C117_list_sweep_refuted.

(** * C118 *)

Lemma kget_kset_same : forall A k (v : A) l, kget k (kset k v l) = Some v.
Proof.
  induction l as [|[k' v'] l IH]; cbn [kset kget]; [destruct (key_eqb_spec k k); [reflexivity|congruence]|].
  destruct (key_eqb_spec k k') as [<-|Hne]; cbn [kget]; [destruct (key_eqb_spec k k); [reflexivity|congruence]|]. rewrite (key_eqb_neq _ _ Hne). exact IH.
Qed.
Lemma kget_kset_other : forall A k k2 (v : A) l, k2 <> k -> kget k2 (kset k v l) = kget k2 l.
Proof.
  induction l as [|[k' v'] l IH]; intros H; cbn [kset kget]; [rewrite (key_eqb_neq _ _ H); reflexivity|].
  destruct (key_eqb_spec k k') as [<-|Hne]; cbn [kget]; [rewrite (key_eqb_neq _ _ H); reflexivity|]. rewrite (IH H). reflexivity.
Qed.

(** The name under which a sweep is listed: the last key, or the key above 'file'. *)
Definition sweep_name (P : list key) (n : key) : Prop :=
  exists Q, (P = Q ++ [n] /\ n <> KS "file") \/ P = Q ++ [n; KS "file"].

Definition coupled (d : list (key * node)) : bool := match dget (KS "coupled") d with Some b => truthy b | None => false end.

(** The template has a sweep at [P] that the settings configure with [d]. *)
Definition configured (t settings : node) (P : list key) (d : list (key * node)) : Prop :=
  (exists w, reaches t (P ++ [KS "sweep"]) w) /\ given settings (P ++ [KS "sweep"]) (Dict d).

(** An independent sweep at [P], called [n]. *)
Definition own_sweep (t settings : node) (P : list key) (n : key) : Prop :=
  exists d, configured t settings P d /\ coupled d = false /\ dget (KS "range") d <> None /\ sweep_name P n.

(** A sweep at [P] coupled to the sweep called [tk]. *)
Definition coupled_sweep (t settings : node) (P : list key) (tk n : key) : Prop :=
  exists d tn Q, configured t settings P d /\ coupled d = true /\ dget (KS "target_name") d = Some tn /\ as_key tn = Some tk /\ P = Q ++ [n].

Lemma sweep_name_unique : forall P n n', sweep_name P n -> sweep_name P n' -> n = n'.
Proof.
  assert (G : forall P n n' Q Q', P = Q ++ [n; KS "file"] -> P = Q' ++ [n'] -> n' = KS "file").
  { intros P n n' Q Q' -> E. replace (Q ++ [n; KS "file"]) with ((Q ++ [n]) ++ [KS "file"]) in E by (rewrite <- app_assoc; reflexivity).
    apply app_inj_tail in E as [_ E]. congruence. }
  intros P n n' [Q [[E H]|E]] [Q' [[E' H']|E']].
  - rewrite E in E'. apply app_inj_tail in E' as [_ ->]. reflexivity.
  - exfalso. apply H. eapply G; eassumption.
  - exfalso. apply H'. eapply G; eassumption.
  - rewrite E in E'. replace (Q ++ [n; KS "file"]) with ((Q ++ [n]) ++ [KS "file"]) in E' by (rewrite <- app_assoc; reflexivity).
    replace (Q' ++ [n'; KS "file"]) with ((Q' ++ [n']) ++ [KS "file"]) in E' by (rewrite <- app_assoc; reflexivity).
    apply app_inj_tail in E' as [E' _]. apply app_inj_tail in E' as [_ ->]. reflexivity.
Qed.

Lemma from_end_sw : forall Q k, from_end 1 (sw (Q ++ [k])) = Ok k.
Proof. intros Q k. unfold from_end, sw. rewrite !rev_app_distr. reflexivity. Qed.
Lemma from_end_sw2 : forall Q k k', from_end 2 (sw (Q ++ [k; k'])) = Ok k.
Proof. intros Q k k'. unfold from_end, sw. rewrite !rev_app_distr. reflexivity. Qed.

(** What recording does. *)
Lemma record_effect : forall P d st st', P <> [] -> record_sweep (sw P) d (has_key "range" d) st = Ok st' ->
  if coupled d then
    v_iso st' = v_iso st /\
    exists tn tk Q n m, dget (KS "target_name") d = Some tn /\ as_key tn = Some tk /\ P = Q ++ [n] /\
      v_cou st' = kset tk (kset n P m) (v_cou st) /\
      (kget tk (v_cou st) = Some m \/ kget tk (v_cou st) = None /\ exists q, m = [(tk, q)])
  else
    v_cou st' = v_cou st /\
    if has_key "range" d then exists n, sweep_name P n /\ v_iso st' = kset n P (v_iso st) else v_iso st' = v_iso st.
Proof.
  intros P d st st' HP H. unfold record_sweep in H. fold (coupled d) in H. destruct (sw_facts P) as [_ [_ [EP _]]]. rewrite EP in H.
  destruct (exists_last HP) as [Q [k E]].
  destruct (coupled d) eqn:Ec.
  - destruct (dget (KS "target_name") d) as [tn|]; [|discriminate]. destruct (as_key tn) as [tk|] eqn:Et; [|discriminate].
    destruct (path_exists tk (v_set st) false); [|discriminate]. apply rbind_Ok_inv in H as [name [En H]].
    rewrite E, from_end_sw in En. injection En as <-.
    destruct (kget tk (v_cou st)) as [m|] eqn:Em.
    + injection H as <-. split; [reflexivity|]. exists tn, tk, Q, k, m. cbn. rewrite <- E. auto 10.
    + assert (G : forall q, st' = with_cou (kset tk (kset k P [(tk, q)]) (v_cou st)) st -> v_iso st' = v_iso st /\
        exists tn0 tk0 Q0 n m, Some tn = Some tn0 /\ as_key tn0 = Some tk0 /\ P = Q0 ++ [n] /\ v_cou st' = kset tk0 (kset n P m) (v_cou st) /\
          (kget tk0 (v_cou st) = Some m \/ kget tk0 (v_cou st) = None /\ exists q, m = [(tk0, q)])).
      { intros q ->. split; [reflexivity|]. exists tn, tk, Q, k, [(tk, q)]. cbn. rewrite <- E. repeat split; auto. right. split; [exact Em|]. exists q. reflexivity. }
      destruct (kget tk (v_iso st)) as [q|]; [injection H as <-; eapply G; reflexivity|].
      destruct (path_find tk (v_set st)) as [|q qs]; [discriminate|]. injection H as <-. eapply G; reflexivity.
  - destruct (has_key "range" d); [|injection H as <-; split; reflexivity].
    apply rbind_Ok_inv in H as [a [Ea H]]. rewrite E, from_end_sw in Ea. injection Ea as <-.
    apply rbind_Ok_inv in H as [name [En H]]. injection H as <-. split; [reflexivity|]. exists name. split; [|reflexivity].
    destruct (key_eqb_spec k (KS "file")) as [->|Hk].
    + destruct Q as [|x Q0]; [exfalso; rewrite E in En; discriminate|]. destruct (exists_last (l := x :: Q0) ltac:(discriminate)) as [Q1 [k1 E1]]. rewrite E, E1, <- app_assoc in En. cbn [app] in En.
      rewrite from_end_sw2 in En. injection En as <-. exists Q1. right. rewrite E, E1, <- app_assoc. reflexivity.
    + injection En as <-. exists Q. left. auto.
Qed.

(** One position and the recorded sweeps. *)
Lemma do_pos_record : forall schema entry_ok x st st', pos_ok x -> do_pos schema entry_ok x st = Ok st' ->
  match x with
  | PLeaf _ => v_iso st' = v_iso st /\ v_cou st' = v_cou st
  | PSweep P =>
    match path_get (sw P) (v_set st) with
    | (Some (Dict d), true) => exists s0 s1, record_sweep (sw P) d (has_key "range" d) s0 = Ok s1 /\
        v_iso s0 = v_iso st /\ v_cou s0 = v_cou st /\ v_iso st' = v_iso s1 /\ v_cou st' = v_cou s1
    | (_, true) => False
    | _ => v_iso st' = v_iso st /\ v_cou st' = v_cou st
    end
  end.
Proof.
  intros schema entry_ok [p|P] st st' [Hp Hs] H; cbn [pos_path do_pos] in *.
  - apply rbind_Ok_inv in H as [[s1 rc] [H1 H2]]. injection H2 as <-. cbn [fst].
    destruct (visit_plain _ _ _ _ _ _ _ (leaf_last p Hp Hs) H1) as [_ [E1 [E2 _]]]. auto.
  - apply rbind_Ok_inv in H as [[s1 rc] [H1 H2]]. cbn [fst snd] in H2.
    destruct (visit_sweep _ _ _ _ _ _ Hp Hs H1) as [_ [_ [sch [_ V]]]].
    destruct (path_get (sw P) (v_set st)) as [[v|] [|]] eqn:Eg.
    + destruct V as [-> [_ [d [dv [-> [_ [[s0 [s2 [R1 [R2 [R3 [R4 R5]]]]]] _]]]]]]].
      apply rbind_Ok_inv in H2 as [[s3 r3] [H3 H4]]. cbn [fst] in H4. apply rbind_Ok_inv in H4 as [[s4 r4] [H5 H6]]. injection H6 as <-. cbn [fst].
      apply visit_plain in H3 as [_ [A1 [A2 _]]]; [|apply last_snoc]. apply visit_plain in H5 as [_ [B1 [B2 _]]]; [|apply last_snoc].
      exists s0, s2. repeat split; congruence.
    + destruct V as [-> [-> _]]. injection H2 as <-. destruct v; auto.
    + exfalso. destruct (path_get_true (sw P) (v_set st)) as [v Hv]; [rewrite Eg; reflexivity|congruence].
    + destruct V as [-> [-> _]]. injection H2 as <-. auto.
Qed.

(** An invariant kept by every sweep position of the template holds in the end. *)
Section Sweeps.
  Variable schema : node.
  Variable entry_ok : node -> node -> bool.
  Variables t settings : node.
  Hypothesis Ht : template t.
  Variable I : list position -> list (key * list key) -> list (key * list (key * list key)) -> Prop.
  Hypothesis Istart : I [] [] [].
  Hypothesis Iskip : forall l x iso cou, I l iso cou -> (forall P d, x = PSweep P -> ~ given settings (sw P) (Dict d)) -> I (l ++ [x]) iso cou.
  Hypothesis Istep : forall l P d s0 s1, I l (v_iso s0) (v_cou s0) -> configured t settings P d -> P <> [] ->
    (forall y, In y l -> unrelated (pos_path y) P) ->
    record_sweep (sw P) d (has_key "range" d) s0 = Ok s1 -> I (l ++ [PSweep P]) (v_iso s1) (v_cou s1).

  Lemma sweeps_inv : forall st, validate_config schema entry_ok t settings = Ok st -> I (positions [] t) (v_iso st) (v_cou st).
  Proof.
    intros st H. unfold validate_config in H.
    rewrite validate_run in H; [|destruct (t_top t Ht) as [l [-> _]]; reflexivity|apply template_shaped; exact Ht|exact (t_keys t Ht)].
    apply rbind_Ok_inv in H as [r [H E]]. injection E as <-. apply rbind_Ok_inv in H as [s [H E]]. injection E as <-. cbn [snd].
    assert (G : forall b a s0, (forall x, In x (a ++ b) -> pos_ok x) -> apart (a ++ b) -> (forall x, In x (a ++ b) -> In x (positions [] t)) ->
      (forall x, In x b -> forall q, prefix (pos_path x) q -> path_get q (v_set s0) = path_get q settings) ->
      I a (v_iso s0) (v_cou s0) -> run schema entry_ok b s0 = Ok s -> I (a ++ b) (v_iso s) (v_cou s)).
    { clear H. induction b as [|x b IH]; intros a s0 Hok Hap Hpos Hsame HI H; cbn [run] in H; [injection H as <-; rewrite app_nil_r; exact HI|].
      apply rbind_Ok_inv in H as [s1 [H1 H2]]. destruct (apart_split a x b Hap) as [Ua Ub].
      assert (Hokx : pos_ok x) by (apply Hok, in_or_app; right; left; reflexivity).
      replace (a ++ x :: b) with ((a ++ [x]) ++ b) in * by (rewrite <- app_assoc; reflexivity).
      destruct (do_pos_frame _ _ _ _ _ Hokx H1) as [F1 _].
      apply (IH (a ++ [x]) s1 Hok Hap Hpos).
      - intros y Hy q Hq. rewrite <- (Hsame y (or_intror Hy) q Hq).
        assert (Hne : q <> []).
        { intros ->. destruct Hq as [r Hr]. destruct (Hok y) as [Hny _]; [apply in_or_app; right; exact Hy|]. destruct (pos_path y); [congruence|discriminate]. }
        rewrite !path_get_loop_eq by exact Hne. apply F1. eapply unrelated_below; [|exact Hq]. apply unrelated_sym, Ub, Hy.
      - pose proof (do_pos_record _ _ _ _ _ Hokx H1) as HR. destruct x as [p|P].
        + destruct HR as [-> ->]. apply Iskip; [exact HI|]. intros P d E; discriminate.
        + rewrite (Hsame (PSweep P) (or_introl eq_refl)) in HR by (cbn; exists [KS "sweep"]; reflexivity).
          destruct (path_get (sw P) settings) as [[[?|d|?]|] [|]] eqn:Eg; try (destruct HR as [-> ->]; apply Iskip; [exact HI|]; intros P' d' E; injection E as <-; unfold given; rewrite Eg; congruence); try contradiction.
          destruct HR as [r0 [r1 [R [E1 [E2 [-> ->]]]]]]. apply (Istep a P d r0 r1); [rewrite E1, E2; exact HI| |apply Hokx|exact Ua|exact R].
          split; [|exact Eg]. apply (leaf_reaches t [] (PSweep P) P); [|reflexivity]. apply Hpos, in_or_app. left. apply in_or_app. right; left; reflexivity.
      - exact H2. }
    pose proof (template_pos_ok t Ht) as Hok. pose proof (positions_apart t [] (t_wf t Ht) (template_shaped t Ht)) as Hap.
    apply (G (positions [] t) [] (VST settings false [] [])); auto.
  Qed.
End Sweeps.

Definition sweeps_so_far (t settings : node) (l : list position) (iso : list (key * list key)) (cou : list (key * list (key * list key))) : Prop :=
  (forall n P, kget n iso = Some P -> own_sweep t settings P n) /\
  (forall P n, In (PSweep P) l -> own_sweep t settings P n -> exists P', kget n iso = Some P') /\
  (forall tk m n P, kget tk cou = Some m -> kget n m = Some P -> coupled_sweep t settings P tk n \/ n = tk) /\
  (forall P tk n, In (PSweep P) l -> coupled_sweep t settings P tk n -> exists m P', kget tk cou = Some m /\ kget n m = Some P').

Lemma configured_unique : forall t settings P d d', configured t settings P d -> configured t settings P d' -> d = d'.
Proof. intros t settings P d d' [_ H] [_ H']. unfold given in *. congruence. Qed.

Lemma sweeps_recorded : forall schema entry_ok t settings st, template t -> validate_config schema entry_ok t settings = Ok st ->
  sweeps_so_far t settings (positions [] t) (v_iso st) (v_cou st).
Proof.
  intros schema entry_ok t settings st Ht H.
  apply (sweeps_inv schema entry_ok t settings Ht (sweeps_so_far t settings)); [| | |exact H]; clear H st.
  - repeat split; try (intros; discriminate); intros P *; intros [].
  - intros l x iso cou [I1 [I2 [I3 I4]]] Hx. split; [exact I1|]. split; [|split; [exact I3|]].
    + intros P n Hin Ho. apply in_app_or in Hin as [Hin|[->|[]]]; [eapply I2; eassumption|].
      destruct Ho as [d [[_ Hg] _]]. exfalso. exact (Hx P d eq_refl Hg).
    + intros P tk n Hin Ho. apply in_app_or in Hin as [Hin|[->|[]]]; [eapply I4; eassumption|].
      destruct Ho as [d [tn [Q [[_ Hg] _]]]]. exfalso. exact (Hx P d eq_refl Hg).
  - intros l P d s0 s1 [I1 [I2 [I3 I4]]] Hc HP _ HR. apply record_effect in HR; [|exact HP]. destruct (coupled d) eqn:Ec.
    + destruct HR as [-> [tn [tk [Q [n [m [E1 [E2 [E3 [-> Hm]]]]]]]]]]. split; [exact I1|]. split; [|split].
      * intros P' n' Hin Ho. apply in_app_or in Hin as [Hin|[E|[]]]; [eapply I2; eassumption|]. injection E as <-.
        destruct Ho as [d' [Hc' [Ec' _]]]. rewrite (configured_unique _ _ _ _ _ Hc Hc') in Ec. congruence.
      * intros tk' m' n' P' Hk Hn'. destruct (key_eq_dec tk' tk) as [->|Hne]; [|rewrite kget_kset_other in Hk by exact Hne; eapply I3; eassumption].
        rewrite kget_kset_same in Hk. injection Hk as <-. destruct (key_eq_dec n' n) as [->|Hnn].
        -- rewrite kget_kset_same in Hn'. injection Hn' as <-. left. exists d, tn, Q. auto.
        -- rewrite kget_kset_other in Hn' by exact Hnn. destruct Hm as [Hm|[_ [q ->]]]; [eapply I3; eassumption|].
           cbn in Hn'. destruct (key_eqb_spec n' tk) as [->|]; [right; reflexivity|discriminate].
      * intros P' tk' n' Hin Ho. destruct (key_eq_dec tk' tk) as [->|Hne].
        -- rewrite kget_kset_same. exists (kset n P m). destruct (key_eq_dec n' n) as [->|Hnn]; [exists P; split; [reflexivity|apply kget_kset_same]|].
           rewrite kget_kset_other by exact Hnn. apply in_app_or in Hin as [Hin|[E|[]]].
           ++ destruct (I4 P' tk n' Hin Ho) as [m' [P'' [K1 K2]]]. destruct Hm as [Hm|[Hm _]]; [|congruence]. rewrite Hm in K1. injection K1 as <-. exists P''. auto.
           ++ injection E as <-. destruct Ho as [d' [tn' [Q' [_ [_ [_ [_ E']]]]]]]. rewrite E3 in E'. apply app_inj_tail in E' as [_ E']. congruence.
        -- rewrite kget_kset_other by exact Hne. apply in_app_or in Hin as [Hin|[E|[]]]; [eapply I4; eassumption|]. injection E as <-.
           destruct Ho as [d' [tn' [Q' [Hc' [_ [F1 [F2 _]]]]]]]. rewrite <- (configured_unique _ _ _ _ _ Hc Hc') in F1. congruence.
    + destruct HR as [-> HR]. split; [|split; [|split; [exact I3|]]].
      * intros n' P' Hk. unfold has_key in HR. destruct (dget (KS "range") d) as [rv|] eqn:Er.
        -- destruct HR as [n [Hn E]]. rewrite E in Hk. destruct (key_eq_dec n' n) as [->|Hne]; [|rewrite kget_kset_other in Hk by exact Hne; apply I1; exact Hk].
           rewrite kget_kset_same in Hk. injection Hk as <-. exists d. rewrite Er. repeat split; auto; try apply Hc. discriminate.
        -- rewrite HR in Hk. apply I1. exact Hk.
      * intros P' n' Hin Ho. unfold has_key in HR. destruct (dget (KS "range") d) as [rv|] eqn:Er.
        -- destruct HR as [n [Hn E]]. rewrite E. destruct (key_eq_dec n' n) as [->|Hne]; [exists P; apply kget_kset_same|].
           rewrite kget_kset_other by exact Hne. apply in_app_or in Hin as [Hin|[E'|[]]]; [eapply I2; eassumption|]. injection E' as <-.
           destruct Ho as [d' [_ [_ [_ Hn']]]]. exfalso. apply Hne. eapply sweep_name_unique; eassumption.
        -- rewrite HR. apply in_app_or in Hin as [Hin|[E'|[]]]; [eapply I2; eassumption|]. injection E' as <-.
           destruct Ho as [d' [Hc' [_ [Hr' _]]]]. rewrite <- (configured_unique _ _ _ _ _ Hc Hc') in Hr'. congruence.
      * intros P' tk' n' Hin Ho. apply in_app_or in Hin as [Hin|[E|[]]]; [eapply I4; eassumption|]. injection E as <-.
        destruct Ho as [d' [tn' [Q' [Hc' [Ec' _]]]]]. rewrite (configured_unique _ _ _ _ _ Hc Hc') in Ec. congruence.
Qed.

(** C118 *)
Theorem C118_sweeps_found_partial : forall schema entry_ok t settings st, template t ->
  validate_config schema entry_ok t settings = Ok st ->
  (forall n P, kget n (v_iso st) = Some P -> own_sweep t settings P n) /\
  (forall n P, own_sweep t settings P n -> (forall P', own_sweep t settings P' n -> P' = P) -> kget n (v_iso st) = Some P) /\
  (forall tk m n P, kget tk (v_cou st) = Some m -> kget n m = Some P -> n <> tk -> coupled_sweep t settings P tk n) /\
  (forall tk n P, coupled_sweep t settings P tk n -> n <> tk -> (forall P', coupled_sweep t settings P' tk n -> P' = P) ->
     exists m, kget tk (v_cou st) = Some m /\ kget n m = Some P).
Proof.
  intros schema entry_ok t settings st Ht H. destruct (sweeps_recorded _ _ _ _ _ Ht H) as [I1 [I2 [I3 I4]]].
  assert (Hin : forall P d, configured t settings P d -> In (PSweep P) (positions [] t)).
  { intros P d [[w Hr] _]. apply (sweep_position t [] P w); [apply template_shaped; exact Ht|exact Hr|]. eapply no_key_after_sweep; eassumption. }
  split; [exact I1|]. split; [|split].
  - intros n P Ho Hu. pose proof Ho as [d [Hc _]]. destruct (I2 P n (Hin P d Hc) Ho) as [P' HP']. rewrite <- (Hu P' (I1 n P' HP')). exact HP'.
  - intros tk m n P H1 H2 Hne. destruct (I3 tk m n P H1 H2); [assumption|contradiction].
  - intros tk n P Ho Hne Hu. pose proof Ho as [d [tn [Q [Hc _]]]]. destruct (I4 P tk n (Hin P d Hc) Ho) as [m [P' [K1 K2]]]. exists m. split; [exact K1|].
    destruct (I3 tk m n P' K1 K2) as [Hs|]; [|contradiction]. rewrite <- (Hu P' Hs). exact K2.
Qed.
Print Assumptions C118_sweeps_found_partial.

Definition ex_coupled : node :=
  Dict [(KS "sweep_mode", yes); (KS "n_workers", num 4); (KS "seed", ex_swept 1 [1; 2; 3]%Z);
        (KS "dim", Dict [(KS "sweep", Dict [(KS "default", num 1); (KS "range", LList [num 4; num 5; num 6]);
                                            (KS "coupled", yes); (KS "target_name", txt "seed")])])].
Example C118_nonvacuous : template ex_template /\
  (exists st, validate_config ex_schema ex_entry_ok ex_template ex_coupled = Ok st /\
     kget (KS "seed") (v_iso st) = Some [KS "seed"] /\
     kget (KS "seed") (v_cou st) = Some [(KS "seed", [KS "seed"]); (KS "dim", [KS "dim"])]) /\
  own_sweep ex_template ex_coupled [KS "seed"] (KS "seed") /\
  coupled_sweep ex_template ex_coupled [KS "dim"] (KS "seed") (KS "dim").
Proof.
  split; [apply C117_nonvacuous|]. split; [eexists; split; [vm_compute; reflexivity|split; vm_compute; reflexivity]|].
  assert (R : forall k, In k [KS "seed"; KS "dim"] -> exists w, reaches ex_template ([k] ++ [KS "sweep"]) w).
  { intros k [<-|[<-|[]]]; eexists; cbn [app]; (eapply r_dict; [cbn; auto 8|]); eapply r_dict; [cbn; auto| |cbn; auto|]; apply r_here. }
  split.
  - eexists. split; [split; [apply R; cbn; auto|vm_compute; reflexivity]|]. split; [reflexivity|]. split; [discriminate|]. exists []. left. split; [reflexivity|discriminate].
  - eexists _, _, []. split; [split; [apply R; cbn; auto|vm_compute; reflexivity]|]. repeat split; reflexivity.
Qed.

(** Two sweeps of list entries have the same name, the position in the list: only
    one of them is found, the other is never swept. *)
Definition ex_two_files : node :=
  Dict [(KS "sweep_mode", yes); (KS "n_workers", num 4);
        (KS "margins", LList [Dict [(KS "file", ex_swept 1 [1; 2]%Z)]]);
        (KS "cells", LList [Dict [(KS "file", ex_swept 5 [5; 6; 7]%Z)]])].
Theorem C118_names_refuted : template ex_template /\
  own_sweep ex_template ex_two_files [KS "margins"; KI 0; KS "file"] (KI 0) /\
  own_sweep ex_template ex_two_files [KS "cells"; KI 0; KS "file"] (KI 0) /\
  exists st, validate_config ex_schema ex_entry_ok ex_template ex_two_files = Ok st /\
    v_iso st = [(KI 0, [KS "cells"; KI 0; KS "file"])] /\ v_cou st = [] /\ v_set st = ex_two_files.
Proof.
  split; [apply C117_nonvacuous|].
  assert (R : forall k, In k [KS "margins"; KS "cells"] -> exists w, reaches ex_template ([k; KI 0; KS "file"] ++ [KS "sweep"]) w).
  { intros k Hk. eexists. cbn [app]. eapply r_dict with (c := LList [Dict [(KS "file", ex_sweep)]]); [destruct Hk as [<-|[<-|[]]]; cbn; auto 8|].
    eapply r_list; [reflexivity|]. eapply r_dict; [left; reflexivity|]. eapply r_dict; [left; reflexivity|]. apply r_here. }
  split; [|split].
  - eexists. split; [split; [apply R; cbn; auto|vm_compute; reflexivity]|]. split; [reflexivity|]. split; [discriminate|]. exists [KS "margins"]. right. reflexivity.
  - eexists. split; [split; [apply R; cbn; auto|vm_compute; reflexivity]|]. split; [reflexivity|]. split; [discriminate|]. exists [KS "cells"]. right. reflexivity.
  - eexists. split; [vm_compute; reflexivity|]. split; [vm_compute; reflexivity|]. split; vm_compute; reflexivity.
Qed.
Print Assumptions C118_names_refuted.

(** A coupled sweep is listed even without a range: its setting has already been
    replaced by its default. *)
Definition ex_coupled_no_range : node :=
  Dict [(KS "sweep_mode", yes); (KS "n_workers", num 4); (KS "seed", ex_swept 1 [1; 2; 3]%Z);
        (KS "dim", Dict [(KS "sweep", Dict [(KS "default", num 1); (KS "coupled", yes); (KS "target_name", txt "seed")])])].
Theorem C118_range_refuted : template ex_template /\
  exists st m, validate_config ex_schema ex_entry_ok ex_template ex_coupled_no_range = Ok st /\
    kget (KS "seed") (v_cou st) = Some m /\ kget (KS "dim") m = Some [KS "dim"] /\ given (v_set st) [KS "dim"] (num 1).
Proof. split; [apply C117_nonvacuous|]. eexists _, _. split; [vm_compute; reflexivity|]. split; [vm_compute; reflexivity|]. split; vm_compute; reflexivity. Qed.
Print Assumptions C118_range_refuted.
