(** Model of the discovery of sweep parameters (config.py 515-568) and
    properties C75, C76 (sweep identifiers) and C77 (discovery). *)
From Coq Require Import List ZArith Lia Bool Arith String Ascii Permutation.
From Verif Require Import Base ConfigTree ConfigSpec ConfigProps ConfigFind Sweep.
Import ListNotations.
Local Open Scope nat_scope.

(** * Sweep identifiers *)
Lemma str_leb_total : forall a b, str_leb a b = true \/ str_leb b a = true.
Proof.
  induction a as [|x a IH]; intros [|y b]; cbn [str_leb]; auto.
  destruct (Nat.ltb_spec (nat_of_ascii x) (nat_of_ascii y)); auto.
  destruct (Nat.ltb_spec (nat_of_ascii y) (nat_of_ascii x)); auto.
Qed.

Lemma str_leb_antisym : forall a b, str_leb a b = true -> str_leb b a = true -> a = b.
Proof.
  induction a as [|x a IH]; intros [|y b]; cbn [str_leb]; auto; try discriminate.
  destruct (Nat.ltb_spec (nat_of_ascii x) (nat_of_ascii y));
  destruct (Nat.ltb_spec (nat_of_ascii y) (nat_of_ascii x)); try discriminate; try lia.
  intros H1 H2. assert (nat_of_ascii x = nat_of_ascii y) as E by lia.
  apply (f_equal ascii_of_nat) in E. rewrite !ascii_nat_embedding in E. subst y. f_equal; auto.
Qed.

Lemma str_leb_trans : forall a b c, str_leb a b = true -> str_leb b c = true -> str_leb a c = true.
Proof.
  induction a as [|x a IH]; intros [|y b] [|z c]; cbn [str_leb]; auto; try discriminate.
  destruct (Nat.ltb_spec (nat_of_ascii x) (nat_of_ascii y));
  destruct (Nat.ltb_spec (nat_of_ascii y) (nat_of_ascii z));
  destruct (Nat.ltb_spec (nat_of_ascii x) (nat_of_ascii z));
  destruct (Nat.ltb_spec (nat_of_ascii y) (nat_of_ascii x));
  destruct (Nat.ltb_spec (nat_of_ascii z) (nat_of_ascii y));
  destruct (Nat.ltb_spec (nat_of_ascii z) (nat_of_ascii x)); intros; try discriminate; try lia; eauto.
Qed.

Lemma insert_comm : forall k x y l, k x <> k y ->
  insert_by k x (insert_by k y l) = insert_by k y (insert_by k x l).
Proof.
  intros k x y l Hne. induction l as [|z l IH]; cbn.
  - destruct (str_leb (k x) (k y)) eqn:E1, (str_leb (k y) (k x)) eqn:E2; auto.
    + exfalso. apply Hne. now apply str_leb_antisym.
    + exfalso. destruct (str_leb_total (k x) (k y)); congruence.
  - destruct (str_leb (k y) (k z)) eqn:Ey, (str_leb (k x) (k z)) eqn:Ex; cbn;
      rewrite ?Ey, ?Ex.
    + destruct (str_leb (k x) (k y)) eqn:E1, (str_leb (k y) (k x)) eqn:E2; auto.
      * exfalso. apply Hne. now apply str_leb_antisym.
      * exfalso. destruct (str_leb_total (k x) (k y)); congruence.
    + destruct (str_leb (k x) (k y)) eqn:E1; auto.
      exfalso. rewrite (str_leb_trans _ _ _ E1 Ey) in Ex. discriminate.
    + destruct (str_leb (k y) (k x)) eqn:E1; auto.
      exfalso. rewrite (str_leb_trans _ _ _ E1 Ex) in Ey. discriminate.
    + now rewrite IH.
Qed.

Lemma sort_by_perm : forall k a b, Permutation a b -> NoDup (map k a) -> sort_by k a = sort_by k b.
Proof.
  intros k a b H. induction H as [|x a b H IH|x y l|a b c H1 IH1 H2 IH2]; intros Hn; auto.
  - cbn in *. inversion Hn; subst. now rewrite IH.
  - cbn in *. inversion Hn as [|? ? Hni _]; subst. apply insert_comm. intros E. apply Hni. left. auto.
  - rewrite IH1 by auto. apply IH2. eapply Permutation_NoDup; [|exact Hn]. now apply Permutation_map.
Qed.

Lemma first_token_entry : forall v x, first_token (v ++ "_" ++ x) = first_token v.
Proof.
  induction v as [|a v IH]; intros x; cbn; [reflexivity|].
  destruct (Ascii.eqb a "_"); [reflexivity|]. f_equal. apply IH.
Qed.

(** Either a variable is missing from the sweep (KeyError) or every entry is
    built. *)
Lemma entries_cases : forall stringify sweep names,
  (exists es, map_res (sweep_entry stringify sweep) names = Ok es /\
     Forall2 (fun v e => sweep_entry stringify sweep v = Ok e) names es) \/
  (map_res (sweep_entry stringify sweep) names = Raise EKey /\
     exists v, In v names /\ dget (KS v) sweep = None).
Proof.
  intros stringify sweep. induction names as [|v names IH]; cbn.
  - left; exists []; split; [reflexivity|constructor].
  - unfold sweep_entry at 1 4. destruct (dget (KS v) sweep) as [x|] eqn:E; cbn [rbind].
    + destruct IH as [(es & Ees & F)|(Ees & w & Hw & En)]; rewrite Ees; cbn [rbind].
      * left. eexists. split; [reflexivity|]. constructor; auto. unfold sweep_entry. now rewrite E.
      * right. split; auto. exists w; auto.
    + right. split; auto. exists v; auto.
Qed.

Lemma map_res_perm : forall stringify sweep a b, Permutation a b ->
  (forall es, map_res (sweep_entry stringify sweep) a = Ok es ->
     exists es', map_res (sweep_entry stringify sweep) b = Ok es' /\ Permutation es es').
Proof.
  intros stringify sweep a b H.
  induction H as [|x a b H IH|x y l|a b c H1 IH1 H2 IH2]; intros es He.
  - eauto.
  - cbn in *. destruct (sweep_entry stringify sweep x) as [e|]; cbn in *; [|discriminate].
    destruct (map_res (sweep_entry stringify sweep) a) as [ea|]; cbn in *; [|discriminate].
    injection He as <-. destruct (IH ea eq_refl) as (eb & -> & Hp). cbn. eauto.
  - cbn in *. destruct (sweep_entry stringify sweep y) as [e|]; cbn in *; [|discriminate].
    destruct (sweep_entry stringify sweep x) as [e2|]; cbn in *; [|discriminate].
    destruct (map_res (sweep_entry stringify sweep) l) as [ea|]; cbn in *; [|discriminate].
    injection He as <-. eexists. split; [reflexivity|]. apply perm_swap.
  - destruct (IH1 _ He) as (e1 & E1 & P1). destruct (IH2 _ E1) as (e2 & E2 & P2).
    exists e2. split; auto. now rewrite P1.
Qed.

Lemma entry_token : forall stringify sweep v e,
  sweep_entry stringify sweep v = Ok e -> first_token e = first_token v.
Proof.
  intros stringify sweep v e H. unfold sweep_entry in H.
  destruct (dget (KS v) sweep); [|discriminate]. injection H as <-. apply first_token_entry.
Qed.

Lemma entries_tokens : forall stringify sweep names es,
  map_res (sweep_entry stringify sweep) names = Ok es ->
  map first_token es = map first_token names.
Proof.
  intros stringify sweep. induction names as [|v names IH]; intros es H; cbn in *.
  - injection H as <-. reflexivity.
  - destruct (sweep_entry stringify sweep v) as [e|] eqn:E; cbn in H; [|discriminate].
    destruct (map_res (sweep_entry stringify sweep) names) as [es'|]; cbn in H; [|discriminate].
    injection H as <-. cbn. rewrite (entry_token _ _ _ _ E). f_equal. auto.
Qed.

(** C75: the folder name does not depend on the (unspecified) order in which
    the set of names is iterated, provided the names differ before their first
    underscore. *)
Theorem C75_sweep_id_order_independent_partial : forall stringify names1 names2 sweep,
  Permutation names1 names2 -> NoDup (map first_token names1) ->
  get_sweep_id stringify names1 sweep = get_sweep_id stringify names2 sweep.
Proof.
  intros stringify names1 names2 sweep Hp Hn. unfold get_sweep_id.
  destruct (0 <? List.length sweep); [|reflexivity].
  destruct (entries_cases stringify sweep names1) as [(es & E & _)|(E & v & Hv & En)].
  - destruct (map_res_perm _ _ _ _ Hp _ E) as (es' & E' & Hpe). rewrite E, E'. cbn [rbind].
    f_equal. f_equal. apply sort_by_perm; auto. now rewrite (entries_tokens _ _ _ _ E).
  - destruct (entries_cases stringify sweep names2) as [(es & E' & F)|(E' & _)].
    + exfalso. assert (Hv2 : In v names2) by (eapply Permutation_in; eauto).
      clear -Hv2 F En. induction F as [|x e names es He F IH]; [destruct Hv2|].
      destruct Hv2 as [->|Hv2]; [|auto]. unfold sweep_entry in He. rewrite En in He. discriminate.
    + now rewrite E, E'.
Qed.
Print Assumptions C75_sweep_id_order_independent_partial.

(** The proviso is needed: with two names sharing the first word the folder
    depends on the iteration order of a set of texts (randomised by Python's
    hash seed). *)
Theorem C75_shared_first_word_refuted : exists names1 names2 sweep,
  Permutation names1 names2 /\ NoDup names1 /\
  get_sweep_id py_str names1 sweep <> get_sweep_id py_str names2 sweep.
Proof.
  exists ["origin_demand"; "origin_supply"]%string, ["origin_supply"; "origin_demand"]%string,
    [(KS "origin_demand", Leaf (LNum 1)); (KS "origin_supply", Leaf (LNum 2))].
  split; [apply perm_swap|]. split; [repeat constructor; cbn; intuition congruence|].
  vm_compute. discriminate.
Qed.
Print Assumptions C75_shared_first_word_refuted.

Example C75_nonvacuous :
  get_sweep_id py_str ["seed"; "alpha"]%string [(KS "alpha", Leaf (LNum 1)); (KS "seed", Leaf (LNum 2))]
  = Ok "alpha_1/seed_2"%string /\
  NoDup (map first_token ["seed"; "alpha"]%string).
Proof. split; [reflexivity|repeat constructor; cbn; intuition congruence]. Qed.

(** * Distinct folders *)
Fixpoint slash_free (s : string) : Prop :=
  match s with
  | EmptyString => True
  | String a t => a <> "/"%char /\ slash_free t
  end.

Lemma slash_free_app : forall a b, slash_free a -> slash_free b -> slash_free (a ++ b).
Proof. induction a as [|x a IH]; intros b Ha Hb; cbn in *; [auto|]. destruct Ha; auto. Qed.

Lemma str_app_inv : forall a b r r', slash_free a -> slash_free b ->
  (a ++ "/" ++ r)%string = (b ++ "/" ++ r')%string -> a = b /\ r = r'.
Proof.
  induction a as [|x a IH]; intros [|y b] r r' Ha Hb E; cbn in *.
  - injection E as ->. auto.
  - injection E as <- E. destruct Hb; congruence.
  - injection E as -> E. destruct Ha; congruence.
  - injection E as -> E. destruct Ha, Hb. destruct (IH b r r') as [-> ->]; auto.
Qed.

Lemma concat_slash_inj : forall a b, List.length a = List.length b ->
  Forall slash_free a -> Forall slash_free b ->
  String.concat "/" a = String.concat "/" b -> a = b.
Proof.
  induction a as [|x a IH]; intros [|y b] Hl Ha Hb E; cbn [List.length] in *; try discriminate; auto.
  inversion Ha; subst. inversion Hb; subst.
  destruct a as [|x2 a], b as [|y2 b]; cbn [List.length] in *; try discriminate.
  - cbn in E. now subst.
  - change (String.concat "/" (x :: x2 :: a)) with (x ++ "/" ++ String.concat "/" (x2 :: a))%string in E.
    change (String.concat "/" (y :: y2 :: b)) with (y ++ "/" ++ String.concat "/" (y2 :: b))%string in E.
    apply str_app_inv in E as [-> E]; auto. f_equal. apply IH; auto.
Qed.

Lemma insert_by_map : forall (f : string -> string) k, (forall x, k (f x) = k x) ->
  forall x l, insert_by k (f x) (map f l) = map f (insert_by k x l).
Proof.
  intros f k H x l. induction l as [|y l IH]; cbn; [reflexivity|].
  rewrite !H. destruct (str_leb (k x) (k y)); [reflexivity|]. cbn. now rewrite IH.
Qed.

Lemma sort_by_map : forall (f : string -> string) k, (forall x, k (f x) = k x) ->
  forall l, sort_by k (map f l) = map f (sort_by k l).
Proof.
  intros f k H l. induction l as [|y l IH]; cbn; [reflexivity|].
  rewrite IH. now apply insert_by_map.
Qed.

Lemma insert_by_In : forall k x y l, In y (insert_by k x l) <-> y = x \/ In y l.
Proof.
  intros k x y l; induction l as [|z l IH]; cbn; [intuition|].
  destruct (str_leb (k x) (k z)); cbn; rewrite ?IH; intuition.
Qed.

Lemma sort_by_In : forall k y l, In y (sort_by k l) <-> In y l.
Proof.
  intros k y l; induction l as [|z l IH]; cbn; [tauto|].
  rewrite insert_by_In, IH. intuition.
Qed.

Lemma str_app_head : forall v a b, (v ++ a)%string = (v ++ b)%string -> a = b.
Proof. induction v as [|x v IH]; intros a b E; cbn in *; [auto|]. injection E; auto. Qed.

(** Value shown in the folder name. *)
Definition shown (v : string) (x : node) : node :=
  if String.eqb v "sigma" then sigma_to_noise_regime x else x.

Lemma get_sweep_id_total : forall stringify names sweep id,
  get_sweep_id stringify names sweep = Ok id -> sweep <> [] ->
  Forall (fun v => exists x, dget (KS v) sweep = Some x) names /\
  id = String.concat "/" (map (fun v => v ++ "_" ++ stringify (shown v (match dget (KS v) sweep with Some x => x | None => not_found end)))%string
         (sort_by first_token names)).
Proof.
  intros stringify names sweep id H Hne. unfold get_sweep_id in H.
  destruct (0 <? List.length sweep) eqn:El; [|destruct sweep; [congruence|discriminate]].
  set (f := fun v => (v ++ "_" ++ stringify (shown v (match dget (KS v) sweep with Some x => x | None => not_found end)))%string).
  assert (Hm : forall es, map_res (sweep_entry stringify sweep) names = Ok es ->
     Forall (fun v => exists x, dget (KS v) sweep = Some x) names /\ es = map f names).
  { clear. induction names as [|v names IH]; intros es H; cbn in H.
    - injection H as <-. split; [constructor|reflexivity].
    - destruct (sweep_entry stringify sweep v) as [e|] eqn:E; cbn in H; [|discriminate].
      destruct (map_res (sweep_entry stringify sweep) names) as [es'|]; cbn in H; [|discriminate].
      injection H as <-. destruct (IH es' eq_refl) as [F ->].
      unfold sweep_entry in E. destruct (dget (KS v) sweep) as [x|] eqn:Ex; [|discriminate].
      injection E as <-. split; [constructor; eauto|]. cbn [map]. f_equal. unfold f. rewrite Ex. reflexivity. }
  destruct (map_res (sweep_entry stringify sweep) names) as [es|]; cbn in H; [|discriminate].
  destruct (Hm es eq_refl) as [F ->]. split; auto. injection H as <-. f_equal.
  apply sort_by_map. intros x. unfold f. apply first_token_entry.
Qed.

(** C76, for injective slash-free printing: two sweeps with the same folder
    agree on every named variable other than sigma, and on the noise regime of
    sigma. *)
Theorem C76_folder_determines_values_partial : forall stringify names sweep1 sweep2 id,
  (forall x y, stringify x = stringify y -> x = y) ->
  (forall x, slash_free (stringify x)) -> Forall slash_free names ->
  sweep1 <> [] -> sweep2 <> [] ->
  get_sweep_id stringify names sweep1 = Ok id ->
  get_sweep_id stringify names sweep2 = Ok id ->
  forall v, In v names -> exists x y,
    dget (KS v) sweep1 = Some x /\ dget (KS v) sweep2 = Some y /\
    (v <> "sigma"%string -> x = y) /\
    (v = "sigma"%string -> sigma_to_noise_regime x = sigma_to_noise_regime y).
Proof.
  intros stringify names sweep1 sweep2 id Hinj Hsf Hnf Hn1 Hn2 H1 H2 v Hv.
  apply get_sweep_id_total in H1 as [F1 E1]; auto. apply get_sweep_id_total in H2 as [F2 E2]; auto.
  rewrite Forall_forall in F1, F2, Hnf.
  destruct (F1 v Hv) as [x Ex]. destruct (F2 v Hv) as [y Ey].
  exists x, y. split; [auto|split; [auto|]].
  set (f := fun sweep v => (v ++ "_" ++ stringify (shown v (match dget (KS v) sweep with Some x => x | None => not_found end)))%string) in *.
  assert (E : map (f sweep1) (sort_by first_token names) = map (f sweep2) (sort_by first_token names)).
  { apply concat_slash_inj.
    - now rewrite !map_length.
    - apply Forall_map, Forall_forall. intros w Hw. apply sort_by_In in Hw. unfold f.
      repeat apply slash_free_app; auto. cbn. split; [discriminate|auto].
    - apply Forall_map, Forall_forall. intros w Hw. apply sort_by_In in Hw. unfold f.
      repeat apply slash_free_app; auto. cbn. split; [discriminate|auto].
    - unfold f. congruence. }
  assert (Ev : f sweep1 v = f sweep2 v).
  { apply (sort_by_In first_token) in Hv. revert E Hv. generalize (sort_by first_token names).
    induction l as [|w l IH]; intros E Hin; cbn in *; [tauto|]. injection E as Ew El.
    destruct Hin as [->|Hin]; auto. }
  unfold f in Ev. rewrite Ex, Ey in Ev. apply str_app_head, str_app_head, Hinj in Ev.
  unfold shown in Ev. destruct (String.eqb_spec v "sigma"); split; auto; congruence.
Qed.
Print Assumptions C76_folder_determines_values_partial.

(** The noise level itself is not in the folder name: two configurations that
    differ only in sigma share their output folder. *)
Theorem C76_noise_levels_share_folder_refuted : exists names c1 c2 id,
  c1 <> c2 /\ get_sweep_id py_str names c1 = Ok id /\ get_sweep_id py_str names c2 = Ok id.
Proof.
  exists ["sigma"%string], [(KS "sigma", Leaf (LNum 1))], [(KS "sigma", Leaf (LNum 2))], "sigma_high"%string.
  split; [congruence|split; reflexivity].
Qed.
Print Assumptions C76_noise_levels_share_folder_refuted.

Example C76_nonvacuous :
  Forall slash_free ["alpha"; "sigma"]%string /\
  get_sweep_id py_str ["alpha"; "sigma"]%string [(KS "alpha", Leaf (LNum 1)); (KS "sigma", Leaf (LNum 3))]
  = Ok "alpha_1/sigma_high"%string.
Proof. split; [repeat constructor; discriminate|reflexivity]. Qed.

(** * Discovery of the swept parameters *)
(** Elements of the paths yielded by [deep_walk]: dictionary keys and, last, a
    value. *)
Inductive pelem := PK (k : key) | PV (v : node).

(** static/global_variables.py 6-20.  List indices are not part of the paths. *)
Fixpoint deep_walk (s : node) (pre : list pelem) : list (list pelem) :=
  match s with
  | Dict l =>
      flat_map (fun kv =>
        match snd kv with
        | Dict _ => deep_walk (snd kv) (pre ++ [PK (fst kv)])
        | LList vs => flat_map (fun v => deep_walk v (pre ++ [PK (fst kv)])) vs
        | Leaf _ => [pre ++ [PK (fst kv); PV (snd kv)]]
        end) l
  | _ => [pre ++ [PV s]]
  end.

(** Comparison of a path element with a text. *)
Definition is_text (t : string) (e : pelem) : bool :=
  match e with
  | PK (KS s) => String.eqb s t
  | PV (Leaf (LStr s)) => String.eqb s t
  | _ => false
  end.

(** The element used as a key (a value that is no text never is, see 522-527:
    the prefix ends with the element equal to 'sweep'). *)
Definition to_key (e : pelem) : key :=
  match e with
  | PK k => k
  | PV (Leaf (LStr s)) => KS s
  | PV _ => KS ""
  end.

(** [key_val_path.index("sweep")] *)
Fixpoint index_text (t : string) (p : list pelem) : nat :=
  match p with
  | [] => 0
  | e :: r => if is_text t e then 0 else S (index_text t r)
  end.

(** [key_val_path[i - d]] with Python's wrap-around of negative indices. *)
Definition elem_before (p : list pelem) (i d : nat) : key :=
  to_key (nth (if d <=? i then i - d else List.length p - (d - i)) p (PV (Leaf LNone))).

(** config.py 533, 553: the name of a swept parameter. *)
Definition sweep_name (p : list pelem) (i : nat) : key :=
  if key_eqb (elem_before p i 1) (KS "file") then elem_before p i 2 else elem_before p i 1.

Definition truthy (n : node) : bool :=
  match n with
  | Leaf LNone => false
  | Leaf (LBool b) => b
  | Leaf (LNum z) => negb (z =? 0)%Z
  | Leaf (LStr s) => negb (String.eqb s "")
  | Dict l => negb (List.length l =? 0)
  | LList l => negb (List.length l =? 0)
  end.

(** Dictionaries of paths. *)
Fixpoint kset {V} (k : key) (v : V) (l : list (key * V)) : list (key * V) :=
  match l with
  | [] => [(k, v)]
  | (k', v') :: t => if key_eqb k k' then (k', v) :: t else (k', v') :: kset k v t
  end.
Fixpoint kget {V} (k : key) (l : list (key * V)) : option V :=
  match l with
  | [] => None
  | (k', v) :: t => if key_eqb k k' then Some v else kget k t
  end.

Definition sweeps := (list (key * list key) * list (key * list (key * list key)))%type.

(** config.py 520-554: one key value path.  [sweep_settings.get] raises
    AttributeError when the sweep settings were not found or are no
    dictionary; a target name that is not a text is not modelled (EType). *)
Definition find_step (settings : node) (st : sweeps) (p : list pelem) : res sweeps :=
  if existsb (is_text "sweep") p && existsb (is_text "range") p then
    let i := index_text "sweep" p in
    let path := map to_key (firstn i p) in
    match fst (path_get (map to_key (firstn (S i) p)) settings) with
    | Some (Dict ss) =>
        let coupled := match dget (KS "coupled") ss with Some c => truthy c | None => false end in
        let isolated_result :=
          Ok (kset (sweep_name p i) path (fst st), snd st) in
        if coupled then
          match dget (KS "target_name") ss with
          | None => isolated_result
          | Some (Leaf (LStr t)) =>
              if String.eqb t "" then isolated_result
              else
                let name := sweep_name p i in
                match kget (KS t) (snd st) with
                | Some d => Ok (fst st, kset (KS t) (kset name path d) (snd st))
                | None =>
                    match path_find (KS t) settings with
                    | (k :: r) :: _ =>
                        Ok (fst st, kset (KS t) (kset name path [(KS t, k :: r)]) (snd st))
                    | _ => Ok st
                    end
                end
          | Some _ => Raise EType
          end
        else isolated_result
    | _ => Raise EAttr
    end
  else Ok st.

Fixpoint find_loop (settings : node) (ps : list (list pelem)) (st : sweeps) : res sweeps :=
  match ps with
  | [] => Ok st
  | p :: t => rbind (find_step settings st p) (find_loop settings t)
  end.

(** config.py 515-560 (the list of names built at the end is left out):
    targets of coupled sweeps are removed from the isolated ones. *)
Definition find_sweep_key_paths (settings : node) : res sweeps :=
  rbind (find_loop settings (deep_walk settings []) ([], [])) (fun st =>
    Ok (filter (fun kv => negb (existsb (fun c => key_eqb (fst kv) (fst c)) (snd st))) (fst st), snd st)).
