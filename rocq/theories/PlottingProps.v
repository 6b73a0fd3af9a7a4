(** Properties C159-C162 of the figures. *)
From Coq Require Import List String Ascii ZArith Bool Arith Lia Permutation Sorted.
From Verif Require Import Base PyMonad Inputs InputsProps SummariseProps Plotting.
Import ListNotations.
Open Scope string_scope.
Open Scope nat_scope.
Open Scope list_scope.

(** * C159: which point is drawn on top *)

Lemma ins_perm : forall key i l, Permutation (ins key i l) (i :: l).
Proof.
  intros key i l. induction l as [|j l IH]; [reflexivity|]. cbn [ins].
  destruct (key i <=? key j)%Z; [reflexivity|]. rewrite IH. apply perm_swap.
Qed.
Lemma stable_sort_perm : forall key l, Permutation (stable_sort key l) l.
Proof. intros key l. induction l as [|i l IH]; [reflexivity|]. cbn. rewrite ins_perm, IH. reflexivity. Qed.

(** Sorting by a key refines the order the list already had. *)
Definition refine (k : nat -> Z) (R : nat -> nat -> Prop) (x y : nat) : Prop :=
  (k x < k y)%Z \/ k x = k y /\ R x y.
Lemma ins_sorted : forall k (R : nat -> nat -> Prop) i l, StronglySorted (refine k R) l -> Forall (R i) l ->
  StronglySorted (refine k R) (ins k i l).
Proof.
  intros k R i l H. induction H as [|j l S IH F]; intros G; cbn [ins]; [repeat constructor|].
  inversion G as [|? ? Rj Gl]; subst. destruct (Z.leb_spec (k i) (k j)) as [L|L].
  - constructor; [constructor; auto|]. constructor.
    + destruct (Z.eq_dec (k i) (k j)); [right; auto|left; lia].
    + rewrite Forall_forall in *. intros z Hz. specialize (F z Hz). specialize (Gl z Hz).
      destruct F as [F|[F _]]; destruct (Z.eq_dec (k i) (k z)); try (right; auto; fail); left; lia.
  - constructor; [apply IH; auto|]. rewrite Forall_forall in *. intros z Hz.
    apply (Permutation_in _ (ins_perm k i l)) in Hz. destruct Hz as [<-|Hz]; [left; lia|apply F; auto].
Qed.
Lemma stable_sort_sorted : forall k R l, StronglySorted R l -> StronglySorted (refine k R) (stable_sort k l).
Proof.
  intros k R l H. induction H as [|i l S IH F]; [constructor|]. cbn. apply ins_sorted; [exact IH|].
  rewrite Forall_forall in *. intros z Hz. apply F. apply (Permutation_in _ (stable_sort_perm k l)). exact Hz.
Qed.
Lemma seq_sorted : forall n s, StronglySorted lt (seq s n).
Proof.
  induction n as [|n IH]; intros s; cbn; constructor; [apply IH|].
  rewrite Forall_forall. intros x Hx. apply in_seq in Hx. lia.
Qed.
Definition lex (keys : list (nat -> Z)) : nat -> nat -> Prop := fold_left (fun R k => refine k R) keys lt.
Lemma lexsort_gen : forall keys R l, StronglySorted R l ->
  StronglySorted (fold_left (fun R k => refine k R) keys R) (fold_left (fun l k => stable_sort k l) keys l)
  /\ Permutation (fold_left (fun l k => stable_sort k l) keys l) l.
Proof.
  induction keys as [|k keys IH]; intros R l S; cbn [fold_left]; [split; [exact S|reflexivity]|].
  destruct (IH (refine k R) (stable_sort k l)) as [A B]; [apply stable_sort_sorted; exact S|].
  split; [exact A|]. rewrite B. apply stable_sort_perm.
Qed.

(** The places given out. *)
Lemma fill_length : forall n l i zs, List.length (fill n i l zs) = List.length zs.
Proof. intros n l. induction l as [|j l IH]; intros i zs; cbn [fill]; [reflexivity|]. rewrite IH. apply upd_nth_length. Qed.
Lemma fill_other : forall n l i zs p, ~ In p l -> Forall (fun j => j < List.length zs) l ->
  nth p (fill n i l zs) 0%Z = nth p zs 0%Z.
Proof.
  intros n l. induction l as [|j l IH]; intros i zs p NI F; cbn [fill]; [reflexivity|].
  inversion F; subst. rewrite IH.
  - rewrite upd_nth_nth by assumption. destruct (Nat.eqb_spec p j) as [->|]; [elim NI; now left|reflexivity].
  - intros C. apply NI. now right.
  - rewrite Forall_forall in *. intros x Hx. rewrite upd_nth_length. auto.
Qed.
Lemma fill_at : forall n l i zs q, NoDup l -> Forall (fun j => j < List.length zs) l -> q < List.length l ->
  nth (nth q l 0) (fill n i l zs) 0%Z = Z.of_nat (n - (i + q)).
Proof.
  intros n l. induction l as [|j l IH]; intros i zs q ND F Q; cbn [List.length] in Q; [lia|].
  inversion ND; inversion F; subst. destruct q as [|q]; cbn [nth fill].
  - rewrite fill_other; auto.
    + rewrite upd_nth_nth by assumption. rewrite Nat.eqb_refl. f_equal. lia.
    + rewrite Forall_forall in *. intros x Hx. rewrite upd_nth_length. auto.
  - rewrite IH; [f_equal; lia| assumption | |lia].
    rewrite Forall_forall in *. intros x Hx. rewrite upd_nth_length. auto.
Qed.

Lemma zorders_inv : forall values zs, zorders values = Ok zs ->
  values = [] /\ zs = [] \/
  exists d, 0 < d /\ Forall (fun r => List.length r = d) values /\
    zs = fill (List.length values) 0
           (lexsort (List.length values) (map (fun i j => nth i (nth j values []) 0%Z) (seq 0 d)))
           (repeat 0%Z (List.length values)).
Proof.
  intros [|row l] zs H; [left; inversion H; auto|]. right. cbv beta iota zeta delta [zorders] in H.
  destruct (forallb _ (row :: l)) eqn:F; [|discriminate].
  destruct (Nat.eqb (List.length row) 0) eqn:E; [discriminate|]. apply Nat.eqb_neq in E.
  exists (List.length row). split; [lia|]. split.
  - rewrite Forall_forall. intros r Hr. rewrite forallb_forall in F. apply Nat.eqb_eq. apply F. exact Hr.
  - apply Ok_inj in H. symmetry. exact H.
Qed.

(** [pre]: the row comes strictly before in the order read from the last column
    to the first. *)
Definition pre (d : nat) (a b : list Z) : Prop :=
  exists i, i < d /\ (nth i a 0 < nth i b 0)%Z /\ forall j, i < j < d -> nth j a 0%Z = nth j b 0%Z.

Lemma lex_pre : forall values d p q,
  lex (map (fun i j => nth i (nth j values []) 0%Z) (seq 0 d)) p q <->
  pre d (nth p values []) (nth q values []) \/
  (forall i, i < d -> nth i (nth p values []) 0%Z = nth i (nth q values []) 0%Z) /\ p < q.
Proof.
  intros values d p q. induction d as [|d IH].
  - cbn. unfold lex. cbn. split; [intros H; right; split; [intros i Hi; lia|exact H]|].
    intros [[i [Hi _]]|[_ H]]; [lia|exact H].
  - rewrite seq_S, map_app. unfold lex. rewrite fold_left_app. cbn [map fold_left plus].
    fold (lex (map (fun i j => nth i (nth j values []) 0%Z) (seq 0 d))). unfold refine at 1.
    rewrite IH. split.
    + intros [L|[E [[i [Hi [L R]]]|[A L]]]].
      * left. exists d. split; [lia|]. split; [exact L|]. intros j Hj. lia.
      * left. exists i. split; [lia|]. split; [exact L|]. intros j Hj.
        destruct (Nat.eq_dec j d) as [->|]; [exact E|apply R; lia].
      * right. split; [|exact L]. intros i Hi. destruct (Nat.eq_dec i d) as [->|]; [exact E|apply A; lia].
    + intros [[i [Hi [L R]]]|[A L]].
      * destruct (Nat.eq_dec i d) as [->|]; [left; exact L|]. right. split; [apply R; lia|].
        left. exists i. split; [lia|]. split; [exact L|]. intros j Hj. apply R. lia.
      * right. split; [apply A; lia|]. right. split; [intros i Hi; apply A; lia|exact L].
Qed.

Lemma sorted_nth : forall (R : nat -> nat -> Prop) l, StronglySorted R l -> forall a b, a < b < List.length l ->
  R (nth a l 0) (nth b l 0).
Proof.
  intros R l H. induction H as [|x l S IH F]; intros a b L; cbn [List.length] in L; [lia|].
  destruct b as [|b]; [lia|]. destruct a as [|a]; cbn [nth].
  - rewrite Forall_forall in F. apply F. apply nth_In. lia.
  - apply IH. lia.
Qed.
Lemma pre_asym : forall d a b, pre d a b -> pre d b a -> False.
Proof.
  intros d a b [i [Hi [L R]]] [j [Hj [L' R']]]. destruct (lt_eq_lt_dec i j) as [[C|C]|C].
  - rewrite (R j) in L' by lia. lia.
  - subst j. lia.
  - rewrite (R' i) in L by lia. lia.
Qed.
Lemma pre_irr : forall d a b, pre d a b -> (forall i, i < d -> nth i a 0%Z = nth i b 0%Z) -> False.
Proof. intros d a b [i [Hi [L _]]] E. rewrite (E i Hi) in L. lia. Qed.

Lemma zorders_rank : forall values zs, zorders values = Ok zs ->
  List.length zs = List.length values /\
  Permutation zs (map Z.of_nat (seq 1 (List.length values))) /\
  exists d, Forall (fun r => List.length r = d) values /\
  forall p q, p < List.length values -> q < List.length values ->
    ((nth q zs 0 < nth p zs 0)%Z <->
     pre d (nth p values []) (nth q values []) \/ nth p values [] = nth q values [] /\ p < q).
Proof.
  intros values zs H. apply zorders_inv in H as [[-> ->]|[d [D [W E]]]].
  { split; [reflexivity|]. split; [constructor|]. exists 0. split; [constructor|]. cbn. intros; lia. }
  set (n := List.length values) in *.
  set (keys := map (fun i j => nth i (nth j values []) 0%Z) (seq 0 d)) in *.
  destruct (lexsort_gen keys lt (seq 0 n) (seq_sorted n 0)) as [S P].
  fold (lex keys) in S. fold (lexsort n keys) in S, P. set (l := lexsort n keys) in *.
  assert (LL : List.length l = n) by (rewrite (Permutation_length P); apply seq_length).
  assert (ND : NoDup l) by (apply (Permutation_NoDup (Permutation_sym P)); apply seq_NoDup).
  assert (F : Forall (fun j => j < List.length (repeat 0%Z n)) l).
  { rewrite Forall_forall, repeat_length. intros x Hx. apply (Permutation_in _ P) in Hx. apply in_seq in Hx. lia. }
  assert (LZ : List.length zs = n) by (subst zs; rewrite fill_length; apply repeat_length).
  assert (AT : forall a, a < n -> nth (nth a l 0) zs 0%Z = Z.of_nat (n - a)).
  { intros a Ha. subst zs. rewrite fill_at; [reflexivity|exact ND|exact F|lia]. }
  assert (POS : forall p, p < n -> exists a, a < n /\ nth a l 0 = p).
  { intros p Hp. destruct (In_nth l p 0) as [a [Ha Ea]].
    - apply (Permutation_in _ (Permutation_sym P)). apply in_seq. lia.
    - exists a. split; [lia|exact Ea]. }
  split; [exact LZ|]. split.
  - assert (Pz : Permutation zs (map (fun j => nth j zs 0%Z) (seq 0 n))).
    { rewrite <- LZ. clear. induction zs as [|z zs IH]; [constructor|]. cbn [List.length seq map nth].
      apply perm_skip. rewrite <- seq_shift, map_map. exact IH. }
    rewrite Pz. rewrite <- (Permutation_map (fun j => nth j zs 0%Z) P).
    assert (El : map (fun j => nth j zs 0%Z) l = map (fun a => Z.of_nat (n - a)) (seq 0 n)).
    { apply nth_ext with (d := 0%Z) (d' := 0%Z); rewrite !map_length, ?seq_length; [exact LL|].
      intros a Ha. rewrite (nth_indep _ 0%Z (nth 0 zs 0%Z)) by (rewrite map_length; exact Ha).
      rewrite (map_nth (fun j => nth j zs 0%Z) l 0).
      rewrite AT by lia. rewrite (nth_indep _ 0%Z (Z.of_nat (n - 0))) by (rewrite map_length, seq_length; lia).
      rewrite (map_nth (fun a => Z.of_nat (n - a)) (seq 0 n) 0). rewrite seq_nth by lia. reflexivity. }
    rewrite El. clear. induction n as [|n IH]; [constructor|].
    rewrite (seq_S n 1). rewrite (map_app Z.of_nat). cbn [map]. rewrite <- Permutation_cons_append.
    cbn [seq map]. rewrite Nat.sub_0_r. apply perm_skip. rewrite <- (seq_shift n 0), (map_map S).
    rewrite seq_shift. exact IH.
  - exists d. split; [exact W|]. intros p q Hp Hq.
    assert (EQ : nth p values [] = nth q values [] <->
                 forall i, i < d -> nth i (nth p values []) 0%Z = nth i (nth q values []) 0%Z).
    { split; [intros ->; reflexivity|]. intros G. rewrite Forall_forall in W.
      pose proof (W _ (nth_In values [] Hp)) as Wp. pose proof (W _ (nth_In values [] Hq)) as Wq.
      apply nth_ext with (d := 0%Z) (d' := 0%Z); [congruence|]. intros i Hi. apply G. lia. }
    rewrite EQ. rewrite <- (lex_pre values d p q). fold keys.
    destruct (POS p Hp) as [a [Ha Ea]]. destruct (POS q Hq) as [b [Hb Eb]].
    rewrite <- Ea, <- Eb, !AT by assumption. split.
    + intros L. apply sorted_nth; [exact S|lia].
    + intros L. destruct (lt_eq_lt_dec a b) as [[C|C]|C]; [lia| |].
      * subst b. exfalso. apply lex_pre in L as [L|[_ L]]; [eapply pre_asym; eauto|lia].
      * exfalso. assert (L' : lex keys (nth b l 0) (nth a l 0)) by (apply sorted_nth; [exact S|lia]).
        apply lex_pre in L. apply lex_pre in L'.
        destruct L as [L|[A L]]; destruct L' as [L'|[A' L']];
          [eapply pre_asym; eauto|eapply pre_irr; [exact L|intros i Hi; symmetry; auto]
          |eapply pre_irr; [exact L'|intros i Hi; symmetry; auto]|lia].
Qed.

(** The value of a criterion's variable at a point; 1 when it has none. *)
Definition value_at (p : list (string * Z)) (c : criterion) : Z :=
  match aget (by_var c) p with Some v => v | None => 1%Z end.
(** The first point wins on a criterion: ascending criteria put the larger value
    on top, descending ones the smaller value. *)
Definition wins (c : criterion) (p q : list (string * Z)) : Prop :=
  if ascending c then (value_at q c < value_at p c)%Z else (value_at p c < value_at q c)%Z.

Definition crit0 := mkcrit true "".
Lemma order_nth : forall cs p i, i < List.length cs ->
  nth i (order_tuple cs p) 0%Z = order_value p (nth i cs crit0).
Proof.
  intros cs p i H. unfold order_tuple. rewrite (nth_indep _ 0%Z (order_value p crit0)) by (rewrite map_length; exact H).
  apply map_nth.
Qed.
Lemma order_wins : forall c p q, (order_value p c < order_value q c)%Z <-> wins c p q.
Proof. intros c p q. unfold order_value, wins, value_at. destruct (ascending c); lia. Qed.
Lemma order_same : forall c p q, order_value p c = order_value q c <-> value_at p c = value_at q c.
Proof. intros c p q. unfold order_value, value_at. destruct (ascending c); lia. Qed.

(** For every list of criteria and all points: every point gets its own place
    between 1 and n, and one point is above another exactly when it wins on the
    LAST criterion on which they differ; of two points equal on all of them the
    earlier one is above. *)
Theorem C159_places : forall cs points, cs <> [] ->
  exists zs, drawing_order cs points = Ok zs /\
    List.length zs = List.length points /\
    Permutation zs (map Z.of_nat (seq 1 (List.length points))) /\
    forall a b, a < List.length points -> b < List.length points ->
      let p := nth a points [] in let q := nth b points [] in
      (nth b zs 0 < nth a zs 0)%Z <->
      (exists i c, nth_error cs i = Some c /\ wins c p q /\
         forall j e, i < j -> nth_error cs j = Some e -> value_at p e = value_at q e)
      \/ (forall c, In c cs -> value_at p c = value_at q c) /\ a < b.
Proof.
  intros cs points NE. set (values := map (order_tuple cs) points).
  assert (LV : List.length values = List.length points) by (unfold values; apply map_length).
  assert (OK : exists zs, zorders values = Ok zs).
  { unfold zorders. destruct values as [|row l] eqn:E; [eauto|].
    assert (RL : forall r, In r (row :: l) -> List.length r = List.length cs).
    { intros r Hr. rewrite <- E in Hr. unfold values in Hr. apply in_map_iff in Hr as [p [<- _]].
      unfold order_tuple. apply map_length. }
    replace (forallb _ (row :: l)) with true.
    - rewrite (RL row) by now left. destruct (Nat.eqb_spec (List.length cs) 0) as [Z|]; [|eauto].
      elim NE. destruct cs; [reflexivity|discriminate].
    - symmetry. apply forallb_forall. intros r Hr. apply Nat.eqb_eq. rewrite !RL; auto. now left. }
  destruct OK as [zs OK]. exists zs. split; [exact OK|]. destruct (zorders_rank _ _ OK) as [L [P [d [W R]]]].
  rewrite LV in *. split; [exact L|]. split; [exact P|]. intros a b Ha Hb p q.
  assert (NV : forall k, k < List.length points -> nth k values [] = order_tuple cs (nth k points [])).
  { intros k Hk. unfold values. rewrite (nth_indep _ [] (order_tuple cs [])) by (rewrite map_length; exact Hk). apply map_nth. }
  rewrite (R a b Ha Hb), !NV by assumption. fold p q.
  assert (DL : d = List.length cs).
  { rewrite Forall_forall in W. rewrite <- (W (nth a values [])); [rewrite NV by exact Ha; apply map_length|].
    apply nth_In. rewrite LV. exact Ha. }
  subst d.
  assert (PW : pre (List.length cs) (order_tuple cs p) (order_tuple cs q) <->
    exists i c, nth_error cs i = Some c /\ wins c p q /\
      forall j e, i < j -> nth_error cs j = Some e -> value_at p e = value_at q e).
  { split.
    - intros [i [Hi [Lt Eq]]]. exists i, (nth i cs crit0). split; [apply nth_error_nth'; exact Hi|].
      rewrite !order_nth in Lt by exact Hi. split; [apply order_wins; exact Lt|].
      intros j e Lj Ej. assert (Hj : j < List.length cs) by (apply nth_error_Some; congruence).
      specialize (Eq j (conj Lj Hj)). rewrite !order_nth in Eq by exact Hj.
      rewrite (nth_error_nth _ _ crit0 Ej) in Eq. apply order_same. exact Eq.
    - intros [i [c [Ei [Wc Eq]]]]. assert (Hi : i < List.length cs) by (apply nth_error_Some; congruence).
      exists i. split; [exact Hi|]. rewrite !order_nth by exact Hi. rewrite (nth_error_nth _ _ crit0 Ei).
      split; [apply order_wins; exact Wc|]. intros j [Lj Hj]. rewrite !order_nth by exact Hj.
      apply order_same. apply (Eq j); [exact Lj|]. apply nth_error_nth'. exact Hj. }
  rewrite PW.
  assert (EW : order_tuple cs p = order_tuple cs q <-> forall c, In c cs -> value_at p c = value_at q c).
  { unfold order_tuple. split.
    - intros E c Hc. apply order_same. clear -E Hc. induction cs as [|e cs IH]; [contradiction|].
      cbn in E. injection E as E1 E2. destruct Hc as [<-|Hc]; auto.
    - intros E. apply map_ext_in. intros c Hc. apply order_same. auto. }
  rewrite EW. reflexivity.
Qed.
Print Assumptions C159_places.

(** The documented meaning of one criterion (main.py 682-685): in ascending order
    the smaller value is on top.  It is the larger one: for every two points of a
    figure, wherever they are, the one with the smaller value is below. *)
Theorem C159_documented_order_refuted : forall v points zs a b,
  drawing_order [mkcrit true v] points = Ok zs ->
  a < List.length points -> b < List.length points ->
  (value_at (nth a points []) (mkcrit true v) < value_at (nth b points []) (mkcrit true v))%Z ->
  (nth a zs 0 < nth b zs 0)%Z.
Proof.
  intros v points zs a b E Ha Hb L.
  destruct (C159_places [mkcrit true v] points) as [zs' [E' [_ [_ R]]]]; [discriminate|].
  rewrite E in E'. apply Ok_inj in E'. subst zs'. apply (R b a Hb Ha). left. exists 0, (mkcrit true v).
  split; [reflexivity|]. split; [exact L|]. intros j e Lj Ej. destruct j as [|[|j]]; [lia|discriminate|discriminate].
Qed.
Print Assumptions C159_documented_order_refuted.

(** Not refuted, the other direction: in descending order it is the smaller. *)
Theorem C159_descending : forall v points zs a b,
  drawing_order [mkcrit false v] points = Ok zs ->
  a < List.length points -> b < List.length points ->
  (value_at (nth a points []) (mkcrit false v) < value_at (nth b points []) (mkcrit false v))%Z ->
  (nth b zs 0 < nth a zs 0)%Z.
Proof.
  intros v points zs a b E Ha Hb L.
  destruct (C159_places [mkcrit false v] points) as [zs' [E' [_ [_ R]]]]; [discriminate|].
  rewrite E in E'. apply Ok_inj in E'. subst zs'. apply (R a b Ha Hb). left. exists 0, (mkcrit false v).
  split; [reflexivity|]. split; [exact L|]. intros j e Lj Ej. destruct j as [|[|j]]; [lia|discriminate|discriminate].
Qed.
Print Assumptions C159_descending.

(** With two criteria the second one decides, whatever the first says. *)
Theorem C159_first_criterion_refuted : forall c1 c2 points zs a b,
  drawing_order [c1; c2] points = Ok zs ->
  a < List.length points -> b < List.length points ->
  wins c1 (nth a points []) (nth b points []) -> wins c2 (nth b points []) (nth a points []) ->
  (nth a zs 0 < nth b zs 0)%Z.
Proof.
  intros c1 c2 points zs a b E Ha Hb _ L.
  destruct (C159_places [c1; c2] points) as [zs' [E' [_ [_ R]]]]; [discriminate|].
  rewrite E in E'. apply Ok_inj in E'. subst zs'. apply (R b a Hb Ha). left. exists 1, c2.
  split; [reflexivity|]. split; [exact L|]. intros j e Lj Ej. destruct j as [|[|[|j]]]; try lia; discriminate.
Qed.
Print Assumptions C159_first_criterion_refuted.

Example C159_nonvacuous :
  drawing_order [mkcrit true "loss"; mkcrit false "N"]
    [[("loss", 3); ("N", 10)]; [("loss", 5); ("N", 10)]; [("N", 4)]; [("loss", 3); ("N", 10)]]%Z
  = Ok [2; 3; 4; 1]%Z
  /\ drawing_order [mkcrit true "loss"] [[("loss", 3)]; [("loss", 5)]]%Z = Ok [1; 2]%Z
  /\ drawing_order [mkcrit true "a"; mkcrit true "b"] [[("a", 9); ("b", 0)]; [("a", 0); ("b", 9)]]%Z = Ok [1; 2]%Z.
Proof. repeat split. Qed.

(** * C160: every point carries the values of its own entry *)

Section PointProps.
  Context {V : Type}.
  Notation dict := (list (string * V)).

  (** What an entry says about a variable. *)
  Definition said (v : string) (e : res dict) : option V :=
    match e with Ok x => aget v x | Raise _ => None end.
  (** The latest value said in a list of entries. *)
  Definition latest (v : string) (es : list dict) : option V :=
    fold_left (fun a e => match aget v e with Some x => Some x | None => a end) es None.

  Lemma latest_from : forall v es a,
    fold_left (fun a e => match aget v e with Some x => Some x | None => a end) es a
    = match latest v es with Some x => Some x | None => a end.
  Proof.
    intros v es. unfold latest. induction es as [|e es IH]; intros a; cbn [fold_left]; [reflexivity|].
    rewrite IH. rewrite (IH (match aget v e with Some x => Some x | None => None end)).
    destruct (fold_left _ es None); [reflexivity|]. destruct (aget v e); reflexivity.
  Qed.

  Lemma update_get : forall (d e : dict) c, NoDup (map fst e) ->
    aget c (update d e) = match aget c e with Some v => Some v | None => aget c d end.
  Proof. intros d e c H. unfold update. apply assign_get. exact H. Qed.
  Lemma update_NoDup : forall (e d : dict), NoDup (map fst d) -> NoDup (map fst (update d e)).
  Proof. induction e as [|[k v] e IH]; intros d H; cbn; [exact H|]. apply IH. apply aset_NoDup. exact H. Qed.

  (** The points of a folder whose entries all succeed. *)
  Fixpoint points_of (cur : dict) (es : list dict) : list dict :=
    match es with [] => [] | e :: r => update cur e :: points_of (update cur e) r end.
  Lemma folder_ok : forall (es : list dict) (cur : dict) acc,
    fst (folder_points cur (map Ok es) acc) = acc ++ points_of cur es.
  Proof.
    induction es as [|e es IH]; intros cur acc; cbn [map folder_points points_of]; [cbn; now rewrite app_nil_r|].
    rewrite IH, <- app_assoc. reflexivity.
  Qed.
  Lemma folder_last : forall (es : list dict) (cur : dict) acc,
    snd (folder_points cur (map Ok es) acc) = Ok (fold_left update es cur).
  Proof. induction es as [|e es IH]; intros cur acc; cbn [map folder_points fold_left]; [reflexivity|]. apply IH. Qed.
  Lemma folder_failed : forall (es : list dict) (cur : dict) acc x rest,
    folder_points cur (map Ok es ++ Raise x :: rest) acc = (acc ++ points_of cur es, Raise x).
  Proof.
    induction es as [|e es IH]; intros cur acc x rest; cbn [map folder_points points_of app]; [now rewrite app_nil_r|].
    rewrite IH, <- app_assoc. reflexivity.
  Qed.
  Lemma points_length : forall (es : list dict) cur, List.length (points_of cur es) = List.length es.
  Proof. induction es as [|e es IH]; intros cur; cbn; [reflexivity|]. now rewrite IH. Qed.
  Lemma points_NoDup : forall (es : list dict) cur p, NoDup (map fst cur) -> In p (points_of cur es) -> NoDup (map fst p).
  Proof.
    induction es as [|e es IH]; intros cur p N H; cbn in H; [contradiction|].
    destruct H as [<-|H]; [apply update_NoDup; exact N|]. apply (IH (update cur e) p); [|exact H]. apply update_NoDup; exact N.
  Qed.
  Lemma points_latest : forall (es : list dict) cur v k p, Forall (fun e : dict => NoDup (map fst e)) es ->
    nth_error (points_of cur es) k = Some p ->
    aget v p = match latest v (firstn (S k) es) with Some x => Some x | None => aget v cur end.
  Proof.
    induction es as [|e es IH]; intros cur v k p F H; [destruct k; discriminate|].
    inversion F as [|? ? Fe Fes]; subst. destruct k as [|k]; cbn [points_of nth_error] in H.
    - injection H as <-. rewrite update_get by exact Fe. cbn [firstn]. unfold latest. cbn [fold_left].
      destruct (aget v e); reflexivity.
    - rewrite (IH _ v k p Fes H). change (firstn (S (S k)) (e :: es)) with (e :: firstn (S k) es).
      generalize (firstn (S k) es). intros l. unfold latest at 2. cbn [fold_left]. rewrite latest_from.
      destruct (latest v l); [reflexivity|]. rewrite update_get by exact Fe.
      destruct (aget v e); reflexivity.
  Qed.

  (** The merged columns. *)
  Lemma merge_one_get : forall acc k (v : V) c,
    aget c (merge_one acc (k, v)) =
      if String.eqb c k
      then if memb k plot_variables
           then Some (Many (match aget k acc with Some (Many vs) => vs ++ [v] | _ => [v] end))
           else match aget k acc with None => Some (One v) | s => s end
      else aget c acc.
  Proof.
    intros acc k v c. unfold merge_one. destruct (String.eqb_spec c k) as [->|N].
    - destruct (memb k plot_variables).
      + destruct (aget k acc) as [[vs|w]|]; apply aget_aset_same.
      + destruct (aget k acc) as [col|] eqn:E; [exact E|apply aget_aset_same].
    - destruct (memb k plot_variables).
      + destruct (aget k acc) as [[vs|w]|]; apply aget_aset_other; exact N.
      + destruct (aget k acc) as [col|] eqn:E; [reflexivity|apply aget_aset_other; exact N].
  Qed.
  Lemma merge_dict_get : forall (d : dict) acc c, NoDup (map fst d) -> memb c plot_variables = true ->
    aget c (fold_left merge_one d acc) =
      match aget c d with
      | Some v => Some (Many (match aget c acc with Some (Many vs) => vs ++ [v] | _ => [v] end))
      | None => aget c acc
      end.
  Proof.
    induction d as [|[k v] d IH]; intros acc c N M; cbn [fold_left aget]; [reflexivity|].
    inversion N; subst. rewrite IH by assumption. rewrite merge_one_get.
    destruct (String.eqb_spec c k) as [->|NE].
    - rewrite (proj2 (aget_None _ k d)) by assumption. rewrite M. reflexivity.
    - reflexivity.
  Qed.
  Definition opt_list {A} (o : option A) : list A := match o with Some x => [x] | None => [] end.
  Lemma merge_get_gen : forall (ps : list dict) acc c, (forall p, In p ps -> NoDup (map fst p)) -> memb c plot_variables = true ->
    (forall w, aget c acc <> Some (One w)) ->
    aget c (fold_left (fun a d => fold_left merge_one d a) ps acc) =
      match aget c acc with
      | Some (Many vs) => Some (Many (vs ++ flat_map (fun p => opt_list (aget c p)) ps))
      | _ => match flat_map (fun p => opt_list (aget c p)) ps with [] => None | l => Some (Many l) end
      end.
  Proof.
    induction ps as [|p ps IH]; intros acc c N M NO; cbn [fold_left flat_map].
    - destruct (aget c acc) as [[vs|w]|] eqn:E; [now rewrite app_nil_r|elim (NO w); reflexivity|reflexivity].
    - rewrite IH; [|intros q Hq; apply N; now right|exact M|].
      + rewrite merge_dict_get by (auto; apply N; now left).
        destruct (aget c p) as [v|]; cbn [opt_list app].
        * destruct (aget c acc) as [[vs|w]|] eqn:E.
          { now rewrite <- app_assoc. } { elim (NO w). reflexivity. } { reflexivity. }
        * destruct (aget c acc) as [[vs|w]|] eqn:E; [reflexivity|elim (NO w); reflexivity|reflexivity].
      + rewrite merge_dict_get by (auto; apply N; now left). intros w.
        destruct (aget c p); [discriminate|apply NO].
  Qed.
  Lemma merge_get : forall (ps : list dict) c, (forall p, In p ps -> NoDup (map fst p)) -> memb c plot_variables = true ->
    aget c (merge ps) = match flat_map (fun p => opt_list (aget c p)) ps with [] => None | l => Some (Many l) end.
  Proof. intros ps c N M. unfold merge. rewrite merge_get_gen; [reflexivity|exact N|exact M|]. cbn. discriminate. Qed.

  Lemma all_points_ok : forall (fs : list (V * list dict)),
    all_points (map (fun f => (fst f, map Ok (snd f))) fs)
    = flat_map (fun f => points_of [("outputs", fst f)] (snd f)) fs.
  Proof.
    intros fs. unfold all_points.
    assert (G : forall acc, fold_left (fun acc f => fst (folder_points (start f) (snd f) acc))
       (map (fun f => (fst f, map Ok (snd f))) fs) acc
       = acc ++ flat_map (fun f => points_of [("outputs", fst f)] (snd f)) fs).
    { induction fs as [|f fs IH]; intros acc; cbn [map fold_left flat_map]; [now rewrite app_nil_r|].
      rewrite IH. unfold start. cbn [fst snd]. rewrite folder_ok, app_assoc. reflexivity. }
    apply (G []).
  Qed.

  Lemma single_NoDup : forall (k : string) (v : V), NoDup (map fst [(k, v)]).
  Proof. intros k v. constructor; [intros []|constructor]. Qed.

  (** In general: the k-th point of a folder carries, for every variable, the
      latest value said by the entries of that folder up to its own. *)
  Theorem C160_latest_value : forall o (es : list dict) k p v,
    Forall (fun e : dict => NoDup (map fst e)) es -> v <> "outputs" ->
    nth_error (all_points [(o, map Ok es)]) k = Some p ->
    aget v p = latest v (firstn (S k) es).
  Proof.
    intros o es k p v F NV H. change (o, map Ok es) with ((fun f => (fst f, map Ok (snd f))) (o, es)) in H.
    pose proof (all_points_ok [(o, es)]) as A. cbn [map fst snd flat_map] in A. rewrite app_nil_r in A.
    cbn [fst snd] in H. rewrite A in H. rewrite (points_latest es _ v k p F H).
    destruct (latest v (firstn (S k) es)); [reflexivity|].
    cbn [aget]. destruct (String.eqb_spec v "outputs"); [contradiction|reflexivity].
  Qed.

  (** What is drawn of a point: its coordinates, its subplot and its style. *)
  Definition point_variables : list string :=
    ["x"; "y"; "z"; "x_group"; "y_group"; "z_group"; "marker"; "marker_size"; "line_style"; "line_width";
     "colour"; "opacity"; "hatch"; "hatch_opacity"; "zorder"; "annotate"; "label"].
  Lemma point_drawn : forall v, In v point_variables -> In v plot_variables.
  Proof. intros v H. cbn in H. cbn. tauto. Qed.

  (** A variable that every entry of every folder has: the figure's column lists
      the values in the order of the folders and of their entries, one for each
      point, so every point is drawn with its own. *)
  Theorem C160_own_values_partial : forall (fs : list (V * list dict)) v (val : dict -> V),
    In v point_variables ->
    (forall f (e : dict), In f fs -> In e (snd f) -> NoDup (map fst e) /\ aget v e = Some (val e)) ->
    (exists f e, In f fs /\ In e (snd f)) ->
    let all := flat_map (fun f => map val (snd f)) fs in
    exists c, aget v (figure (map (fun f => (fst f, map Ok (snd f))) fs)) = Some c
      /\ c = Many all
      /\ List.length all = List.length (all_points (map (fun f => (fst f, map Ok (snd f))) fs))
      /\ forall i, i < List.length all -> drawn c i = nth_error all i.
  Proof.
    intros fs v val M0 H EX all. pose proof (point_drawn v M0) as M. exists (Many all).
    assert (MB : memb v plot_variables = true).
    { unfold memb. apply existsb_exists. exists v. split; [exact M|apply String.eqb_refl]. }
    assert (P1 : forall o es cur, (forall e : dict, In e es -> NoDup (map fst e) /\ aget v e = Some (val e)) ->
       flat_map (fun p => opt_list (aget v p)) (points_of ([("outputs", o)] ++ cur) es) = map val es /\ True).
    { clear. intros o es cur H. split; [|exact I]. revert H. generalize ([("outputs", o)] ++ cur). clear cur.
      induction es as [|e es IH]; intros cur H; cbn [points_of flat_map map]; [reflexivity|].
      destruct (H e (or_introl eq_refl)) as [Ne Ae]. rewrite update_get by exact Ne. rewrite Ae. cbn [opt_list app].
      f_equal. apply IH. intros x Hx. apply H. now right. }
    assert (E : flat_map (fun p => opt_list (aget v p)) (all_points (map (fun f => (fst f, map Ok (snd f))) fs)) = all).
    { rewrite all_points_ok. unfold all. clear EX all. induction fs as [|f fs IH]; cbn [flat_map]; [reflexivity|].
      rewrite flat_map_app. f_equal.
      - destruct (P1 (fst f) (snd f) []) as [Q _]; [|exact Q]. intros e He. apply (H f e); [now left|exact He].
      - apply IH. intros g e Hg He. apply (H g e); [now right|exact He]. }
    assert (ND : forall p, In p (all_points (map (fun f => (fst f, map Ok (snd f))) fs)) -> NoDup (map fst p)).
    { intros p Hp. rewrite all_points_ok in Hp. apply in_flat_map in Hp as [f [_ Hp]].
      eapply points_NoDup; [|exact Hp]. apply single_NoDup. }
    split.
    - unfold figure. rewrite merge_get by assumption. rewrite E. destruct all as [|a l] eqn:EA; [|reflexivity].
      exfalso. destruct EX as [f [e [Hf He]]]. assert (I1 : In (val e) all).
      { unfold all. apply in_flat_map. exists f. split; [exact Hf|]. apply in_map. exact He. }
      rewrite EA in I1. contradiction.
    - split; [reflexivity|]. split.
      + rewrite all_points_ok. unfold all. clear. induction fs as [|f fs IH]; [reflexivity|].
        cbn [flat_map]. rewrite !app_length, map_length, points_length, IH. reflexivity.
      + intros i Hi. unfold drawn. destruct all as [|a [|b l]]; [cbn in Hi; lia| |reflexivity].
        cbn in Hi. destruct i as [|i]; [reflexivity|lia].
  Qed.

  (** A variable the second entry of a folder lacks: its point is drawn with the
      value of the first. *)
  Theorem C160_carried_over_refuted : forall o v a (e1 e2 : dict), In v point_variables ->
    NoDup (map fst e1) -> NoDup (map fst e2) -> aget v e1 = Some a -> aget v e2 = None ->
    exists c, aget v (figure [(o, [Ok e1; Ok e2])]) = Some c /\ drawn c 1 = Some a.
  Proof.
    intros o v a e1 e2 M0 N1 N2 A1 A2. pose proof (point_drawn v M0) as M.
    assert (MB : memb v plot_variables = true).
    { unfold memb. apply existsb_exists. exists v. split; [exact M|apply String.eqb_refl]. }
    exists (Many [a; a]). split; [|reflexivity]. unfold figure.
    change [(o, [Ok e1; Ok e2])] with (map (fun f => (fst f, map Ok (snd f))) [(o, [e1; e2])]).
    rewrite all_points_ok. cbn [flat_map fst snd points_of app].
    rewrite merge_get; [|intros p Hp|exact MB].
    - cbn [flat_map]. rewrite (update_get (update _ e1) e2 v N2), !(update_get [("outputs", o)] e1 v N1), A1, A2. reflexivity.
    - destruct Hp as [<-|[<-|[]]]; repeat apply update_NoDup; apply single_NoDup.
  Qed.

  (** A variable the first entry lacks: its point is drawn with the value of the
      second. *)
  Theorem C160_shifted_refuted : forall o v b (e1 e2 : dict), In v point_variables ->
    NoDup (map fst e1) -> NoDup (map fst e2) -> aget v e1 = None -> aget v e2 = Some b ->
    exists c, aget v (figure [(o, [Ok e1; Ok e2])]) = Some c /\ drawn c 0 = Some b /\ drawn c 1 = Some b.
  Proof.
    intros o v b e1 e2 M0 N1 N2 A1 A2. pose proof (point_drawn v M0) as M.
    assert (MB : memb v plot_variables = true).
    { unfold memb. apply existsb_exists. exists v. split; [exact M|apply String.eqb_refl]. }
    assert (NV : v <> "outputs") by (intros ->; cbn in M; intuition discriminate).
    exists (Many [b]). split; [|split; reflexivity]. unfold figure.
    change [(o, [Ok e1; Ok e2])] with (map (fun f => (fst f, map Ok (snd f))) [(o, [e1; e2])]).
    rewrite all_points_ok. cbn [flat_map fst snd points_of app].
    rewrite merge_get; [|intros p Hp|exact MB].
    - cbn [flat_map]. rewrite (update_get (update _ e1) e2 v N2), !(update_get [("outputs", o)] e1 v N1), A1, A2.
      cbn [aget]. destruct (String.eqb_spec v "outputs"); [contradiction|reflexivity].
    - destruct Hp as [<-|[<-|[]]]; repeat apply update_NoDup; apply single_NoDup.
  Qed.

  (** An entry that raises: the points before it stay, the rest of its folder is
      dropped, the other folders are read as if nothing had happened. *)
  Theorem C160_failed_entry : forall before o (es : list dict) x rest after,
    all_points (before ++ (o, map Ok es ++ Raise x :: rest) :: after)
    = all_points (before ++ (o, map Ok es) :: after).
  Proof.
    intros before o es x rest after. unfold all_points. rewrite !fold_left_app. cbn [fold_left].
    unfold start. cbn [fst snd]. rewrite folder_failed, folder_ok. reflexivity.
  Qed.

  (** * C161: figures by experiment *)

  (** One figure for each folder that did not fail; it holds what the entries said
      last, and nothing of the entries before unless the later ones are silent. *)
  Theorem C161_latest_only : forall o (es : list dict) d v,
    Forall (fun e : dict => NoDup (map fst e)) es -> v <> "outputs" ->
    figures_by_experiment [(o, map Ok es)] = [d] -> aget v d = latest v es.
  Proof.
    intros o es d v F NV H. unfold figures_by_experiment in H. cbn [flat_map fst snd] in H.
    rewrite folder_last in H. cbn [app] in H. injection H as <-. unfold start. cbn [fst].
    assert (G : forall (es : list dict) cur, Forall (fun e : dict => NoDup (map fst e)) es ->
      aget v (fold_left update es cur) = match latest v es with Some x => Some x | None => aget v cur end).
    { clear. induction es as [|e es IH]; intros cur F; cbn [fold_left]; [reflexivity|].
      inversion F; subst. rewrite IH by assumption. unfold latest at 2. cbn [fold_left]. rewrite latest_from.
      destruct (latest v es); [reflexivity|]. rewrite update_get by assumption. destruct (aget v e); reflexivity. }
    rewrite G by exact F. destruct (latest v es); [reflexivity|]. cbn [aget].
    destruct (String.eqb_spec v "outputs"); [contradiction|reflexivity].
  Qed.

  (** A folder with one entry: the figure shows it. *)
  Theorem C161_single_entry_partial : forall o (e : dict) v a, NoDup (map fst e) -> v <> "outputs" ->
    aget v e = Some a ->
    exists d, figures_by_experiment [(o, [Ok e])] = [d] /\ aget v d = Some a.
  Proof.
    intros o e v a N NV A. exists (update (start (o, [Ok e])) e). split; [reflexivity|].
    rewrite update_get by exact N. rewrite A. reflexivity.
  Qed.

  (** Two entries: the value of the first is nowhere in the figure. *)
  Theorem C161_every_entry_refuted : forall o (e1 e2 : dict) v b,
    NoDup (map fst e1) -> NoDup (map fst e2) -> v <> "outputs" -> aget v e2 = Some b ->
    exists d, figures_by_experiment [(o, [Ok e1; Ok e2])] = [d] /\ aget v d = Some b.
  Proof.
    intros o e1 e2 v b N1 N2 NV B. eexists. split; [reflexivity|].
    rewrite update_get by exact N2. rewrite B. reflexivity.
  Qed.

  (** A folder with a failed entry has no figure, whatever its other entries
      said, and the other folders have theirs. *)
  Theorem C161_failed_folder : forall before o (es : list dict) x rest after,
    figures_by_experiment (before ++ (o, map Ok es ++ Raise x :: rest) :: after)
    = figures_by_experiment (before ++ after).
  Proof.
    intros before o es x rest after. unfold figures_by_experiment. rewrite !flat_map_app. cbn [flat_map fst snd].
    rewrite folder_failed. reflexivity.
  Qed.
End PointProps.
Print Assumptions C160_latest_value.
Print Assumptions C160_own_values_partial.
Print Assumptions C160_carried_over_refuted.
Print Assumptions C160_shifted_refuted.
Print Assumptions C160_failed_entry.
Print Assumptions C161_latest_only.
Print Assumptions C161_single_entry_partial.
Print Assumptions C161_every_entry_refuted.
Print Assumptions C161_failed_folder.

Example C160_nonvacuous :
  aget "y" (figure [(0, [Ok [("x", 1); ("y", 2)]; Ok [("x", 3); ("y", 4)]]); (9, [Ok [("x", 5); ("y", 6)]])])
  = Some (Many [2; 4; 6])
  /\ aget "colour" (figure [(0, [Ok [("x", 1); ("colour", 7)]; Ok [("x", 3)]])]) = Some (Many [7; 7])
  /\ aget "colour" (figure [(0, [Ok [("x", 1)]; Ok [("x", 3); ("colour", 7)]])]) = Some (Many [7])
  /\ aget "x" (figure [(0, [Ok [("x", 1)]; Raise EType; Ok [("x", 2)]]); (9, [Ok [("x", 5)]])]) = Some (Many [1; 5]).
Proof. repeat split. Qed.
Example C161_nonvacuous :
  figures_by_experiment [(0, [Ok [("x", 1)]; Ok [("x", 3)]]); (7, [Ok [("x", 4)]; Raise EKey]); (9, [Ok [("x", 5)]])]
  = [[("outputs", 0); ("x", 3)]; [("outputs", 9); ("x", 5)]].
Proof. reflexivity. Qed.

(** * C162: the labels of the legend *)

(** The text known for a value, if it is one of the names of the table. *)
Definition known (s : string) : option string := aget s raw_expressions.

Lemma tidy_empty : tidy_label "" = "".
Proof. reflexivity. Qed.

(** One text key: a known name is shown as its expression; any other text is
    shown as an empty label. *)
Theorem C162_one_key : forall k meta s, k <> "" -> k <> "sigma" -> aget k meta = Some (MText s) ->
  label_text [k] meta = Ok (match known s with Some e => e | None => "" end).
Proof.
  intros k meta s NE NS A. unfold label_text. cbn [filter].
  destruct (String.eqb_spec k "") as [|_]; [contradiction|]. cbn [negb mapM]. rewrite A. cbn [rbind].
  unfold latex_it, known. cbn [mtext]. destruct (aget s raw_expressions) as [e|]; [reflexivity|].
  destruct (String.eqb_spec k "sigma") as [|_]; [contradiction|]. reflexivity.
Qed.
Print Assumptions C162_one_key.

(** Known names: different names get different labels, apart from the two pairs
    that differ in a hash sign. *)
Definition hashed (s : string) : bool :=
  memb s ["_doubly_10#%_cell_constrained"; "_doubly_20#%_cell_constrained"].
Lemma known_unique : forall i j, i < List.length raw_expressions -> j < List.length raw_expressions ->
  let p := nth i raw_expressions ("", "") in let q := nth j raw_expressions ("", "") in
  hashed (fst p) = false -> hashed (fst q) = false -> snd p = snd q -> fst p = fst q.
Proof.
  assert (G : forallb (fun p => forallb (fun q => hashed (fst p) || hashed (fst q) || negb (String.eqb (snd p) (snd q))
     || String.eqb (fst p) (fst q))%bool raw_expressions) raw_expressions = true) by (vm_compute; reflexivity).
  intros i j Hi Hj p q Hp Hq E. rewrite forallb_forall in G. specialize (G p (nth_In _ _ Hi)).
  rewrite forallb_forall in G. specialize (G q (nth_In _ _ Hj)). rewrite Hp, Hq, E, String.eqb_refl in G.
  cbn [orb negb] in G. apply String.eqb_eq. exact G.
Qed.
Theorem C162_known_names_partial : forall k m1 m2 s1 s2 e1 e2, k <> "" -> k <> "sigma" ->
  aget k m1 = Some (MText s1) -> aget k m2 = Some (MText s2) ->
  known s1 = Some e1 -> known s2 = Some e2 -> hashed s1 = false -> hashed s2 = false ->
  label_text [k] m1 = label_text [k] m2 -> s1 = s2.
Proof.
  intros k m1 m2 s1 s2 e1 e2 NE NS A1 A2 K1 K2 H1 H2 E.
  rewrite (C162_one_key k m1 s1 NE NS A1), (C162_one_key k m2 s2 NE NS A2), K1, K2 in E. apply Ok_inj in E. subst e2.
  apply aget_In in K1. apply aget_In in K2.
  apply (In_nth _ _ ("", "")) in K1 as [i [Hi Ei]]. apply (In_nth _ _ ("", "")) in K2 as [j [Hj Ej]].
  pose proof (known_unique i j Hi Hj) as U. cbv zeta in U. rewrite Ei, Ej in U. cbn [fst snd] in U.
  apply U; auto.
Qed.
Print Assumptions C162_known_names_partial.

(** Other texts: any two of them get the same label, the empty one. *)
Theorem C162_other_names_refuted : forall k m1 m2 s1 s2, k <> "" -> k <> "sigma" ->
  aget k m1 = Some (MText s1) -> aget k m2 = Some (MText s2) -> known s1 = None -> known s2 = None ->
  label_text [k] m1 = Ok "" /\ label_text [k] m2 = Ok "".
Proof.
  intros k m1 m2 s1 s2 NE NS A1 A2 K1 K2.
  rewrite (C162_one_key k m1 s1 NE NS A1), (C162_one_key k m2 s2 NE NS A2), K1, K2. split; reflexivity.
Qed.
Print Assumptions C162_other_names_refuted.

(** A numeric value cannot be a label: whatever the other keys are, a key with a
    number that is not sigma raises, so the entry gives no point. *)
Theorem C162_number_refuted : forall keys k meta s, In k keys -> k <> "" -> k <> "sigma" ->
  aget k meta = Some (MNum s) -> known s = None -> is_ok (label_text keys meta) = false.
Proof.
  intros keys k meta s I NE NS A K. unfold label_text.
  assert (I' : In k (filter (fun k => negb (String.eqb k "")) keys)).
  { apply filter_In. split; [exact I|]. destruct (String.eqb_spec k ""); [contradiction|reflexivity]. }
  revert I'. generalize (filter (fun k => negb (String.eqb k "")) keys). clear I.
  assert (J : forall l, In (MNum s) l -> is_ok (join_labels l) = false).
  { induction l as [|[t|t] l IH]; intros H; [contradiction| |reflexivity].
    destruct H as [H|H]; [discriminate|]. specialize (IH H). cbn [join_labels].
    destruct l as [|y l]; [contradiction|]. destruct (join_labels (y :: l)); [discriminate|reflexivity]. }
  intros l I'.
  destruct (mapM (fun k => match aget k meta with Some v => Ok (latex_it k v) | None => Raise EKey end) l) as [ps|] eqn:E;
    [|reflexivity]. cbn [rbind]. apply J.
  revert ps E. induction l as [|x l IH]; intros ps E; [contradiction|]. cbn [mapM] in E.
  destruct (aget x meta) as [v|] eqn:Ax; [|discriminate]. cbn [rbind] in E.
  destruct (mapM _ l) as [ys|] eqn:El; [|discriminate]. cbn [rbind] in E. apply Ok_inj in E. subst ps.
  destruct I' as [->|I'].
  - left. rewrite A in Ax. injection Ax as <-. unfold latex_it. cbn [mtext]. unfold known in K. rewrite K.
    destruct (String.eqb_spec k "sigma"); [contradiction|reflexivity].
  - right. apply IH; auto.
Qed.
Print Assumptions C162_number_refuted.

(** Several keys: the labels of the keys, in the order of the option, separated
    by a comma and a space; a key the entry lacks raises. *)
Theorem C162_more_keys : forall k ks meta a b, k <> "" -> (exists j, In j ks /\ j <> "") ->
  label_text [k] meta = Ok a -> label_text ks meta = Ok b ->
  label_text (k :: ks) meta = Ok (a ++ ", " ++ b)%string.
Proof.
  intros k ks meta a b NE EJ Ha Hb.
  enough (E : label_text (k :: ks) meta =
    match label_text [k] meta, label_text ks meta with
    | Ok a, Ok b => Ok (a ++ ", " ++ b)%string
    | _, _ => label_text (k :: ks) meta
    end) by (rewrite Ha, Hb in E; exact E).
  clear a b Ha Hb. revert k ks meta NE EJ.
  intros k ks meta NE [j [Ij Nj]]. unfold label_text. cbn [filter].
  destruct (String.eqb_spec k "") as [|_]; [contradiction|]. cbn [negb mapM].
  destruct (aget k meta) as [v|]; [|reflexivity]. cbn [rbind].
  assert (I' : In j (filter (fun k => negb (String.eqb k "")) ks)).
  { apply filter_In. split; [exact Ij|]. destruct (String.eqb_spec j ""); [contradiction|reflexivity]. }
  destruct (filter (fun k => negb (String.eqb k "")) ks) as [|x l]; [contradiction|]. cbn [mapM].
  destruct (aget x meta) as [w|]; [|destruct (join_labels [latex_it k v]); reflexivity]. cbn [rbind].
  destruct (mapM _ l) as [ys|]; [|cbn [rbind]; destruct (join_labels [latex_it k v]); reflexivity]. cbn [rbind].
  destruct (latex_it k v) as [s|s]; [|reflexivity].
  change (join_labels [MText s]) with (Ok s). cbn [join_labels].
  change (match latex_it x w with MText s0 => _ | MNum _ => _ end) with (join_labels (latex_it x w :: ys)).
  destruct (join_labels (latex_it x w :: ys)) as [t|]; reflexivity.
Qed.
Print Assumptions C162_more_keys.
Theorem C162_missing_key : forall keys k meta, In k keys -> k <> "" -> aget k meta = None ->
  is_ok (label_text keys meta) = false.
Proof.
  intros keys k meta I NE A. unfold label_text.
  assert (I' : In k (filter (fun k => negb (String.eqb k "")) keys)).
  { apply filter_In. split; [exact I|]. destruct (String.eqb_spec k ""); [contradiction|reflexivity]. }
  revert I'. generalize (filter (fun k => negb (String.eqb k "")) keys). clear I. intros l I'.
  induction l as [|x l IH]; [contradiction|]. cbn [mapM]. destruct I' as [->|I'].
  - rewrite A. reflexivity.
  - destruct (aget x meta) as [v|]; [|reflexivity]. cbn [rbind].
    destruct (mapM _ l) as [ys|] eqn:E; [|reflexivity]. exfalso. clear IH. revert ys E.
    induction l as [|y l IH]; intros ys E; [contradiction|]. cbn [mapM] in E. destruct I' as [->|I'].
    + rewrite A in E. discriminate.
    + destruct (aget y meta); [|discriminate]. cbn [rbind] in E.
      destruct (mapM _ l) as [zs|] eqn:El; [|discriminate]. eapply IH; eauto.
Qed.
Print Assumptions C162_missing_key.

Example C162_nonvacuous :
  label_text ["type"; ""; "sigma"] [("type", MText "SIM_NN"); ("sigma", MNum "0.014")] = Ok "\gaskinframeworktag, $\sigma = 0.014$"
  /\ label_text ["title"] [("title", MText "small_run")] = Ok ""
  /\ label_text ["title"] [("title", MText "big_run")] = Ok ""
  /\ label_text ["N"] [("N", MNum "100")] = Raise EType
  /\ label_text ["title"] [] = Raise EKey
  /\ known "TotallyConstrained" = Some "$\myintensitytotal$".
Proof. repeat split. Qed.
