(** Theorems about index slicing (outputs.py 437-541): C49, C82. *)
From Coq Require Import List ZArith Lia Bool Arith String Permutation Sorting.Sorted.
From Verif Require Import Base PyMonad Slicing.
Import ListNotations.
Local Open Scope Z_scope.

(** * Specification *)

(** [l'] is what remains of [l] with burn-in [b], thinning [t], trimming [m]:
    the entries at positions b, b+t, b+2t, ..., at most [m] of them, in order. *)
Definition keeps {A} (b t : Z) (m : option Z) (dflt : A) (l l' : list A) : Prop :=
  exists ps : list nat,
    l' = map (fun p => nth p l dflt) ps /\
    StronglySorted lt ps /\
    forall p, In p ps <->
      ((p < List.length l)%nat /\ b <= Z.of_nat p /\ (Z.of_nat p - b) mod t = 0 /\
       match m with None => True | Some m' => (Z.of_nat p - b) / t < m' end).

(** Settings a user can mean: burn-in at least 0, thinning at least 1, trimming
    absent or at least 0. *)
Definition sane (s : islice) : Prop :=
  0 <= sl_burnin s /\ 1 <= sl_thinning s /\
  match sl_trimming s with None => True | Some m => 0 <= m end.

(** The slice would leave something of a dimension with [n] labels. *)
Definition leaves_some (s : islice) (n : nat) : bool :=
  (sl_burnin s <? Z.of_nat n) &&
  match sl_trimming s with None => true | Some m => 0 <? m end.

(** An array with distinct dimension names and, in every dimension, at least one
    label and no label twice. *)
Definition well_formed {V} (a : array V) : Prop :=
  NoDup (map fst (a_dims a)) /\
  forall d cs, In (d, cs) (a_dims a) -> NoDup cs /\ cs <> [].

(** * Lists *)

Lemma sorted_unique : forall (l1 l2 : list nat),
  StronglySorted lt l1 -> StronglySorted lt l2 -> (forall x, In x l1 <-> In x l2) -> l1 = l2.
Proof.
  induction l1 as [|a l1 IH]; intros [|b l2] H1 H2 He; auto.
  - destruct (proj2 (He b) (or_introl eq_refl)).
  - destruct (proj1 (He a) (or_introl eq_refl)).
  - inversion H1 as [|? ? Hs1 Hf1]; inversion H2 as [|? ? Hs2 Hf2]; subst.
    rewrite Forall_forall in Hf1, Hf2.
    assert (a = b).
    { destruct (proj1 (He a) (or_introl eq_refl)) as [?|Ha]; auto.
      destruct (proj2 (He b) (or_introl eq_refl)) as [?|Hb]; auto.
      specialize (Hf1 _ Hb). specialize (Hf2 _ Ha). lia. }
    subst b. f_equal. apply IH; auto. intro x; split; intro Hx.
    + destruct (proj1 (He x) (or_intror Hx)) as [->|?]; auto. specialize (Hf1 _ Hx); lia.
    + destruct (proj2 (He x) (or_intror Hx)) as [->|?]; auto. specialize (Hf2 _ Hx); lia.
Qed.

Lemma seq_sorted : forall n s, StronglySorted lt (seq s n).
Proof.
  induction n; intro s; cbn; constructor; auto.
  rewrite Forall_forall. intros x Hx. apply in_seq in Hx. lia.
Qed.

Lemma filter_sorted : forall (f : nat -> bool) l, StronglySorted lt l -> StronglySorted lt (filter f l).
Proof.
  induction 1 as [|a l Hs IH Hf]; cbn; [constructor|].
  destruct (f a); auto. constructor; auto.
  rewrite Forall_forall in *. intros x Hx. apply filter_In in Hx. firstorder.
Qed.

Lemma map_nth_seq : forall {A} (l : list A) d, map (fun p => nth p l d) (seq 0 (List.length l)) = l.
Proof.
  induction l; intro d; cbn; auto. f_equal. rewrite <- seq_shift, map_map. apply IHl.
Qed.

Lemma filter_map' : forall {A B} (f : B -> bool) (g : A -> B) l,
  filter f (map g l) = map g (filter (fun x => f (g x)) l).
Proof. induction l; cbn; auto. destruct (f (g a)); cbn; rewrite IHl; auto. Qed.

Lemma filter_pick : forall (cs : list Z) (ps : list nat),
  NoDup cs -> StronglySorted lt ps -> (forall p, In p ps -> (p < List.length cs)%nat) ->
  filter (fun x => existsb (Z.eqb x) (map (fun p => nth p cs 0) ps)) cs = map (fun p => nth p cs 0) ps.
Proof.
  intros cs ps Hnd Hs Hr.
  rewrite <- (map_nth_seq cs 0) at 1. rewrite filter_map'. f_equal.
  apply sorted_unique; auto.
  - apply filter_sorted, seq_sorted.
  - intro x. rewrite filter_In, in_seq, existsb_exists. split.
    + intros [Hx (y & Hy & E)]. apply Z.eqb_eq in E. apply in_map_iff in Hy as (p & Hp & Hin).
      assert (x = p); [|subst; auto].
      apply (proj1 (NoDup_nth cs 0) Hnd); auto; [lia|congruence].
    + intro Hin. split; [specialize (Hr _ Hin); lia|].
      exists (nth x cs 0). split; [|apply Z.eqb_refl]. apply in_map_iff; eauto.
Qed.

Lemma firstn_seq : forall m s n, firstn m (seq s n) = seq s (Nat.min m n).
Proof.
  induction m; intros s [|n]; cbn; auto. f_equal. apply IHm.
Qed.

(** * The selected positions *)

Definition positions (b t : Z) (c : nat) : list nat :=
  map (fun k => Z.to_nat (b + Z.of_nat k * t)) (seq 0 c).

Definition count_kept (n : nat) (s : islice) : nat :=
  let c := Z.to_nat (- ((sl_burnin s - Z.of_nat n) / sl_thinning s)) in
  match sl_trimming s with None => c | Some m => Nat.min (Z.to_nat m) c end.

Lemma ceil_spec : forall b n t k, 1 <= t ->
  (k < - ((b - n) / t) <-> b + k * t < n).
Proof.
  intros b n t k Ht.
  pose proof (Z.div_mod (b - n) t ltac:(lia)) as E.
  pose proof (Z.mod_pos_bound (b - n) t ltac:(lia)) as B.
  set (q := (b - n) / t) in *. clearbody q. set (r := (b-n) mod t) in *. clearbody r. nia.
Qed.

Lemma positions_sorted : forall b t c, 0 <= b -> 1 <= t -> StronglySorted lt (positions b t c).
Proof.
  intros b t c Hb Ht. unfold positions.
  generalize 0%nat as s. induction c; intro s; cbn; constructor; auto.
  rewrite Forall_forall. intros x Hx. apply in_map_iff in Hx as (k & <- & Hk).
  apply in_seq in Hk. nia.
Qed.

Lemma in_positions : forall n s p, sane s ->
  In p (positions (sl_burnin s) (sl_thinning s) (count_kept n s)) <->
  ((p < n)%nat /\ sl_burnin s <= Z.of_nat p /\ (Z.of_nat p - sl_burnin s) mod sl_thinning s = 0 /\
   match sl_trimming s with None => True | Some m' => (Z.of_nat p - sl_burnin s) / sl_thinning s < m' end).
Proof.
  intros n [ns b t m] p (Hb & Ht & Hm). cbn [sl_burnin sl_thinning sl_trimming] in *.
  unfold positions, count_kept. cbn [sl_burnin sl_thinning sl_trimming].
  assert (Hc : forall k, (k < Z.to_nat (- ((b - Z.of_nat n) / t)))%nat <-> b + Z.of_nat k * t < Z.of_nat n).
  { intro k. rewrite <- ceil_spec by lia. lia. }
  set (c := Z.to_nat (- ((b - Z.of_nat n) / t))) in *. clearbody c.
  rewrite in_map_iff. split.
  - intros (k & <- & Hk). apply in_seq in Hk.
    assert (Hk' : (k < c)%nat) by (destruct m; lia). apply Hc in Hk'.
    assert (Hnn : 0 <= Z.of_nat k * t) by nia.
    rewrite Z2Nat.id by lia.
    replace (b + Z.of_nat k * t - b) with (Z.of_nat k * t) by lia.
    rewrite Z.mod_mul, Z.div_mul by lia.
    repeat split; try lia. destruct m; auto. lia.
  - intros (Hp & Hbp & Hmod & Hmm).
    assert (E : Z.of_nat p - b = t * ((Z.of_nat p - b) / t)).
    { rewrite (Z.div_mod (Z.of_nat p - b) t) at 1 by lia. lia. }
    assert (Q : 0 <= (Z.of_nat p - b) / t) by (apply Z.div_pos; lia).
    exists (Z.to_nat ((Z.of_nat p - b) / t)).
    set (q := (Z.of_nat p - b) / t) in *. clearbody q.
    assert (Hk : (Z.to_nat q < c)%nat) by (apply Hc; rewrite Z2Nat.id by lia; nia).
    split; [rewrite Z2Nat.id by lia; nia|].
    apply in_seq. destruct m; lia.
Qed.

Lemma arange_positions : forall n s, sane s ->
  exists l, arange_int (sl_burnin s) (Z.of_nat n) (sl_thinning s) = Ok l /\
    take_trim (sl_trimming s) l = map (fun k => sl_burnin s + Z.of_nat k * sl_thinning s) (seq 0 (count_kept n s)).
Proof.
  intros n [ns b t m] (Hb & Ht & Hm). cbn [sl_burnin sl_thinning sl_trimming] in *.
  unfold arange_int. destruct (t =? 0) eqn:E; [apply Z.eqb_eq in E; lia|].
  eexists; split; [reflexivity|]. unfold count_kept, take_trim. cbn [sl_burnin sl_thinning sl_trimming].
  destruct m as [m|]; auto.
  destruct (0 <=? m) eqn:E2; [|apply Z.leb_gt in E2; lia].
  rewrite firstn_map, firstn_seq. reflexivity.
Qed.

Lemma resolve_positions : forall b t n c, 0 <= b -> 1 <= t ->
  (forall k, (k < c)%nat -> b + Z.of_nat k * t < Z.of_nat n) ->
  resolve_all (Z.of_nat n) (map (fun k => b + Z.of_nat k * t) (seq 0 c)) = Some (positions b t c).
Proof.
  intros b t n c Hb Ht H. unfold positions.
  assert (G : forall l, (forall k, In k l -> b + Z.of_nat k * t < Z.of_nat n) ->
    resolve_all (Z.of_nat n) (map (fun k => b + Z.of_nat k * t) l)
    = Some (map (fun k => Z.to_nat (b + Z.of_nat k * t)) l)).
  { induction l as [|k l IH]; intro Hl; cbn [map resolve_all]; auto.
    rewrite IH by (intros; apply Hl; cbn; auto).
    unfold resolve.
    assert (b + Z.of_nat k * t < Z.of_nat n) by (apply Hl; cbn; auto).
    replace (0 <=? b + Z.of_nat k * t) with true by (symmetry; apply Z.leb_le; nia).
    replace (b + Z.of_nat k * t <? Z.of_nat n) with true by (symmetry; apply Z.ltb_lt; lia).
    reflexivity. }
  apply G. intros k Hk. apply in_seq in Hk. apply H. lia.
Qed.

Lemma count_below : forall n s k, sane s -> (k < count_kept n s)%nat ->
  sl_burnin s + Z.of_nat k * sl_thinning s < Z.of_nat n.
Proof.
  intros n s k (Hb & Ht & Hm) Hk. apply ceil_spec; try lia.
  unfold count_kept in Hk. destruct (sl_trimming s); lia.
Qed.

Lemma sorted_nodup : forall l, StronglySorted lt l -> nodup_nat l = true.
Proof.
  induction 1 as [|a l Hs IH Hf]; cbn; auto. rewrite IH, andb_true_r.
  destruct (existsb (Nat.eqb a) l) eqn:E; auto.
  apply existsb_exists in E as (x & Hx & E). apply Nat.eqb_eq in E; subst.
  rewrite Forall_forall in Hf. specialize (Hf _ Hx). lia.
Qed.

Lemma count_pos : forall n s, sane s -> (leaves_some s n = true <-> (0 < count_kept n s)%nat).
Proof.
  intros n s (Hb & Ht & Hm). unfold leaves_some, count_kept.
  assert (Hc : (0 < Z.to_nat (- ((sl_burnin s - Z.of_nat n) / sl_thinning s)))%nat <-> sl_burnin s < Z.of_nat n).
  { pose proof (ceil_spec (sl_burnin s) (Z.of_nat n) (sl_thinning s) 0 Ht). lia. }
  rewrite andb_true_iff, Z.ltb_lt. destruct (sl_trimming s) as [m|].
  - rewrite Z.ltb_lt. lia.
  - tauto.
Qed.

(** The positions selected by [arange], trimming and indexing. *)
Lemma selected_keeps : forall {A} n s (dflt : A) l, sane s -> List.length l = n ->
  keeps (sl_burnin s) (sl_thinning s) (sl_trimming s) dflt l
        (map (fun p => nth p l dflt) (positions (sl_burnin s) (sl_thinning s) (count_kept n s))).
Proof.
  intros A n s dflt l Hs Hl. exists (positions (sl_burnin s) (sl_thinning s) (count_kept n s)).
  split; auto. split; [apply positions_sorted; apply Hs|].
  intro p. rewrite in_positions by auto. rewrite Hl. tauto.
Qed.

(** * One slice over one dimension *)

Lemma find_dim : forall (dims : list (string * list Z)) d cs,
  NoDup (map fst dims) -> In (d, cs) dims ->
  find (fun p => String.eqb d (fst p)) dims = Some (d, cs).
Proof.
  induction dims as [|[x c] dims IH]; intros d cs Hnd Hin; [destruct Hin|].
  cbn [find fst]. destruct (String.eqb_spec d x) as [->|Hne].
  - destruct Hin as [E|Hin]; [injection E as ->; auto|].
    exfalso. inversion Hnd; subst. apply H1. change x with (fst (x, cs)). apply in_map. auto.
  - destruct Hin as [E|Hin]; [congruence|]. inversion Hnd; subst. auto.
Qed.

Lemma coords_of_in : forall {V} (a : array V) d cs,
  NoDup (map fst (a_dims a)) -> In (d, cs) (a_dims a) -> coords_of a d = cs.
Proof. intros. unfold coords_of. rewrite (find_dim _ d cs); auto. Qed.

Lemma filter_single : forall l d, NoDup l ->
  filter (fun x => mem_str x [d]) l = if mem_str d l then [d] else [].
Proof.
  induction l as [|x l IH]; intros d Hnd; cbn; auto. inversion Hnd; subst.
  unfold mem_str in *. cbn [existsb] in IH. cbn [existsb]. rewrite orb_false_r.
  rewrite (String.eqb_sym x d). destruct (String.eqb_spec d x) as [->|Hne]; cbn [orb].
  - rewrite IH by auto. destruct (existsb (String.eqb x) l) eqn:E; auto.
    apply existsb_exists in E as (y & Hy & E). apply String.eqb_eq in E; subst. contradiction.
  - apply IH; auto.
Qed.

Lemma mem_str_In : forall d l, mem_str d l = true <-> In d l.
Proof.
  intros d l. unfold mem_str. rewrite existsb_exists. split.
  - intros (x & Hx & E). apply String.eqb_eq in E; subst; auto.
  - intro H. exists d. split; auto. apply String.eqb_refl.
Qed.

Lemma product_single : forall cs, product [cs] = map (fun x => [x]) cs.
Proof. induction cs; cbn in *; congruence. Qed.

Lemma size_pos : forall dims : list (string * list Z),
  (forall d cs, In (d, cs) dims -> cs <> []) ->
  (0 < fold_right (fun p n => (List.length (snd p) * n)%nat) 1%nat dims)%nat.
Proof.
  induction dims as [|[d cs] dims IH]; intro H; cbn; [lia|].
  assert (cs <> []) by (apply (H d); cbn; auto).
  assert (0 < fold_right (fun p n => (List.length (snd p) * n)%nat) 1%nat dims)%nat
    by (apply IH; intros; apply (H d0); cbn; auto).
  destruct cs; [congruence|]. cbn. nia.
Qed.

Lemma size_zero : forall dims : list (string * list Z),
  (exists d, In (d, []) dims) ->
  fold_right (fun p n => (List.length (snd p) * n)%nat) 1%nat dims = 0%nat.
Proof.
  induction dims as [|[x cs] dims IH]; intros [d H]; [destruct H|]. cbn.
  destruct H as [E|H]; [injection E as -> ->; auto|]. rewrite IH by eauto. lia.
Qed.

Definition picked (cs : list Z) (s : islice) : list Z :=
  map (fun p => nth p cs 0)
      (positions (sl_burnin s) (sl_thinning s) (count_kept (List.length cs) s)).

Definition replace_dim (d : string) (l : list Z) (p : string * list Z) : string * list Z :=
  if String.eqb d (fst p) then (fst p, l) else p.

Lemma step_single : forall {V} ord (a : array V) done s d,
  (forall l, Permutation (ord l) l) ->
  well_formed a -> sane s -> sl_names s = [d] ->
  (slice_step ord (a, done) s = Ok (a, done) /\
   forall cs, In (d, cs) (a_dims a) -> ~ In d done -> leaves_some s (List.length cs) = false) \/
  (exists cs a', In (d, cs) (a_dims a) /\ ~ In d done /\ leaves_some s (List.length cs) = true /\
     slice_step ord (a, done) s = Ok (a', done ++ [d]) /\
     a_dims a' = map (replace_dim d (picked cs s)) (a_dims a) /\
     forall e, In (e d) (picked cs s) -> a_val a' e = a_val a e).
Proof.
  intros V ord a done s d Hord [Hnd Hco] Hs Hn.
  unfold slice_step. rewrite Hn, filter_single by auto.
  destruct (mem_str d (map fst (a_dims a))) eqn:Hm.
  2:{ assert (E : ord [] = []) by (apply Permutation_nil, Permutation_sym, Hord). rewrite E.
      left. split; auto. intros cs Hin _. exfalso.
      assert (mem_str d (map fst (a_dims a)) = true); [|congruence].
      apply mem_str_In. change d with (fst (d, cs)). apply in_map; auto. }
  assert (E : ord [d] = [d]) by (apply Permutation_length_1_inv, Permutation_sym, Hord). rewrite E. clear E.
  apply mem_str_In in Hm. apply in_map_iff in Hm as ([d' cs] & E & Hin). cbn in E; subst d'.
  unfold stacked. cbn [map]. rewrite (coords_of_in a d cs) by auto.
  rewrite product_single, map_length.
  destruct (arange_positions (List.length cs) s Hs) as (its & Ha & Ht). rewrite Ha. cbn [rbind].
  rewrite Ht. cbn [existsb]. rewrite orb_false_r.
  assert (Huniq : forall cs', In (d, cs') (a_dims a) -> cs' = cs).
  { intros cs' H'. rewrite <- (coords_of_in a d cs'), <- (coords_of_in a d cs); auto. }
  destruct (mem_str d done) eqn:Hd.
  { left. split; auto. intros ? _ Hnot. exfalso. apply Hnot, mem_str_In; auto. }
  assert (Hnd' : ~ In d done) by (intro H'; apply mem_str_In in H'; congruence).
  rewrite resolve_positions by (try apply Hs; intros; apply count_below; auto).
  set (ps := positions (sl_burnin s) (sl_thinning s) (count_kept (List.length cs) s)).
  assert (Hps : StronglySorted lt ps) by (apply positions_sorted; apply Hs).
  rewrite (sorted_nodup ps) by auto.
  assert (Hrange : forall p, In p ps -> (p < List.length cs)%nat).
  { intros p Hp. apply in_positions in Hp; auto. tauto. }
  assert (Hkept : map (fun p => nth p (map (fun x => [x]) cs) []) ps
                  = map (fun x => [x]) (picked cs s)).
  { unfold picked. fold ps. rewrite map_map. apply map_ext_in. intros p Hp.
    specialize (Hrange _ Hp).
    rewrite (nth_indep _ [] [0]) by (rewrite map_length; lia).
    change [0] with ((fun x : Z => [x]) 0). rewrite map_nth. auto. }
  rewrite Hkept.
  assert (Hcoords : forall dim, In dim (a_dims a) ->
    unstack_coords [d] (map (fun x => [x]) (picked cs s)) dim = replace_dim d (picked cs s) dim).
  { intros [x c] Hdim. unfold unstack_coords, replace_dim. cbn [fst snd mem_str existsb index_of].
    rewrite orb_false_r, (String.eqb_sym x d).
    destruct (String.eqb_spec d x) as [->|Hne]; auto. f_equal.
    apply Huniq in Hdim. subst c.
    transitivity (filter (fun x => existsb (Z.eqb x) (map (fun p => nth p cs 0) ps)) cs).
    - apply filter_ext. intro y. unfold picked. fold ps.
      induction (map (fun p => nth p cs 0) ps) as [|z l IH]; cbn; auto.
      rewrite IH, Z.eqb_sym. auto.
    - unfold picked. fold ps. apply filter_pick; auto. apply (Hco x); auto. }
  assert (Hdims : a_dims (select_rows a [d] (map (fun x => [x]) (picked cs s)))
                  = map (replace_dim d (picked cs s)) (a_dims a)).
  { unfold select_rows. cbn [a_dims]. apply map_ext_in. auto. }
  destruct (leaves_some s (List.length cs)) eqn:Hl.
  - right. exists cs, (select_rows a [d] (map (fun x => [x]) (picked cs s))).
    split; [auto|]. split; [auto|]. split; [auto|]. split.
    + assert (Hz : (size_of (select_rows a [d] (map (fun x => [x]) (picked cs s))) <=? 0)%nat = false).
      { apply Nat.leb_gt. unfold size_of. rewrite Hdims. apply size_pos.
        intros x c Hx. apply in_map_iff in Hx as ([x' c'] & E & Hx).
        unfold replace_dim in E. cbn [fst] in E. destruct (String.eqb d x').
        - injection E as <- <-. apply count_pos in Hl; auto.
          unfold picked, positions. destruct (count_kept (List.length cs) s); [lia|]. cbn. congruence.
        - injection E as <- <-. apply (Hco x'); auto. }
      rewrite Hz. reflexivity.
    + split; auto. intros e He. unfold select_rows. cbn [a_val map].
      replace (existsb (zs_eqb [e d]) (map (fun x => [x]) (picked cs s))) with true; auto.
      symmetry. apply existsb_exists. exists [e d]. split; [apply in_map_iff; eauto|].
      unfold zs_eqb. destruct (list_eq_dec Z.eq_dec [e d] [e d]); congruence.
  - left. split.
    + assert (Hz : (size_of (select_rows a [d] (map (fun x => [x]) (picked cs s))) <=? 0)%nat = true).
      { apply Nat.leb_le. unfold size_of. rewrite Hdims. rewrite size_zero; auto. exists d.
        apply in_map_iff. exists (d, cs). split; auto. unfold replace_dim. cbn [fst].
        rewrite String.eqb_refl. unfold picked.
        assert (count_kept (List.length cs) s = 0)%nat as ->; auto.
        destruct (count_kept (List.length cs) s) eqn:Ec; auto.
        assert (leaves_some s (List.length cs) = true); [|congruence].
        apply count_pos; auto. lia. }
      rewrite Hz. auto.
    + intros cs' Hcs' _. apply Huniq in Hcs'. subst; auto.
Qed.

Lemma picked_sub : forall cs s x, sane s -> In x (picked cs s) -> In x cs.
Proof.
  intros cs s x Hs H. apply in_map_iff in H as (p & <- & Hp). apply nth_In.
  apply in_positions in Hp; auto. tauto.
Qed.

Lemma picked_nodup : forall cs s, sane s -> NoDup cs -> NoDup (picked cs s).
Proof.
  intros cs s Hs Hnd. unfold picked.
  rewrite <- filter_pick; auto.
  - apply NoDup_filter; auto.
  - apply positions_sorted; apply Hs.
  - intros p Hp. apply in_positions in Hp; auto. tauto.
Qed.

Lemma picked_nonempty : forall cs s, sane s -> leaves_some s (List.length cs) = true -> picked cs s <> [].
Proof.
  intros cs s Hs Hl. apply count_pos in Hl; auto.
  unfold picked, positions. destruct (count_kept (List.length cs) s); [lia|]. cbn. congruence.
Qed.

Lemma replace_names : forall d l dims, map fst (map (replace_dim d l) dims) = map fst dims.
Proof.
  intros. rewrite map_map. apply map_ext. intros [x c]. unfold replace_dim. cbn.
  destruct (String.eqb d x); auto.
Qed.

(** * Lists of slices *)

(** The first slice of the list that concerns [d] and leaves something of its
    [n] labels. *)
Definition first_effective (ss : list islice) (d : string) (n : nat) : option islice :=
  find (fun s => mem_str d (sl_names s) && leaves_some s n) ss.

Lemma loop_single : forall {V} ord ss (a : array V) done,
  (forall l, Permutation (ord l) l) -> well_formed a ->
  (forall s, In s ss -> sane s /\ exists d, sl_names s = [d]) ->
  exists a' done', slice_loop ord (a, done) ss = Ok (a', done') /\ well_formed a' /\
    map fst (a_dims a') = map fst (a_dims a) /\
    (forall d cs, In (d, cs) (a_dims a) ->
       exists cs', In (d, cs') (a_dims a') /\
         if mem_str d done then cs' = cs else
         match first_effective ss d (List.length cs) with
         | Some s => keeps (sl_burnin s) (sl_thinning s) (sl_trimming s) 0 cs cs'
         | None => cs' = cs
         end) /\
    (forall e, (forall d cs', In (d, cs') (a_dims a') -> In (e d) cs') -> a_val a' e = a_val a e).
Proof.
  intros V ord ss. induction ss as [|s ss IH]; intros a done Hord Hwf Hss.
  - exists a, done. split; [reflexivity|]. split; [auto|]. split; [auto|]. split; [|auto].
    intros d cs Hin. exists cs. split; auto. cbn. destruct (mem_str d done); auto.
  - destruct (Hss s (or_introl eq_refl)) as [Hs [x Hx]].
    cbn [slice_loop].
    destruct (step_single ord a done s x Hord Hwf Hs Hx)
      as [[E Hskip] | (cs & a1 & Hin & Hdone & Hl & E & Hdims & Hval)]; rewrite E; cbn [rbind].
    + destruct (IH a done Hord Hwf ltac:(intros; apply Hss; cbn; auto))
        as (a' & done' & E' & Hwf' & Hn & Hc & Hv).
      exists a', done'. split; [auto|]. split; [auto|]. split; [auto|]. split; [|auto].
      intros d cs Hin. destruct (Hc d cs Hin) as (cs' & Hin' & H'). exists cs'. split; auto.
      destruct (mem_str d done) eqn:Hd; auto.
      unfold first_effective in *. cbn [find]. rewrite Hx.
      destruct (mem_str d [x] && leaves_some s (List.length cs)) eqn:Ee; auto.
      apply andb_true_iff in Ee as [Ed El]. apply mem_str_In in Ed.
      destruct Ed as [->|[]].
      rewrite (Hskip cs) in El; [discriminate|auto|].
      intro H0. apply mem_str_In in H0. congruence.
    + assert (Hwf1 : well_formed a1).
      { split; [rewrite Hdims, replace_names; apply Hwf|].
        intros d c Hd. rewrite Hdims in Hd. apply in_map_iff in Hd as ([d' c'] & Ed & Hd).
        unfold replace_dim in Ed. cbn [fst] in Ed. destruct (String.eqb_spec x d') as [->|Hne].
        - injection Ed as <- <-. split; [|apply picked_nonempty; auto].
          apply picked_nodup; auto. apply (proj2 Hwf d'); auto.
        - injection Ed as <- <-. apply (proj2 Hwf d' c'); auto. }
      destruct (IH a1 (done ++ [x]) Hord Hwf1 ltac:(intros; apply Hss; cbn; auto))
        as (a' & done' & E' & Hwf' & Hn & Hc & Hv).
      assert (Hx1 : In (x, picked cs s) (a_dims a1)).
      { rewrite Hdims. apply in_map_iff. exists (x, cs). split; auto.
        unfold replace_dim. cbn [fst]. rewrite String.eqb_refl. auto. }
      assert (Hmem : forall d, mem_str d (done ++ [x]) = mem_str d done || String.eqb d x).
      { intro d. unfold mem_str. rewrite existsb_app. cbn. rewrite orb_false_r. auto. }
      exists a', done'. split; [auto|]. split; [auto|].
      split; [rewrite Hn, Hdims, replace_names; auto|]. split.
      * intros d c Hd.
        destruct (String.eqb_spec d x) as [->|Hne].
        -- assert (c = cs).
           { rewrite <- (coords_of_in a x c), <- (coords_of_in a x cs); auto; apply Hwf. }
           subst c. destruct (Hc x _ Hx1) as (cs' & Hin' & H'). exists cs'. split; auto.
           rewrite Hmem, String.eqb_refl, orb_true_r in H'. subst cs'.
           destruct (mem_str x done) eqn:Hd'; [apply mem_str_In in Hd'; contradiction|].
           unfold first_effective. cbn [find]. rewrite Hx. cbn [mem_str existsb].
           rewrite String.eqb_refl, Hl. cbn [orb andb].
           unfold picked. apply selected_keeps; auto.
        -- assert (Hd1 : In (d, c) (a_dims a1)).
           { rewrite Hdims. apply in_map_iff. exists (d, c). split; auto.
             unfold replace_dim. cbn [fst]. destruct (String.eqb_spec x d); congruence. }
           destruct (Hc d c Hd1) as (cs' & Hin' & H'). exists cs'. split; auto.
           rewrite Hmem in H'. replace (String.eqb d x) with false in H'
             by (symmetry; apply String.eqb_neq; auto). rewrite orb_false_r in H'.
           destruct (mem_str d done); auto.
           unfold first_effective in *. cbn [find]. rewrite Hx. cbn [mem_str existsb].
           replace (String.eqb d x) with false by (symmetry; apply String.eqb_neq; auto). auto.
      * intros e He. rewrite Hv by auto. apply Hval.
        destruct (Hc x _ Hx1) as (cs' & Hin' & H'). 
        rewrite Hmem, String.eqb_refl, orb_true_r in H'. subst cs'. apply (He x); auto.
Qed.

(** C49.  For every array and every list of slices over single dimensions with
    meaningful settings, in any set order: the function succeeds; each dimension
    keeps exactly the samples b, b+t, b+2t, ... (at most m) of the first slice
    that concerns it and leaves something, a slice that would leave nothing being
    ignored; all dimensions stay, and every kept entry keeps its value. *)
Theorem C49_burnin_thinning_trimming : forall {V} ord ss (a : array V),
  (forall l, Permutation (ord l) l) -> well_formed a ->
  (forall s, In s ss -> sane s /\ exists d, sl_names s = [d]) ->
  exists a' done, slice_by_index ord a ss = Ok (a', done) /\
    map fst (a_dims a') = map fst (a_dims a) /\
    (forall d cs, In (d, cs) (a_dims a) ->
       exists cs', In (d, cs') (a_dims a') /\
         match first_effective ss d (List.length cs) with
         | Some s => keeps (sl_burnin s) (sl_thinning s) (sl_trimming s) 0 cs cs'
         | None => cs' = cs
         end) /\
    (forall e, (forall d cs', In (d, cs') (a_dims a') -> In (e d) cs') -> a_val a' e = a_val a e).
Proof.
  intros V ord ss a Hord Hwf Hss.
  destruct (loop_single ord ss a [] Hord Hwf Hss) as (a' & done & E & Hwf' & Hn & Hc & Hv).
  exists a', done. unfold slice_by_index. rewrite E. cbn [rbind fst].
  replace (existsb (fun p => (List.length (snd p) <=? 0)%nat) (a_dims a')) with false.
  - split; [auto|]. split; [auto|]. split; [|auto]. intros d cs Hin.
    destruct (Hc d cs Hin) as (cs' & Hin' & H'). cbn in H'. eauto.
  - symmetry. destruct (existsb _ (a_dims a')) eqn:Ex; auto.
    apply existsb_exists in Ex as ([d cs] & Hin & Hz). cbn [snd] in Hz. apply Nat.leb_le in Hz.
    destruct (proj2 Hwf' d cs Hin) as [_ Hne]. destruct cs; [congruence|cbn in Hz; lia].
Qed.
Print Assumptions C49_burnin_thinning_trimming.

(** * Slices over several dimensions at once *)

(** The position of a row in a list without repetitions. *)
Lemma step_joint : forall {V} ord (a : array V) done s a' done',
  sane s ->
  slice_step ord (a, done) s = Ok (a', done') ->
  let ds := ord (filter (fun d => mem_str d (sl_names s)) (map fst (a_dims a))) in
  (a' = a /\ done' = done) \/
  (done' = done ++ ds /\
   exists kept, keeps (sl_burnin s) (sl_thinning s) (sl_trimming s) [] (stacked a ds) kept /\
     (forall e, In (map e ds) kept -> a_val a' e = a_val a e) /\
     (forall e, ~ In (map e ds) kept -> a_val a' e = None)).
Proof.
  intros V ord a done s a' done' Hs E ds. unfold slice_step in E. fold ds in E.
  destruct ds as [|d0 ds0] eqn:Eds; [injection E as <- <-; left; auto|].
  rewrite <- Eds in *. clear Eds d0 ds0.
  destruct (arange_positions (List.length (stacked a ds)) s Hs) as (its & Ha & Ht).
  rewrite Ha in E. cbn [rbind] in E. rewrite Ht in E.
  destruct (existsb (fun d => mem_str d done) ds); [injection E as <- <-; left; auto|].
  rewrite resolve_positions in E by (try apply Hs; intros; apply count_below; auto).
  rewrite sorted_nodup in E by (apply positions_sorted; apply Hs).
  destruct (size_of _ <=? 0)%nat; [injection E as <- <-; left; auto|].
  injection E as <- <-. right. split; auto.
  exists (map (fun p => nth p (stacked a ds) [])
            (positions (sl_burnin s) (sl_thinning s) (count_kept (List.length (stacked a ds)) s))).
  split; [apply selected_keeps; auto|].
  unfold select_rows; cbn [a_val]. split; intros e He.
  - rewrite (proj2 (existsb_exists _ _)); auto. exists (map e ds). split; auto.
    unfold zs_eqb. destruct (list_eq_dec Z.eq_dec (map e ds) (map e ds)); congruence.
  - destruct (existsb _ _) eqn:Ex; auto. apply existsb_exists in Ex as (r & Hr & Er).
    unfold zs_eqb in Er. destruct (list_eq_dec Z.eq_dec (map e ds) r); [subst; contradiction|discriminate].
Qed.

(** C49, several dimensions in one slice: the slice acts on the rows of the
    product of the coordinates; a row outside the kept positions is lost (NaN). *)
Theorem C49_joint_slice : forall {V} ord (a : array V) done s a' done',
  sane s ->
  slice_step ord (a, done) s = Ok (a', done') ->
  let ds := ord (filter (fun d => mem_str d (sl_names s)) (map fst (a_dims a))) in
  (a' = a /\ done' = done) \/
  (done' = done ++ ds /\
   exists kept, keeps (sl_burnin s) (sl_thinning s) (sl_trimming s) [] (stacked a ds) kept /\
     (forall e, In (map e ds) kept -> a_val a' e = a_val a e) /\
     (forall e, ~ In (map e ds) kept -> a_val a' e = None)).
Proof. intros. apply step_joint; auto. Qed.
Print Assumptions C49_joint_slice.

Definition demo : array Z :=
  mkArray [("iter"%string, [10; 11; 12; 13; 14; 15; 16]); ("seed"%string, [1; 2])]
          (fun e => Some (100 * e "iter"%string + e "seed"%string)).

Lemma demo_wf : well_formed demo.
Proof.
  split; cbn.
  - repeat constructor; cbn; intuition congruence.
  - intros d cs [E|[E|[]]]; injection E as <- <-; (split; [|congruence]);
      repeat constructor; cbn; intuition lia.
Qed.

Example C49_nonvacuous :
  well_formed demo /\
  sane (mkSlice ["iter"%string] 2 2 (Some 2)) /\
  (forall l : list string, Permutation (id l) l) /\
  match slice_by_index id demo
     [mkSlice ["iter"%string] 9 1 None; mkSlice ["iter"%string] 2 2 (Some 2); mkSlice ["iter"%string] 0 1 (Some 1)] with
  | Ok (a', done) => a_dims a' = [("iter"%string, [12; 14]); ("seed"%string, [1; 2])] /\ done = ["iter"%string]
  | Raise _ => False
  end.
Proof.
  split; [exact demo_wf|].
  split; [unfold sane; cbn; lia|]. split; [intro; reflexivity|]. vm_compute. auto.
Qed.

(** Settings outside [sane]: a negative burn-in that runs past the end repeats
    positions and makes unstacking raise. *)
Example C49_negative_burnin_raises :
  slice_by_index id demo [mkSlice ["iter"%string] (-1) 1 None] = Raise EValue.
Proof. reflexivity. Qed.

(** C82.  The claim "a joint slice keeps the same samples whatever order the
    interpreter lists the dimension set in" is false: the stacked order, hence
    the kept samples, changes with the set order. *)
Theorem C82_joint_slice_order_refuted :
  exists (a : array Z) ss ord1 ord2 a1 a2 d1 d2 e,
    well_formed a /\ (forall s, In s ss -> sane s) /\
    (forall l : list string, Permutation (ord1 l) l) /\
    (forall l : list string, Permutation (ord2 l) l) /\
    slice_by_index ord1 a ss = Ok (a1, d1) /\ slice_by_index ord2 a ss = Ok (a2, d2) /\
    a_val a1 e <> a_val a2 e.
Proof.
  exists demo, [mkSlice ["iter"%string; "seed"%string] 1 1 (Some 1)], id, (@rev string).
  eexists _, _, _, _, (fun d => if String.eqb d "iter" then 10 else 2).
  split; [exact demo_wf|].
  split; [intros s [<-|[]]; unfold sane; cbn; lia|].
  split; [intro; reflexivity|].
  split; [intro; symmetry; apply Permutation_rev|].
  split; [reflexivity|]. split; [reflexivity|]. vm_compute. discriminate.
Qed.
Print Assumptions C82_joint_slice_order_refuted.

(** C82, the part that holds: slices over single dimensions do not depend on the
    set order. *)
Theorem C82_single_slice_order_partial : forall {V} ord1 ord2 (a : array V) done s d,
  (forall l, Permutation (ord1 l) l) -> (forall l, Permutation (ord2 l) l) ->
  NoDup (map fst (a_dims a)) -> sl_names s = [d] ->
  slice_step ord1 (a, done) s = slice_step ord2 (a, done) s.
Proof.
  intros V ord1 ord2 a done s d H1 H2 Hnd Hn. unfold slice_step. rewrite Hn, filter_single by auto.
  assert (forall l, (List.length l <= 1)%nat -> ord1 l = ord2 l).
  { intros [|x [|y l]] Hl; cbn in Hl; try lia.
    - transitivity (@nil string); [|symmetry]; apply Permutation_nil, Permutation_sym; auto.
    - transitivity [x]; [|symmetry]; apply Permutation_length_1_inv, Permutation_sym; auto. }
  rewrite H; auto. destruct (mem_str d (map fst (a_dims a))); cbn; lia.
Qed.
Print Assumptions C82_single_slice_order_partial.

Example C82_nonvacuous :
  NoDup (map fst (a_dims demo)) /\
  exists a' done, slice_step (@rev string) (demo, []) (mkSlice ["seed"%string] 1 1 None) = Ok (a', done)
    /\ done = ["seed"%string].
Proof.
  split; [exact (proj1 demo_wf)|]. eexists _, _. split; reflexivity.
Qed.
