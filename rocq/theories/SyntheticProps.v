(** Theorems about the generation of synthetic datasets (C181-C185). *)
From Coq Require Import List String Ascii ZArith Reals Bool Arith Lia Lra.
From Verif Require Import Base RealBase PyMonad ProbUtils ProbUtilsProps SIM SIMProps Inputs InputsProps
  StartUp StartUpProps StartUpBasis Synthetic.
Import ListNotations.
Open Scope string_scope.
Open Scope nat_scope.
Open Scope R_scope.
Open Scope list_scope.

Lemma bind_inv : forall A B (x : res A) (f : A -> res B) r, rbind x f = Ok r -> exists a, x = Ok a /\ f a = Ok r.
Proof. intros A B [a|e] f r H; [now exists a|discriminate]. Qed.

(** ** What a successful generation consists of *)
Lemma generate_inv : forall G c st o, generate G c st = Ok o ->
  exists dims dn d no nd cs w0 od time ss pr,
    let st0 := set_seed G (c_seed c) st in
    let raw := raw_cost no nd (fst cs) in
    let cost := scaled_cost no nd raw in
    let d1 := aset "total_cost_by_origin" (FA [no] (origin_share no nd raw))
                (aset "cost_matrix" (FA [no; nd] (flatten nd cost)) (fst dn)) in
    let flow := match aget "origin_demand" d1 with Some o => rsum no (f_val o) | None => 1 end in
    let p := true_parameters c nd (f_val w0) flow in
    let lf := log_flow (c_production c) no nd od cost p in
    let ts := th_multinomial G (orD (c_total c) 1%nat) (no * nd) (flatten nd pr) (snd (snd ss)) in
    the_dims c = Ok dims /\ foldM (draw_one G dims) (c_data c) ([], fst st0) = Ok dn /\ the_cost c = Ok d /\
    dim dims "origin" = Ok no /\ dim dims "destination" = Ok nd /\ random_vector G d (no * nd) (snd dn) = Ok cs /\
    aget "destination_attraction_ts" d1 = Some w0 /\
    match aget "origin_demand" d1 with
    | Some x => Ok (f_val x) | None => if c_production c then Raise EExn else Ok (fun _ => 0) end = Ok od /\
    dim dims "time" = Ok time /\
    simulate G c no nd time cost p lf (f_val w0) (snd cs, snd st0) = Ok ss /\
    cell_probs no nd cost lf (fst ss) = Ok pr /\
    size (unpack dims true) = (no * nd)%nat /\ size (unpack dims false) = (no * nd)%nat /\
    o = mkout dims
          (aset "ground_truth_table" (FA (unpack dims false) (fun k => INR (fst ts k)))
             (aset "cost_matrix" (FA (unpack dims false) (flatten nd cost))
                (map device_cast (aset "destination_attraction_ts" (stored_attraction nd time (fst ss)) d1))))
          pr (stored_cfg c p) (fst (snd ss), snd ts).
Proof.
  intros G c st o H. unfold generate in H.
  apply bind_inv in H as [dims [E1 H]]. apply bind_inv in H as [dn [E2 H]].
  apply bind_inv in H as [d [E3 H]]. apply bind_inv in H as [no [E4 H]]. apply bind_inv in H as [nd [E5 H]].
  apply bind_inv in H as [cs [E6 H]].
  destruct (aget "destination_attraction_ts" _) as [w0|] eqn:E7; [|discriminate].
  apply bind_inv in H as [od [E8 H]]. apply bind_inv in H as [time [E9 H]].
  apply bind_inv in H as [ss [E10 H]]. apply bind_inv in H as [pr [E11 H]].
  destruct (Nat.eqb (size (unpack dims true)) (no * nd)) eqn:S1; [|discriminate].
  destruct (Nat.eqb (size (unpack dims false)) (no * nd)) eqn:S2; [|discriminate].
  cbn [negb] in H. injection H as <-.
  apply Nat.eqb_eq in S1, S2.
  exists dims, dn, d, no, nd, cs, w0, od, time, ss, pr. cbv zeta.
  repeat split; assumption.
Qed.

Lemma aget_map_cast : forall k (d : list (string * farr)), k <> "adjacency_matrix" ->
  aget k (map device_cast d) = aget k d.
Proof.
  intros k d N. induction d as [|[k' a] d IH]; [reflexivity|]. cbn [map].
  unfold device_cast at 1. cbn [fst snd]. destruct (String.eqb_spec k' "adjacency_matrix") as [->|N'].
  - cbn [aget fst]. destruct (String.eqb_spec k "adjacency_matrix"); [contradiction|]. exact IH.
  - cbn [aget fst]. now rewrite IH.
Qed.

(** ** C181: the generated data are valid *)

(** The datasets that are kept as drawn. *)
Definition kept : list string := ["origin_demand"; "destination_demand"; "origin_attraction_ts"].

Lemma normalised_nonneg : forall n v k, 0 <= normalised n v k.
Proof.
  intros n v k. unfold normalised.
  assert (H : 0 <= rsum n (fun i => Rabs (v i))) by (apply rsum_nonneg; intros; apply Rabs_pos).
  destruct (Req_dec (rsum n (fun i => Rabs (v i))) 0) as [E|E].
  - rewrite E. unfold Rdiv. destruct (Req_EM_T 0 0) as [_|]; [|congruence].
    replace (/ 0) with 0 by (symmetry; apply Rinv_0). lra.
  - apply Rmult_le_pos; [apply Rabs_pos|]. left. apply Rinv_0_lt_compat. lra.
Qed.
Lemma normalised_sum : forall n v, (exists k, (k < n)%nat /\ normalised n v k <> 0) -> rsum n (normalised n v) = 1.
Proof.
  intros n v [k [K N]]. unfold normalised in *. unfold Rdiv in *. rewrite rsum_scal_r. apply Rinv_r. intro E.
  apply N. rewrite E, Rinv_0. lra.
Qed.

Lemma draws_inv : forall G dims l s dn, foldM (draw_one G dims) l ([], s) = Ok dn ->
  forall k a, aget k (fst dn) = Some a ->
  exists v, shape_of dims k = Ok (f_shape a) /\ f_val a = normalised (size (f_shape a)) v.
Proof.
  intros G dims l s dn H.
  refine (foldM_inv _ _ (fun x => forall k a, aget k (fst x) = Some a ->
    exists v, shape_of dims k = Ok (f_shape a) /\ f_val a = normalised (size (f_shape a)) v)
    (draw_one G dims) l ([], s) dn _ _ H).
  - intros [d n] [k e] y _ P E. unfold draw_one in E. cbn [fst snd] in *.
    destruct (is_train k); [|injection E as <-; exact P].
    destruct e as [di| |]; try discriminate.
    apply bind_inv in E as [sh [E1 E]]. apply bind_inv in E as [vs [E2 E]]. injection E as <-. cbn [fst].
    intros k' a. destruct (String.eqb_spec k' k) as [->|N].
    + rewrite aget_aset_same. intro Q. injection Q as <-. cbn [f_shape f_val]. exists (fst vs). now split.
    + rewrite aget_aset_other by congruence. apply P.
  - intros k a. discriminate.
Qed.

Lemma kept_of_draws : forall k, In k kept ->
  k <> "adjacency_matrix" /\ k <> "ground_truth_table" /\ k <> "cost_matrix" /\
  k <> "destination_attraction_ts" /\ k <> "total_cost_by_origin".
Proof. intros k H. cbn [kept In] in H. decompose [or] H; subst; try contradiction; repeat split; discriminate. Qed.

Lemma aset_present : forall V k (v : V) k' l, aget k' l <> None -> aget k' (aset k v l) <> None.
Proof.
  intros V k v k' l H. destruct (String.eqb_spec k' k) as [->|N]; [rewrite aget_aset_same; discriminate|].
  now rewrite aget_aset_other.
Qed.
Lemma draw_one_mono : forall G dims st e st' k, draw_one G dims st e = Ok st' ->
  aget k (fst st) <> None -> aget k (fst st') <> None.
Proof.
  intros G dims [d n] [k' e] st' k E H. unfold draw_one in E. cbn [fst snd] in *.
  destruct (is_train k'); [|now injection E as <-]. destruct e as [di| |]; try discriminate.
  apply bind_inv in E as [sh [E1 E]]. apply bind_inv in E as [vs [E2 E]]. injection E as <-. cbn [fst].
  now apply aset_present.
Qed.
Lemma draws_present : forall G dims l st dn k e, foldM (draw_one G dims) l st = Ok dn ->
  In (k, e) l -> is_train k = true -> aget k (fst dn) <> None.
Proof.
  intros G dims l. induction l as [|x l IH]; intros st dn k e H K T; [contradiction|].
  cbn [foldM] in H. apply bind_inv in H as [st1 [E H]]. destruct K as [->|K]; [|now apply (IH st1 dn k e)].
  assert (P : aget k (fst st1) <> None).
  { unfold draw_one in E. cbn [fst snd] in E. rewrite T in E. destruct e as [di| |]; try discriminate.
    apply bind_inv in E as [sh [E1 E]]. apply bind_inv in E as [vs [E2 E]]. injection E as <-. cbn [fst].
    rewrite aget_aset_same. discriminate. }
  clear - P H. revert st1 P H. induction l as [|y l IH]; intros st1 P H.
  - injection H as <-. exact P.
  - cbn [foldM] in H. apply bind_inv in H as [st2 [E H]]. apply (IH st2); [|exact H].
    now apply (draw_one_mono G dims st1 y).
Qed.
Lemma kept_train : forall k, In k kept -> is_train k = true.
Proof. intros k H. cbn [kept In] in H. decompose [or] H; subst; try contradiction; reflexivity. Qed.

(** Every listed origin demand, destination demand and origin attraction is
    stored with the dimensions of its schema, is nowhere negative and sums to
    one unless everything drawn was zero. *)
Theorem C181_vectors_partial : forall G c st o k e,
  generate G c st = Ok o -> In k kept -> In (k, e) (c_data c) ->
  exists a, aget k (o_data o) = Some a /\ shape_of (o_dims o) k = Ok (f_shape a) /\
    (forall i, 0 <= f_val a i) /\
    ((exists i, (i < size (f_shape a))%nat /\ f_val a i <> 0) -> rsum (size (f_shape a)) (f_val a) = 1).
Proof.
  intros G c st o k e H K L. apply generate_inv in H.
  destruct H as (dims & dn & d & no & nd & cs & w0 & od & time & ss & pr & E1 & E2 & E3 & E4 & E5 & E6 & E7 & E8 & E9 & E10 & E11 & E12 & E13 & ->).
  cbn [o_data o_dims]. destruct (kept_of_draws k K) as (N1 & N2 & N3 & N4 & N5).
  pose proof (draws_present _ _ _ _ _ _ _ E2 L (kept_train k K)) as P.
  destruct (aget k (fst dn)) as [a|] eqn:A; [|congruence]. clear P.
  destruct (draws_inv _ _ _ _ _ E2 k a A) as [v [S V]].
  exists a. rewrite aget_aset_other by assumption. rewrite aget_aset_other by assumption.
  rewrite aget_map_cast by assumption. rewrite !aget_aset_other by assumption.
  split; [exact A|]. split; [exact S|]. rewrite V. split; [apply normalised_nonneg|]. apply normalised_sum.
Qed.
Print Assumptions C181_vectors_partial.

(** *** Costs *)
Lemma raw_nonneg : forall I J v i j, 0 <= raw_cost I J v i j.
Proof.
  intros. unfold raw_cost. pose proof (Rabs_pos (v (i * J + j)%nat)). pose proof (Rabs_pos (v (j * J + i)%nat)).
  destruct (Nat.eqb I J); lra.
Qed.
Lemma flat2_at : forall J (m : mat) i j, (j < J)%nat -> flat2 J m (i * J + j) = m i j.
Proof.
  intros J m i j H. unfold flat2. f_equal.
  - rewrite Nat.div_add_l by lia. rewrite Nat.div_small by lia. lia.
  - rewrite Nat.add_comm, Nat.mod_add by lia. now apply Nat.mod_small.
Qed.
Lemma cost_max_pos : forall I J v, 0 <= cost_max I J (raw_cost I J v).
Proof.
  intros I J v. unfold cost_max. destruct (Nat.eq_dec (I * J) 0) as [E|E].
  - rewrite E. cbn. apply raw_nonneg.
  - apply Rle_trans with (flat2 J (raw_cost I J v) 0); [apply raw_nonneg|]. apply rmax_ge. lia.
Qed.
Lemma div_nonneg : forall a b, 0 <= a -> 0 <= b -> 0 <= a / b.
Proof.
  intros a b A B. destruct (Req_dec b 0) as [->|N]; [unfold Rdiv; rewrite Rinv_0; lra|].
  apply Rmult_le_pos; [exact A|]. left. apply Rinv_0_lt_compat. lra.
Qed.

(** The stored costs lie between zero and one, reach one unless all are zero,
    are symmetric when there are as many origins as destinations, and
    total_cost_by_origin holds the share of each origin in them; stated for
    dimensions that list origin before destination. *)
Theorem C181_costs_partial : forall G c st o no nd,
  generate G c st = Ok o -> unpack (o_dims o) false = [no; nd] ->
  dim (o_dims o) "origin" = Ok no -> dim (o_dims o) "destination" = Ok nd ->
  exists a t, aget "cost_matrix" (o_data o) = Some a /\ f_shape a = [no; nd] /\
    aget "total_cost_by_origin" (o_data o) = Some t /\ f_shape t = [no] /\
    (forall k, (k < no * nd)%nat -> 0 <= f_val a k <= 1) /\
    (no = nd -> forall i j, (i < no)%nat -> (j < nd)%nat -> f_val a (i * nd + j)%nat = f_val a (j * nd + i)%nat) /\
    ((exists k, (k < no * nd)%nat /\ f_val a k <> 0) ->
       (exists k, (k < no * nd)%nat /\ f_val a k = 1) /\
       (forall i, (i < no)%nat -> f_val t i = rsum nd (fun j => f_val a (i * nd + j)%nat) /
                                             rsum no (fun i' => rsum nd (fun j => f_val a (i' * nd + j)%nat))) /\
       rsum no (f_val t) = 1).
Proof.
  intros G c st o no nd H U Do Dd. apply generate_inv in H.
  destruct H as (dims & dn & d & no' & nd' & cs & w0 & od & time & ss & pr & E1 & E2 & E3 & E4 & E5 & E6 & E7 & E8 & E9 & E10 & E11 & E12 & E13 & ->).
  cbn [o_dims] in *. rewrite E4 in Do. rewrite E5 in Dd. injection Do as ->. injection Dd as ->.
  cbn [o_data]. set (raw := raw_cost no nd (fst cs)). set (cost := scaled_cost no nd raw).
  exists (FA (unpack dims false) (flatten nd cost)), (FA [no] (origin_share no nd raw)).
  rewrite aget_aset_other by discriminate. rewrite aget_aset_same.
  split; [reflexivity|]. split; [exact U|].
  rewrite !aget_aset_other by discriminate. rewrite aget_map_cast by discriminate.
  rewrite aget_aset_other by discriminate. rewrite aget_aset_same.
  split; [reflexivity|]. split; [reflexivity|]. cbn [f_val]. unfold flatten.
  assert (Mx : 0 <= cost_max no nd raw) by apply cost_max_pos.
  assert (B : forall k, (k < no * nd)%nat -> flat2 nd raw k <= cost_max no nd raw).
  { intros k K. unfold cost_max. now apply rmax_ge. }
  assert (Fk : forall k, flat2 nd cost k = flat2 nd raw k / cost_max no nd raw) by reflexivity.
  assert (Nn : forall k, 0 <= flat2 nd raw k) by (intro k; apply raw_nonneg).
  split; [|split].
  - intros k K. rewrite Fk. split; [now apply div_nonneg|].
    destruct (Req_dec (cost_max no nd raw) 0) as [Z|Z]; [rewrite Z; unfold Rdiv; rewrite Rinv_0; lra|].
    apply Rmult_le_reg_r with (cost_max no nd raw); [lra|]. unfold Rdiv. rewrite Rmult_assoc, Rinv_l by exact Z.
    rewrite Rmult_1_r, Rmult_1_l. now apply B.
  - intros -> i j Hi Hj. rewrite !flat2_at by assumption. unfold cost, scaled_cost. f_equal.
    unfold raw, raw_cost. rewrite Nat.eqb_refl. apply Rplus_comm.
  - intros [k0 [K0 N0]].
    assert (Z : cost_max no nd raw <> 0).
    { intro Z. apply N0. rewrite Fk, Z. unfold Rdiv. rewrite Rinv_0. lra. }
    assert (Cs : forall i, rsum nd (fun j => flat2 nd cost (i * nd + j)%nat) = rsum nd (raw i) / cost_max no nd raw).
    { intro i. unfold Rdiv. rewrite <- rsum_scal_r. apply rsum_ext. intros j Hj. now rewrite flat2_at. }
    assert (Ct : rsum no (fun i' => rsum nd (fun j => flat2 nd cost (i' * nd + j)%nat)) = rsum2 no nd raw / cost_max no nd raw).
    { unfold rsum2. unfold Rdiv. rewrite <- rsum_scal_r. apply rsum_ext. intros i Hi. apply Cs. }
    assert (P : rsum2 no nd raw <> 0).
    { intro P0. apply N0. rewrite Fk.
      assert (Q : flat2 nd raw k0 = 0); [|rewrite Q; unfold Rdiv; lra].
      assert (nd <> 0)%nat by (intro; subst; rewrite Nat.mul_0_r in K0; lia).
      assert (L1 : raw (k0 / nd)%nat (k0 mod nd)%nat <= rsum nd (raw (k0 / nd)%nat)).
      { apply (rsum_term_le nd (raw (k0 / nd)%nat)); [intros; apply raw_nonneg|apply Nat.mod_upper_bound; assumption]. }
      assert (L2 : rsum nd (raw (k0 / nd)%nat) <= rsum2 no nd raw).
      { unfold rsum2. apply (rsum_term_le no (fun i => rsum nd (raw i))).
        - intros. apply rsum_nonneg. intros. apply raw_nonneg.
        - apply Nat.div_lt_upper_bound; [assumption|]. now rewrite Nat.mul_comm. }
      unfold flat2. pose proof (raw_nonneg no nd (fst cs) (k0 / nd) (k0 mod nd)). fold raw in H0. lra. }
    split; [|split].
    + destruct (rmax_attained (no * nd) (flat2 nd raw)) as [k [K E]]; [lia|]. exists k. split; [exact K|].
      rewrite Fk, <- E. unfold cost_max. unfold Rdiv. apply Rinv_r. exact Z.
    + intros i Hi. rewrite Cs, Ct. unfold origin_share. field. split; assumption.
    + unfold origin_share, Rdiv. rewrite rsum_scal_r. fold (rsum2 no nd raw). now apply Rinv_r.
Qed.
Print Assumptions C181_costs_partial.

(** *** The table *)

(** torch's multinomial distributes exactly the total. *)
Definition keeps_total (G : source) : Prop :=
  forall total n p s, (0 < n)%nat -> rsum n (fun k => INR (fst (th_multinomial G total n p s) k)) = INR total.

Theorem C181_table_partial : forall G c st o no nd,
  keeps_total G -> generate G c st = Ok o ->
  dim (o_dims o) "origin" = Ok no -> dim (o_dims o) "destination" = Ok nd -> (0 < no * nd)%nat ->
  exists a, aget "ground_truth_table" (o_data o) = Some a /\
    f_shape a = unpack (o_dims o) false /\ size (f_shape a) = (no * nd)%nat /\
    (forall k, exists n : nat, f_val a k = INR n) /\
    rsum (no * nd) (f_val a) = INR (orD (c_total c) 1%nat).
Proof.
  intros G c st o no nd M H Do Dd Pos. apply generate_inv in H.
  destruct H as (dims & dn & d & no' & nd' & cs & w0 & od & time & ss & pr & E1 & E2 & E3 & E4 & E5 & E6 & E7 & E8 & E9 & E10 & E11 & E12 & E13 & ->).
  cbn [o_dims] in *. rewrite E4 in Do. rewrite E5 in Dd. injection Do as ->. injection Dd as ->.
  eexists. cbn [o_data]. rewrite aget_aset_same. split; [reflexivity|]. cbn [f_shape f_val].
  split; [reflexivity|]. split; [exact E13|]. split; [intro k; eexists; reflexivity|]. now apply M.
Qed.
Print Assumptions C181_table_partial.

(** Nothing can be drawn from the uniform distribution, the schema's default:
    a configuration that asks for it generates nothing. *)
Theorem C181_uniform_refuted : forall G c st k l u,
  In (k, EDist (Uniform l u)) (c_data c) -> is_train k = true \/ the_cost c = Ok (Uniform l u) ->
  forall o, generate G c st <> Ok o.
Proof.
  intros G c st k l u L T o H. apply generate_inv in H.
  destruct H as (dims & dn & d & no & nd & cs & w0 & od & time & ss & pr & E1 & E2 & E3 & E4 & E5 & E6 & _).
  assert (R : forall n s r, random_vector G (Uniform l u) n s <> Ok r).
  { intros n s r. cbn. destruct (Rltb u l); discriminate. }
  destruct T as [T|T].
  - destruct (foldM_step _ _ (draw_one G dims) _ _ _ _ L E2) as [x [y E]].
    unfold draw_one in E. cbn [fst snd] in E. rewrite T in E.
    apply bind_inv in E as [sh [F1 E]]. apply bind_inv in E as [vs [F2 E]]. now apply R in F2.
  - rewrite T in E3. injection E3 as <-. now apply R in E6.
Qed.
Print Assumptions C181_uniform_refuted.

(** *** A concrete source and configuration *)
Definition toy : source :=
  mksource Z Z (fun z => z) (fun z => z)
    (fun m s n st => (if Req_EM_T s 0 then (fun _ => m) else (fun k => m + s * (IZR st + INR k)), (st + 1)%Z))
    (fun lam n st => (fun _ => lam, (st + 1)%Z))
    (fun n st => (fun j => IZR st + INR j, (st + 1)%Z))
    (fun total n p st => (fun k => if Nat.eqb k (Nat.modulo (Z.to_nat st) n) then total else 0%nat, (st + 1)%Z))
    (fun I J c p => fun j => INR (S j)).

Definition toy_data (first second : string * nat) (m s : R) : list (string * entry) :=
  [("data_generation_seed", EOther); ("dims", EDims [first; second; ("time", 1%nat)]);
   ("origin_demand", EDist (Normal 1 0)); ("destination_attraction_ts", EDist (Normal m s));
   ("cost_matrix", EDist (Normal m s))].
Definition toy_cfg (first second : string * nat) (m s : R) (seed : option Z) (me : method) : cfg :=
  mkcfg (toy_data first second m s) seed me 1 2 false (Some 1) (Some 1) (Some 2) None None None (Some 1)
    (Some (1 / 100)) (Some 10%nat) false.

Lemma toy_keeps_total : keeps_total toy.
Proof.
  intros total n p s H. cbn [toy th_multinomial fst].
  set (k0 := Nat.modulo (Z.to_nat s) n). assert (K : (k0 < n)%nat) by (apply Nat.mod_upper_bound; lia).
  clearbody k0. rewrite (rsum_ext n _ (fun k => if Nat.eqb k k0 then INR total else 0)).
  2: { intros k _. now destruct (Nat.eqb k k0). }
  exact (rsum_delta n k0 (fun _ => INR total) K).
Qed.

Definition ok_with {A} (r : res A) (P : A -> Prop) : Prop := match r with Ok a => P a | Raise _ => False end.

Example C181_nonvacuous : keeps_total toy /\
  ok_with (generate toy (toy_cfg ("origin", 2%nat) ("destination", 3%nat) 1 1 (Some 7%Z) SdeSolver) (0%Z, 0%Z))
    (fun o => unpack (o_dims o) false = [2%nat; 3%nat] /\ dim (o_dims o) "origin" = Ok 2%nat /\
       dim (o_dims o) "destination" = Ok 3%nat /\ map fst (o_data o) =
         ["origin_demand"; "destination_attraction_ts"; "cost_matrix"; "total_cost_by_origin"; "ground_truth_table"]).
Proof. split; [exact toy_keeps_total|]. cbn. repeat split. Qed.
Print Assumptions C181_nonvacuous.

(** The files hold origins in rows only if the dimensions list origin first:
    otherwise costs and table are written with the dimensions swapped while
    their entries stay in the order origin by destination. *)
Theorem C181_order_refuted : exists o,
  generate toy (toy_cfg ("destination", 3%nat) ("origin", 2%nat) 1 1 (Some 7%Z) SdeSolver) (0%Z, 0%Z) = Ok o /\
  shape_of (o_dims o) "cost_matrix" = Ok [2%nat; 3%nat] /\
  shape_of (o_dims o) "ground_truth_table" = Ok [2%nat; 3%nat] /\
  (exists a, aget "cost_matrix" (o_data o) = Some a /\ f_shape a = [3%nat; 2%nat]) /\
  (exists a, aget "ground_truth_table" (o_data o) = Some a /\ f_shape a = [3%nat; 2%nat]).
Proof.
  eexists. split; [reflexivity|]. split; [reflexivity|]. split; [reflexivity|].
  split; eexists; (split; [reflexivity|reflexivity]).
Qed.
Print Assumptions C181_order_refuted.

(** ** C182: the seed determines the data *)

(** With a data_generation_seed the data, the stored configuration and the
    generators afterwards do not depend on the state of the generators before. *)
Theorem C182_same_seed : forall G c z f st st', c_seed c = Some z ->
  data_generation G c (f, st) = data_generation G c (f, st').
Proof. intros G c z f st st' H. unfold data_generation, generate. cbn [fst snd]. rewrite H. reflexivity. Qed.
Print Assumptions C182_same_seed.

Definition with_seed (c : cfg) (s : option Z) : cfg :=
  mkcfg (c_data c) s (c_method c) (c_samples c) (c_steps c) (c_production c) (c_alpha c) (c_beta c) (c_bmax c)
    (c_delta c) (c_kappa c) (c_epsilon c) (c_sigma c) (c_dt c) (c_total c) (c_overwrite c).

(** Whatever the seed, the solver leaves numpy's generator in the state that
    belongs to the number of samples: set_seed(None) releases nothing. *)
Theorem C182_generator_refuted : forall G c st o, c_method c = SdeSolver -> generate G c st = Ok o ->
  fst (o_state o) = np_seed G (Z.of_nat (c_samples c - 1)).
Proof.
  intros G c st o M H. apply generate_inv in H.
  destruct H as (dims & dn & d & no & nd & cs & w0 & od & time & ss & pr & E1 & E2 & E3 & E4 & E5 & E6 & E7 & E8 & E9 & E10 & E11 & E12 & E13 & ->).
  cbn [o_state fst]. unfold simulate in E10. rewrite M in E10. destruct (c_samples c) as [|n]; [discriminate|].
  destruct (negb (Nat.eqb time 1) && negb (Nat.eqb (c_steps c) 0))%bool; [discriminate|].
  injection E10 as <-. cbn [fst snd]. now rewrite Nat.sub_succ, Nat.sub_0_r.
Qed.
Print Assumptions C182_generator_refuted.

(** The noise of the solver and of the table do not come from the seed: when
    the distributions have no spread, every seed gives the same data. *)
Definition no_spread (G : source) : Prop := forall m n s, fst (np_normal G m 0 n s) = fun _ => m.
Definition fixed_draws (c : cfg) : Prop :=
  forall k e, In (k, e) (c_data c) -> is_train k = true \/ k = "cost_matrix" -> exists m, e = EDist (Normal m 0).

Lemma fixed_fold : forall G dims l, no_spread G ->
  (forall k e, In (k, e) l -> is_train k = true -> exists m, e = EDist (Normal m 0)) ->
  forall d s s' dn, foldM (draw_one G dims) l (d, s) = Ok dn ->
  exists dn', foldM (draw_one G dims) l (d, s') = Ok dn' /\ fst dn = fst dn'.
Proof.
  intros G dims l NS. induction l as [|[k e] l IH]; intros FD d s s' dn H.
  - injection H as <-. eexists. split; reflexivity.
  - cbn [foldM] in *. apply bind_inv in H as [st1 [E H]]. unfold draw_one in E |- *. cbn [fst snd] in *.
    destruct (is_train k) eqn:T.
    + destruct (FD k e (or_introl eq_refl) T) as [m ->].
      apply bind_inv in E as [sh [E1 E]]. cbn [random_vector rbind] in *. injection E as <-. rewrite E1. cbn [rbind].
      rewrite (NS m (size sh) s) in H. rewrite (NS m (size sh) s').
      apply (IH (fun k e K => FD k e (or_intror K)) _ _ _ _ H).
    + injection E as <-. cbn [rbind]. apply (IH (fun k e K => FD k e (or_intror K)) _ _ _ _ H).
Qed.

Lemma aget_in : forall V k (l : list (string * V)) v, aget k l = Some v -> In (k, v) l.
Proof.
  intros V k l v H. induction l as [|[k' v'] l IH]; [discriminate|]. cbn [aget] in H.
  destruct (String.eqb_spec k k') as [->|N]; [injection H as ->; now left|right; auto].
Qed.

Theorem C182_noise_refuted : forall G c z z' st st' o,
  no_spread G -> fixed_draws c -> c_method c = SdeSolver ->
  generate G (with_seed c z) st = Ok o ->
  exists o', generate G (with_seed c z') st' = Ok o' /\
    o_data o' = o_data o /\ o_probs o' = o_probs o /\ o_state o' = o_state o.
Proof.
  intros G c z z' st st' o NS FD M H. apply generate_inv in H.
  destruct H as (dims & dn & d & no & nd & cs & w0 & od & time & ss & pr & E1 & E2 & E3 & E4 & E5 & E6 & E7 & E8 & E9 & E10 & E11 & E12 & E13 & ->).
  cbn [c_data c_seed c_production c_total with_seed] in *.
  change (the_dims c = Ok dims) in E1. change (the_cost c = Ok d) in E3.
  destruct (fixed_fold G dims (c_data c) NS (fun k e K T => FD k e K (or_introl T)) [] _ (fst (set_seed G z' st')) dn E2)
    as [dn' [F2 Q]].
  assert (exists m, d = Normal m 0) as [m ->].
  { unfold the_cost in E3. destruct (aget "cost_matrix" (c_data c)) as [e|] eqn:A; [|discriminate].
    apply aget_in in A. destruct (FD _ _ A (or_intror eq_refl)) as [m ->]. injection E3 as <-. now exists m. }
  cbn [random_vector] in E6. injection E6 as <-.
  unfold generate. cbn [c_data c_seed c_production c_total with_seed].
  change (the_dims (with_seed c z')) with (the_dims c). change (the_cost (with_seed c z')) with (the_cost c).
  rewrite E1. cbn [rbind]. rewrite F2. cbn [rbind]. rewrite E3. cbn [rbind]. rewrite E4. cbn [rbind]. rewrite E5. cbn [rbind].
  cbn [random_vector rbind]. rewrite <- Q. rewrite (NS m (no * nd)%nat (snd dn')). rewrite (NS m (no * nd)%nat (snd dn)) in *.
  rewrite E7, E8. cbn [rbind]. rewrite E9. cbn [rbind].
  match goal with |- context [rbind (simulate ?a ?b ?c ?d ?e ?f ?g ?h ?i ?j) _] =>
    assert (X : simulate a b c d e f g h i j = Ok ss) end.
  { unfold simulate in E10 |- *. cbn [c_method c_samples c_steps with_seed] in *. rewrite M in *.
    destruct (c_samples c) as [|n]; [discriminate|].
    destruct (negb (Nat.eqb time 1) && negb (Nat.eqb (c_steps c) 0))%bool; [discriminate|]. exact E10. }
  rewrite X. cbn [rbind]. 
  match goal with |- context [rbind ?x _] => assert (Y : x = Ok pr) by exact E11; rewrite Y end.
  cbn [rbind]. rewrite E12, E13, !Nat.eqb_refl. cbn [negb].
  eexists. split; [reflexivity|]. cbn [o_data o_probs o_state]. repeat split.
Qed.
Print Assumptions C182_noise_refuted.

Lemma toy_no_spread : no_spread toy.
Proof. intros m n s. cbn [toy np_normal fst]. destruct (Req_EM_T 0 0); [reflexivity|congruence]. Qed.

Example C182_nonvacuous :
  let c s z := toy_cfg ("origin", 2%nat) ("destination", 3%nat) 1 s z SdeSolver in
  no_spread toy /\ fixed_draws (c 0 (Some 7%Z)) /\ c_sigma (c 0 (Some 7%Z)) = Some 1 /\
  ok_with (generate toy (c 0 (Some 7%Z)) (0%Z, 0%Z)) (fun o => fst (o_state o) = 0%Z) /\
  ok_with (data_generation toy (c 1 (Some 7%Z)) (mkfs [] [], (5%Z, 6%Z))) (fun _ => True).
Proof.
  cbv zeta. split; [exact toy_no_spread|]. split.
  { intros k e K T. cbn in K. decompose [or] K; try contradiction;
      match goal with H : (_, _) = (_, _) |- _ => injection H as <- <- end;
      try (destruct T as [T|T]; discriminate); eexists; reflexivity. }
  split; [reflexivity|]. split; cbn; [reflexivity|exact Logic.I].
Qed.
Print Assumptions C182_nonvacuous.

(** ** C183: the files of a dataset *)

(** A text that lies in the directory of the dataset. *)
Definition inside (name path : string) : Prop := exists rest, path = (name ++ "/" ++ rest)%string.

Lemma publish_inv : forall G f (o : out G) f', publish f o = Ok f' ->
  exists name, dataset_name (o_cfg o) (o_dims o) = Ok name /\
    fs_files f' = fold_left (fun acc (e : string * farr) =>
        let acc1 := aset (name ++ "/" ++ fst e ++ ".txt")%string (FNum (snd e)) acc in
        if String.eqb (fst e) "cost_matrix"
        then aset (name ++ "/cost_matrix_max_normalised.txt")%string (FNum (snd e)) acc1
        else acc1) (o_data o) (aset (name ++ "/config.json")%string (FCfg (o_cfg o)) (fs_files f)) /\
    (forall x, In x (fs_dirs f') <-> x = name \/ In x (fs_dirs f)).
Proof.
  intros G f o f' H. unfold publish in H. apply bind_inv in H as [name [E H]]. injection H as <-.
  exists name. split; [exact E|]. cbn [fs_files fs_dirs]. split; [reflexivity|]. intro x.
  assert (Q : memb name (fs_dirs f) = true -> In name (fs_dirs f)).
  { intro M. unfold memb in M. apply existsb_exists in M as [y [Y1 Y2]]. apply String.eqb_eq in Y2. now subst. }
  destruct (memb name (fs_dirs f)) eqn:M; cbn [andb].
  - specialize (Q eq_refl).
    assert (In x (fs_dirs f) <-> x = name \/ In x (fs_dirs f)) by (split; [now right|intros [-> | K]; assumption]).
    destruct (negb (c_overwrite (o_cfg o))); assumption.
  - cbn [In]. split; (intros [K|K]; [left; congruence|now right]).
Qed.

(** Nothing outside the directory of the dataset changes. *)
Theorem C183_elsewhere : forall G f (o : out G) f' name path,
  publish f o = Ok f' -> dataset_name (o_cfg o) (o_dims o) = Ok name -> ~ inside name path ->
  aget path (fs_files f') = aget path (fs_files f).
Proof.
  intros G f o f' name path H N Out. apply publish_inv in H as [name' [N' [-> _]]].
  rewrite N in N'. injection N' as <-.
  assert (X : forall r v (l : list (string * content)), aget path (aset (name ++ "/" ++ r)%string v l) = aget path l).
  { intros r v l. apply aget_aset_other. intros ->. apply Out. now exists r. }
  transitivity (aget path (aset (name ++ "/config.json")%string (FCfg (o_cfg o)) (fs_files f))).
  2: { apply (X "config.json"). }
  generalize (aset (name ++ "/config.json")%string (FCfg (o_cfg o)) (fs_files f)).
  induction (o_data o) as [|e l IH]; intro acc; [reflexivity|]. cbn [fold_left]. rewrite IH. cbv zeta.
  destruct (String.eqb (fst e) "cost_matrix").
  - rewrite (X "cost_matrix_max_normalised.txt"). apply X.
  - apply X.
Qed.
Print Assumptions C183_elsewhere.

(** The flag [overwrite] protects nothing: whether or not the directory exists
    and whatever the flag, config.json and the file of every dataset hold the
    new values afterwards. *)
Theorem C183_overwrite_refuted : forall G f (o : out G) f' name,
  publish f o = Ok f' -> dataset_name (o_cfg o) (o_dims o) = Ok name ->
  NoDup (map fst (o_data o)) -> (forall k, In k (map fst (o_data o)) -> k <> "cost_matrix_max_normalised") ->
  aget (name ++ "/config.json")%string (fs_files f') = Some (FCfg (o_cfg o)) /\
  (forall k a, In (k, a) (o_data o) -> aget (name ++ "/" ++ k ++ ".txt")%string (fs_files f') = Some (FNum a)).
Proof.
  intros G f o f' name H N ND NM. apply publish_inv in H as [name' [N' [-> _]]].
  rewrite N in N'. injection N' as <-.
  set (base := aset (name ++ "/config.json")%string (FCfg (o_cfg o)) (fs_files f)).
  assert (B : aget (name ++ "/config.json")%string base = Some (FCfg (o_cfg o))) by apply aget_aset_same.
  assert (J : forall k : string, (name ++ "/config.json")%string <> (name ++ "/" ++ k ++ ".txt")%string).
  { intros k E. apply sapp_inj in E. apply (sapp_inj "/") in E.
    rename E into Q. clear - Q. do 8 (destruct k as [|? k]; [cbn in Q; discriminate|cbn in Q; injection Q as _ Q]).
    destruct k as [|? k]; cbn in Q; try discriminate. apply (f_equal String.length) in Q. cbn in Q. rewrite ?sapp_len in Q. cbn in Q. lia. }
  assert (Jm : forall k : string, k <> "cost_matrix_max_normalised" ->
             (name ++ "/cost_matrix_max_normalised.txt")%string <> (name ++ "/" ++ k ++ ".txt")%string).
  { intros k NK E. apply sapp_inj in E. apply (sapp_inj "/") in E.
    change ("cost_matrix_max_normalised.txt"%string) with ("cost_matrix_max_normalised" ++ ".txt")%string in E.
    apply sapp_inj_l in E. congruence. }
  assert (Jk : forall k k' : string, k <> k' -> (name ++ "/" ++ k ++ ".txt")%string <> (name ++ "/" ++ k' ++ ".txt")%string).
  { intros k k' NK E. apply sapp_inj in E. apply (sapp_inj "/") in E. apply sapp_inj_l in E. congruence. }
  assert (Jc : (name ++ "/config.json")%string <> (name ++ "/cost_matrix_max_normalised.txt")%string).
  { intro E. apply sapp_inj in E. discriminate. }
  clearbody base. revert base B. revert ND NM. generalize (o_data o). intro l.
  induction l as [|[k0 a0] l IH]; intros ND NM base B; [split; [exact B|contradiction]|].
  cbn [fold_left fst snd map] in *. cbv zeta. inversion ND as [|? ? Fr ND']; subst.
  set (acc := if String.eqb k0 "cost_matrix" then _ else _).
  assert (A1 : aget (name ++ "/config.json")%string acc = Some (FCfg (o_cfg o))).
  { subst acc. destruct (String.eqb k0 "cost_matrix").
    - rewrite aget_aset_other by exact Jc. rewrite aget_aset_other by apply J. exact B.
    - rewrite aget_aset_other by apply J. exact B. }
  assert (A2 : aget (name ++ "/" ++ k0 ++ ".txt")%string acc = Some (FNum a0)).
  { subst acc. destruct (String.eqb k0 "cost_matrix").
    - rewrite aget_aset_other by (apply not_eq_sym; apply Jm; apply NM; now left). apply aget_aset_same.
    - apply aget_aset_same. }
  clearbody acc.
  destruct (IH ND' (fun k K => NM k (or_intror K)) acc A1) as [C1 C2].
  split; [exact C1|]. intros k a [E|K]; [|now apply C2]. injection E as <- <-.
  clear C1 C2 IH. revert acc A1 A2.
  assert (NM' : forall k, In k (map fst l) -> k <> "cost_matrix_max_normalised") by (intros; apply NM; now right).
  specialize (NM k0 (or_introl eq_refl)). clear ND ND' B.
  induction l as [|[k1 a1] l IH]; intros acc A1 A2; [exact A2|]. cbn [fold_left fst snd map In] in *. cbv zeta.
  apply IH; [tauto|intros; apply NM'; tauto|..].
  - destruct (String.eqb k1 "cost_matrix").
    + rewrite aget_aset_other by exact Jc. rewrite aget_aset_other by apply J. exact A1.
    + rewrite aget_aset_other by apply J. exact A1.
  - assert (N1 : k0 <> k1) by (intros ->; tauto). destruct (String.eqb k1 "cost_matrix").
    + rewrite aget_aset_other by (apply not_eq_sym; now apply Jm). rewrite aget_aset_other by now apply Jk. exact A2.
    + rewrite aget_aset_other by now apply Jk. exact A2.
Qed.
Print Assumptions C183_overwrite_refuted.

(** Two configurations whose last entry of inputs.data is a dataset of origins
    by destinations write to the same directory exactly when they agree on the
    numbers of origins and destinations and on the total. *)
Lemma no_x : forall n, free_of "x"%char (decimal n).
Proof. intro n. apply decimal_free. intros k K. do 10 (destruct k as [|k]; [discriminate|]). lia. Qed.
Lemma no_us : forall n, free_of "_"%char (decimal n).
Proof. intro n. apply decimal_free. intros k K. do 10 (destruct k as [|k]; [discriminate|]). lia. Qed.

Theorem C183_names : forall c dims c' dims' no nd no' nd' k k' name name',
  last_key c = Some k -> shape_of dims k = Ok [no; nd] -> dataset_name c dims = Ok name ->
  last_key c' = Some k' -> shape_of dims' k' = Ok [no'; nd'] -> dataset_name c' dims' = Ok name' ->
  (name = name' <-> no = no' /\ nd = nd' /\ orD (c_total c) 1%nat = orD (c_total c') 1%nat).
Proof.
  intros c dims c' dims' no nd no' nd' k k' name name' L S D L' S' D'.
  unfold dataset_name in D, D'. rewrite L in D. rewrite L' in D'. rewrite S in D. rewrite S' in D'.
  cbn [rbind map xjoin] in D, D'.
  assert (OI : forall (a b : string), Ok a = Ok b -> a = b) by (intros a b Q; now injection Q).
  apply OI in D, D'. subst name name'. split.
  - intro E. apply sapp_inj in E.
    assert (As : forall a b x : string, ((a ++ "x" ++ b) ++ x = a ++ String "x" (b ++ x))%string).
    { clear. intros a b x. induction a as [|h a IH]; [reflexivity|].
      exact (f_equal (String h) IH). }
    rewrite !As in E. apply cut_at in E as [E1 E]; [|apply no_x|apply no_x].
    change ("_total_" ++ decimal (orD (c_total c) 1%nat))%string with (String "_" ("total_" ++ decimal (orD (c_total c) 1%nat)))%string in E.
    change ("_total_" ++ decimal (orD (c_total c') 1%nat))%string with (String "_" ("total_" ++ decimal (orD (c_total c') 1%nat)))%string in E.
    apply cut_at in E as [E2 E]; [|apply no_us|apply no_us].
    apply sapp_inj in E. repeat split; now apply decimal_inj.
  - intros [-> [-> ->]]. reflexivity.
Qed.
Print Assumptions C183_names.

(** If the last entry of inputs.data is not a dataset with dimensions (the
    number of samples, say), the generation fails after all computations and
    no file is written: there is no new state of the disk. *)
Theorem C183_last_key_refuted : forall G c w k o,
  last_key c = Some k -> (forall dims, exists e, shape_of dims k = Raise e) -> data_generation G c w <> Ok o.
Proof.
  intros G c w k o L S H. unfold data_generation in H. apply bind_inv in H as [o1 [E H]].
  apply bind_inv in H as [f [P _]]. apply publish_inv in P as [name [N _]].
  apply generate_inv in E.
  destruct E as (dims & dn & d & no & nd & cs & w0 & od & time & ss & pr & _ & _ & _ & _ & _ & _ & _ & _ & _ & _ & _ & _ & _ & ->).
  unfold dataset_name in N. cbn [o_cfg o_dims] in N. change (last_key (stored_cfg c _)) with (last_key c) in N.
  rewrite L in N. destruct (S dims) as [e E]. rewrite E in N. discriminate.
Qed.
Print Assumptions C183_last_key_refuted.

Definition with_data (c : cfg) (d : list (string * entry)) : cfg :=
  mkcfg d (c_seed c) (c_method c) (c_samples c) (c_steps c) (c_production c) (c_alpha c) (c_beta c) (c_bmax c)
    (c_delta c) (c_kappa c) (c_epsilon c) (c_sigma c) (c_dt c) (c_total c) (c_overwrite c).

(** The same configuration with its entries in another order: the directory is
    named after the origins alone, so that datasets with different numbers of
    destinations replace each other; and with the seed last, nothing is
    written although the same data are generated. *)
Definition demand_last (nd : nat) : cfg :=
  let c := toy_cfg ("origin", 2%nat) ("destination", nd) 1 1 (Some 7%Z) SdeSolver in
  with_data c [("dims", EDims [("origin", 2%nat); ("destination", nd); ("time", 1%nat)]);
               ("destination_attraction_ts", EDist (Normal 1 1)); ("cost_matrix", EDist (Normal 1 1));
               ("origin_demand", EDist (Normal 1 0))].
Definition seed_last : cfg :=
  let c := toy_cfg ("origin", 2%nat) ("destination", 3%nat) 1 1 (Some 7%Z) SdeSolver in
  with_data c (c_data (demand_last 3) ++ [("data_generation_seed", EOther)]).

Lemma demand_last_ok : forall n, n = 3%nat \/ n = 4%nat -> exists o,
  generate toy (demand_last n) (0%Z, 0%Z) = Ok o /\ c_data (o_cfg o) = c_data (demand_last n) /\
  dataset_name (o_cfg o) (o_dims o) = Ok "./data/inputs/synthetic/synthetic_2_total_10" /\
  map fst (o_data o) = ["destination_attraction_ts"; "origin_demand"; "cost_matrix"; "total_cost_by_origin"; "ground_truth_table"].
Proof. intros n [-> | ->]; eexists; (split; [reflexivity|repeat split]). Qed.
Lemma publish_name : forall G f (o : out G) name, dataset_name (o_cfg o) (o_dims o) = Ok name -> exists f', publish f o = Ok f'.
Proof. intros G f o name N. unfold publish. rewrite N. cbn [rbind]. eexists. reflexivity. Qed.

Theorem C183_names_refuted : exists o f o' f',
  data_generation toy (demand_last 3) (mkfs [] [], (0%Z, 0%Z)) = Ok (o, f) /\
  data_generation toy (demand_last 4) (f, (0%Z, 0%Z)) = Ok (o', f') /\
  fs_dirs f = fs_dirs f' /\ c_overwrite (demand_last 4) = false /\
  aget "./data/inputs/synthetic/synthetic_2_total_10/config.json" (fs_files f) = Some (FCfg (o_cfg o)) /\
  aget "./data/inputs/synthetic/synthetic_2_total_10/config.json" (fs_files f') = Some (FCfg (o_cfg o')) /\
  c_data (o_cfg o) = c_data (demand_last 3) /\ c_data (o_cfg o') = c_data (demand_last 4).
Proof.
  destruct (demand_last_ok 3) as (o & E & D & N & K); [now left|].
  destruct (demand_last_ok 4) as (o' & E' & D' & N' & K'); [now right|].
  destruct (publish_name _ (mkfs [] []) o _ N) as [f P].
  destruct (publish_name _ f o' _ N') as [f' P'].
  assert (ND : NoDup ["destination_attraction_ts"; "origin_demand"; "cost_matrix"; "total_cost_by_origin"; "ground_truth_table"]).
  { repeat constructor; cbn [In]; intros Q; decompose [or] Q; try discriminate; try contradiction. }
  assert (NM : forall k, In k ["destination_attraction_ts"; "origin_demand"; "cost_matrix"; "total_cost_by_origin"; "ground_truth_table"] -> k <> "cost_matrix_max_normalised").
  { intros k Q ->. cbn [In] in Q. decompose [or] Q; try discriminate; try contradiction. }
  exists o, f, o', f'. unfold data_generation. cbn [fst snd]. rewrite E. cbn [rbind]. rewrite P. cbn [rbind].
  split; [reflexivity|]. rewrite E'. cbn [rbind]. rewrite P'. cbn [rbind]. split; [reflexivity|].
  split.
  { unfold publish in P, P'. rewrite N in P. rewrite N' in P'. cbn [rbind fs_dirs memb existsb andb] in P, P'.
    assert (OI : forall a b : fs, Ok a = Ok b -> fs_dirs a = fs_dirs b) by (intros a b Q; now injection Q as ->).
    apply OI in P. cbn [fs_dirs] in P. apply OI in P'. cbn [fs_dirs] in P'. rewrite <- P in P'. rewrite <- P.
    unfold memb, existsb in P'. rewrite String.eqb_refl in P'. cbn [orb andb] in P'.
    destruct (negb (c_overwrite (o_cfg o'))); exact P'. }
  split; [reflexivity|].
  split; [apply (C183_overwrite_refuted _ _ o f _ P N); rewrite K; assumption|].
  split; [apply (C183_overwrite_refuted _ _ o' f' _ P' N'); rewrite K'; assumption|].
  split; assumption.
Qed.
Print Assumptions C183_names_refuted.

Example C183_nonvacuous :
  (exists o, generate toy seed_last (0%Z, 0%Z) = Ok o /\ last_key seed_last = Some "data_generation_seed") /\
  (exists o f,
     data_generation toy (toy_cfg ("origin", 2%nat) ("destination", 3%nat) 1 1 (Some 7%Z) SdeSolver)
       (mkfs ["./data/inputs/synthetic/synthetic_2x3_total_10"] [], (0%Z, 0%Z)) = Ok (o, f) /\
     dataset_name (o_cfg o) (o_dims o) = Ok "./data/inputs/synthetic/synthetic_2x3_total_10" /\
     c_overwrite (o_cfg o) = false /\ NoDup (map fst (o_data o)) /\
     fs_dirs f = ["./data/inputs/synthetic/synthetic_2x3_total_10"]).
Proof.
  split; [eexists; split; reflexivity|].
  assert (X : exists o, generate toy (toy_cfg ("origin", 2%nat) ("destination", 3%nat) 1 1 (Some 7%Z) SdeSolver) (0%Z, 0%Z) = Ok o /\
    dataset_name (o_cfg o) (o_dims o) = Ok "./data/inputs/synthetic/synthetic_2x3_total_10" /\ c_overwrite (o_cfg o) = false /\
    map fst (o_data o) = ["origin_demand"; "destination_attraction_ts"; "cost_matrix"; "total_cost_by_origin"; "ground_truth_table"]).
  { eexists. split; [reflexivity|repeat split]. }
  destruct X as (o & E & N & W & K).
  destruct (publish_name _ (mkfs ["./data/inputs/synthetic/synthetic_2x3_total_10"] []) o _ N) as [f P].
  exists o, f. unfold data_generation. cbn [fst snd]. rewrite E. cbn [rbind]. rewrite P. cbn [rbind].
  split; [reflexivity|]. split; [exact N|]. split; [exact W|]. rewrite K. split.
  - repeat constructor; cbn [In]; intros Q; decompose [or] Q; try discriminate; try contradiction.
  - unfold publish in P. rewrite N in P. cbn [rbind fs_dirs] in P. unfold memb, existsb in P. rewrite String.eqb_refl, W in P.
    assert (OI : forall a b : fs, Ok a = Ok b -> fs_dirs a = fs_dirs b) by (intros a b Q; now injection Q as ->).
    apply OI in P. now symmetry.
Qed.
Print Assumptions C183_nonvacuous.

(** ** C184: the stored configuration regenerates the data *)

(** The converse of [generate_inv], for the parts that depend on the parameters. *)
Lemma generate_params : forall G c c' st o,
  generate G c st = Ok o ->
  c_data c' = c_data c -> c_seed c' = c_seed c -> c_method c' = c_method c -> c_samples c' = c_samples c ->
  c_steps c' = c_steps c -> c_production c' = c_production c -> c_total c' = c_total c ->
  (forall J w flow, o_cfg o = stored_cfg c (true_parameters c J w flow) -> true_parameters c' J w flow = true_parameters c J w flow) ->
  exists o', generate G c' st = Ok o' /\ o_data o' = o_data o /\ o_probs o' = o_probs o /\ o_state o' = o_state o /\
    o_dims o' = o_dims o /\
    exists J w flow, o_cfg o = stored_cfg c (true_parameters c J w flow) /\ o_cfg o' = stored_cfg c' (true_parameters c J w flow).
Proof.
  intros G c c' st o H F1 F2 F3 F4 F5 F6 F7 P. apply generate_inv in H.
  destruct H as (dims & dn & d & no & nd & cs & w0 & od & time & ss & pr & E1 & E2 & E3 & E4 & E5 & E6 & E7 & E8 & E9 & E10 & E11 & E12 & E13 & ->).
  cbn [o_cfg] in P. specialize (P _ _ _ eq_refl).
  unfold generate. unfold the_dims, the_cost. rewrite F1, F2, F6, F7.
  fold (the_dims c). fold (the_cost c). rewrite E1. cbn [rbind]. rewrite E2. cbn [rbind]. rewrite E3. cbn [rbind].
  rewrite E4. cbn [rbind]. rewrite E5. cbn [rbind]. rewrite E6. cbn [rbind]. rewrite E7, E8. cbn [rbind]. rewrite E9. cbn [rbind].
  rewrite P.
  match goal with |- context [rbind (simulate ?a ?b ?c ?d ?e ?f ?g ?h ?i ?j) _] =>
    assert (X : simulate a b c d e f g h i j = Ok ss) end.
  { unfold simulate in E10 |- *. rewrite F3, F4, F5. exact E10. }
  rewrite X. cbn [rbind].
  match goal with |- context [rbind ?x _] => assert (Y : x = Ok pr) by exact E11; rewrite Y end.
  cbn [rbind]. rewrite E12, E13, !Nat.eqb_refl. cbn [negb].
  eexists. split; [reflexivity|]. cbn [o_data o_probs o_state o_dims o_cfg]. repeat (split; [reflexivity|]).
  do 3 eexists. split; reflexivity.
Qed.

(** Generating again from config.json gives the same data and the same
    config.json if the scale of beta is one (or beta is zero) and no negative
    delta or kappa is listed. *)
Theorem C184_regenerate_partial : forall G c st o,
  generate G c st = Ok o ->
  (orD (c_bmax c) 1 = 1 \/ orD (c_beta c) (1 / 2) = 0) ->
  (forall x, c_delta c = Some x -> 0 <= x) -> (forall x, c_kappa c = Some x -> 0 <= x) ->
  exists o', generate G (o_cfg o) st = Ok o' /\
    o_data o' = o_data o /\ o_probs o' = o_probs o /\ o_state o' = o_state o /\ o_cfg o' = o_cfg o.
Proof.
  intros G c st o H B De Ka.
  assert (TP : forall J w flow, true_parameters (stored_cfg c (true_parameters c J w flow)) J w flow = true_parameters c J w flow).
  { intros J w flow. unfold true_parameters at 1. cbn [stored_cfg c_alpha c_beta c_bmax c_delta c_kappa c_epsilon c_sigma].
    assert (U : update_delta_and_kappa (orD (over (c_delta c) (delta (p_hw (true_parameters c J w flow)))) (-1))
                  (orD (over (c_kappa c) (kappa (p_hw (true_parameters c J w flow)))) (-1)) J (rmin J w) (rsum J w) flow =
                update_delta_and_kappa (orD (c_delta c) (-1)) (orD (c_kappa c) (-1)) J (rmin J w) (rsum J w) flow).
    { unfold true_parameters. cbn [p_hw delta kappa].
      assert (N1 : Rleb 0 (-1) = false) by (apply Rleb_false; lra).
      destruct (c_delta c) as [de|] eqn:D, (c_kappa c) as [ka|] eqn:K; cbn [orD over]; [..|reflexivity].
      - specialize (De de eq_refl). specialize (Ka ka eq_refl).
        unfold update_delta_and_kappa. rewrite (proj2 (Rleb_spec 0 de) De), (proj2 (Rleb_spec 0 ka) Ka). cbn [fst snd].
        now rewrite (proj2 (Rleb_spec 0 de) De), (proj2 (Rleb_spec 0 ka) Ka).
      - specialize (De de eq_refl). unfold update_delta_and_kappa. rewrite (proj2 (Rleb_spec 0 de) De), N1. cbn [fst snd].
        now rewrite (proj2 (Rleb_spec 0 de) De).
      - specialize (Ka ka eq_refl). unfold update_delta_and_kappa. rewrite (proj2 (Rleb_spec 0 ka) Ka), N1. cbn [fst snd].
        now rewrite (proj2 (Rleb_spec 0 ka) Ka). }
    rewrite U. unfold true_parameters. cbn [orD p_alpha p_beta p_hw kappa delta epsilon sigma dt]. f_equal.
    - destruct B as [B|B]; rewrite B; lra.
    - f_equal; [destruct (c_epsilon c)|destruct (c_sigma c)]; reflexivity. }
  destruct (generate_inv _ _ _ _ H) as (dims & dn & d & no & nd & cs & w0 & od & time & ss & pr & _ & _ & _ & _ & _ & _ & _ & _ & _ & _ & _ & _ & _ & Eo).
  set (J := nd) in Eo. cbv zeta in Eo.
  match type of Eo with o = mkout _ _ _ (stored_cfg _ ?q) _ => assert (C : o_cfg o = stored_cfg c q) by (rewrite Eo; reflexivity) end.
  clear Eo. rewrite C.
  match type of C with _ = stored_cfg c (true_parameters c ?a ?b ?e) => set (w := b) in *; set (fl := e) in * end.
  assert (Q : forall J' w' flow', o_cfg o = stored_cfg c (true_parameters c J' w' flow') ->
    true_parameters (stored_cfg c (true_parameters c J w fl)) J' w' flow' = true_parameters c J' w' flow').
  { intros J' w' flow' E. rewrite <- C, E. apply TP. }
  destruct (generate_params G c (stored_cfg c (true_parameters c J w fl)) st o H) as (o' & X & D1 & D2 & D3 & D4 & J1 & w1 & f1 & C1 & C2);
    try reflexivity; [exact Q|].
  exists o'. split; [exact X|]. split; [exact D1|]. split; [exact D2|]. split; [exact D3|].
  rewrite C2. rewrite <- C. rewrite C1. 
  unfold stored_cfg. cbn [c_data c_seed c_method c_samples c_steps c_production c_alpha c_beta c_bmax c_delta c_kappa c_epsilon c_sigma c_dt c_total c_overwrite].
  f_equal; try reflexivity; match goal with |- over (over ?x _) _ = _ => destruct x; reflexivity end.
Qed.
Print Assumptions C184_regenerate_partial.

(** Whether a generation succeeds does not depend on the parameters. *)
Lemma generate_succeeds : forall G c c' st o,
  generate G c st = Ok o ->
  c_data c' = c_data c -> c_seed c' = c_seed c -> c_method c' = c_method c -> c_samples c' = c_samples c ->
  c_steps c' = c_steps c -> c_production c' = c_production c -> c_total c' = c_total c ->
  exists o' J w flow, generate G c' st = Ok o' /\ o_cfg o' = stored_cfg c' (true_parameters c' J w flow).
Proof.
  intros G c c' st o H F1 F2 F3 F4 F5 F6 F7. apply generate_inv in H.
  destruct H as (dims & dn & d & no & nd & cs & w0 & od & time & ss & pr & E1 & E2 & E3 & E4 & E5 & E6 & E7 & E8 & E9 & E10 & E11 & E12 & E13 & _).
  unfold generate. unfold the_dims, the_cost. rewrite F1, F2, F6, F7.
  fold (the_dims c). fold (the_cost c). rewrite E1. cbn [rbind]. rewrite E2. cbn [rbind]. rewrite E3. cbn [rbind].
  rewrite E4. cbn [rbind]. rewrite E5. cbn [rbind]. rewrite E6. cbn [rbind]. rewrite E7, E8. cbn [rbind]. rewrite E9. cbn [rbind].
  match goal with |- context [rbind (simulate ?a ?b ?c ?d ?e ?f ?g ?h ?i ?j) _] =>
    assert (X : exists s, simulate a b c d e f g h i j = Ok s /\
      match fst s, fst ss with Rows _, Rows _ => True | Flat _, Flat _ => True | _, _ => False end) end.
  { unfold simulate in E10 |- *. rewrite F3, F4, F5. destruct (c_method c).
    - destruct (c_samples c) as [|n]; [discriminate|].
      destruct (negb (Nat.eqb time 1) && negb (Nat.eqb (c_steps c) 0))%bool; [discriminate|].
      injection E10 as <-. eexists. split; [reflexivity|]. cbn [fst]. now destruct (Nat.eqb (c_steps c) 0).
    - injection E10 as <-. eexists. split; [reflexivity|exact Logic.I].
    - discriminate. }
  destruct X as [s [X Sh]]. rewrite X. cbn [rbind].
  match goal with |- context [rbind ?x _] => assert (Y : exists q, x = Ok q) end.
  { unfold cell_probs in E11 |- *. destruct (negb (Nat.eqb no nd)); [|eexists; reflexivity].
    destruct (fst ss); [|discriminate]. destruct (fst s); [eexists; reflexivity|contradiction]. }
  destruct Y as [q Y]. rewrite Y. cbn [rbind]. rewrite E12, E13, !Nat.eqb_refl. cbn [negb].
  do 4 eexists. split; [reflexivity|]. reflexivity.
Qed.

(** Otherwise the scale is applied again: config.json holds beta times bmax
    together with bmax, and a generation from it uses (and stores) beta times
    bmax squared. *)
Theorem C184_scale_refuted : forall G c st o, generate G c st = Ok o ->
  c_beta (o_cfg o) = Some (orD (c_beta c) (1 / 2) * orD (c_bmax c) 1) /\
  c_bmax (o_cfg o) = Some (orD (c_bmax c) 1) /\
  exists o', generate G (o_cfg o) st = Ok o' /\
    c_beta (o_cfg o') = Some (orD (c_beta c) (1 / 2) * orD (c_bmax c) 1 * orD (c_bmax c) 1).
Proof.
  intros G c st o H.
  destruct (generate_inv _ _ _ _ H) as (dims & dn & d & no & nd & cs & w0 & od & time & ss & pr & _ & _ & _ & _ & _ & _ & _ & _ & _ & _ & _ & _ & _ & Eo).
  cbv zeta in Eo.
  match type of Eo with o = mkout _ _ _ (stored_cfg _ ?q) _ => assert (C : o_cfg o = stored_cfg c q) by (rewrite Eo; reflexivity) end.
  clear Eo. split; [rewrite C; reflexivity|]. split; [rewrite C; reflexivity|].
  destruct (generate_succeeds G c (o_cfg o) st o H) as (o' & J & w & fl & X & C'); try (rewrite C; reflexivity).
  exists o'. split; [exact X|]. rewrite C', C. reflexivity.
Qed.
Print Assumptions C184_scale_refuted.

Definition with_dt (c : cfg) (x : option R) : cfg :=
  mkcfg (c_data c) (c_seed c) (c_method c) (c_samples c) (c_steps c) (c_production c) (c_alpha c) (c_beta c) (c_bmax c)
    (c_delta c) (c_kappa c) (c_epsilon c) (c_sigma c) x (c_total c) (c_overwrite c).

(** The configured time step is not used: data generated with any two time
    steps are equal, and the one stored is 0.001. *)
Theorem C184_dt_refuted : forall G c st o x, generate G c st = Ok o ->
  exists o', generate G (with_dt c (Some x)) st = Ok o' /\ o_data o' = o_data o /\ c_dt (o_cfg o') = Some (1 / 1000).
Proof.
  intros G c st o x H.
  destruct (generate_params G c (with_dt c (Some x)) st o H) as (o' & X & D1 & _ & _ & _ & J & w & fl & _ & C2); try reflexivity.
  exists o'. split; [exact X|]. split; [exact D1|]. rewrite C2. reflexivity.
Qed.
Print Assumptions C184_dt_refuted.

Example C184_nonvacuous :
  (exists o, generate toy (toy_cfg ("origin", 2%nat) ("destination", 3%nat) 1 1 (Some 7%Z) SdeSolver) (0%Z, 0%Z) = Ok o /\
     c_beta (o_cfg o) = Some (1 * 2) /\ 1 * 2 <> 1 * 2 * 2) /\
  (exists o, generate toy (mkcfg (toy_data ("origin", 2%nat) ("destination", 3%nat) 1 1) (Some 7%Z) SdeSolver 2 3 false
      (Some 1) (Some 1) (Some 1) (Some 0) None None (Some 1) None (Some 10%nat) false) (0%Z, 0%Z) = Ok o).
Proof. split; [eexists; split; [reflexivity|split; [reflexivity|lra]]|eexists; reflexivity]. Qed.
Print Assumptions C184_nonvacuous.

(** ** C185: the table is drawn from the model's flows *)

(** The flows of the totally constrained model as shares of their total. *)
Definition utility (al be : R) (w : vec) (c : mat) : mat := fun i j => exp (al * ln (w j) - be * c i j).
Definition tc_share (no nd : nat) (al be : R) (w : vec) (c : mat) : mat :=
  fun i j => utility al be w c i j / rsum2 no nd (utility al be w c).
(** Those of the production constrained model: each origin's demand is shared
    out among the destinations. *)
Definition pc_share (nd : nat) (O : vec) (al be : R) (w : vec) (c : mat) : mat :=
  fun i j => O i * (utility al be w c i j / rsum nd (utility al be w c i)).

Lemma probs_inv : forall G c st o, generate G c st = Ok o ->
  exists no nd cost time s od lf p,
    dim (o_dims o) "origin" = Ok no /\ dim (o_dims o) "destination" = Ok nd /\
    cell_probs no nd cost lf s = Ok (o_probs o) /\
    aget "cost_matrix" (o_data o) = Some (FA (unpack (o_dims o) false) (flat2 nd cost)) /\
    aget "destination_attraction_ts" (o_data o) = Some (stored_attraction nd time s) /\
    dim (o_dims o) "time" = Ok time /\
    (c_production c = true -> exists a, aget "origin_demand" (o_data o) = Some a /\ f_val a = od) /\
    lf = log_flow (c_production c) no nd od cost p /\ p_alpha p = orD (c_alpha c) (1 / 2) /\
    p_beta p = orD (c_beta c) (1 / 2) * orD (c_bmax c) 1 /\
    (forall i j, 0 <= cost i j) /\
    (exists g, aget "ground_truth_table" (o_data o) = Some (FA (unpack (o_dims o) false)
        (fun k => INR (fst (th_multinomial G (orD (c_total c) 1%nat) (no * nd) (flat2 nd (o_probs o)) g) k)))) /\
    match c_method c with
    | SdeSolver => if Nat.eqb (c_steps c) 0 then exists x, s = Flat x else exists x, s = Rows x
    | SdePotential => exists x, s = Flat x
    | OtherMethod => False end /\ size (unpack (o_dims o) false) = (no * nd)%nat.
Proof.
  intros G c st o H. apply generate_inv in H.
  destruct H as (dims & dn & d & no & nd & cs & w0 & od & time & ss & pr & E1 & E2 & E3 & E4 & E5 & E6 & E7 & E8 & E9 & E10 & E11 & E12 & E13 & ->).
  exists no, nd, (scaled_cost no nd (raw_cost no nd (fst cs))), time, (fst ss), od. do 2 eexists.
  cbn [o_dims o_data o_probs].
  split; [exact E4|]. split; [exact E5|]. split; [exact E11|].
  rewrite aget_aset_other by discriminate. rewrite aget_aset_same. split; [reflexivity|].
  rewrite !aget_aset_other by discriminate. rewrite aget_map_cast by discriminate. rewrite aget_aset_same. split; [reflexivity|].
  split; [exact E9|]. split.
  { intro P. rewrite aget_map_cast by discriminate. rewrite (aget_aset_other _ "origin_demand" "destination_attraction_ts") by discriminate.
    rewrite P in E8. match goal with |- context [aget "origin_demand" ?l] => destruct (aget "origin_demand" l) as [a|]; [|discriminate] end.
    injection E8 as <-. now exists a. }
  split; [reflexivity|]. split; [reflexivity|]. split; [reflexivity|].
  split. { intros i j. apply div_nonneg; [apply raw_nonneg|apply cost_max_pos]. }
  split. { rewrite aget_aset_same. eexists. reflexivity. }
  split; [|exact E13]. unfold simulate in E10. destruct (c_method c).
  - destruct (c_samples c) as [|n]; [discriminate|].
    destruct (negb (Nat.eqb time 1) && negb (Nat.eqb (c_steps c) 0))%bool; [discriminate|].
    injection E10 as <-. cbn [fst]. destruct (Nat.eqb (c_steps c) 0); eexists; reflexivity.
  - injection E10 as <-. eexists; reflexivity.
  - discriminate.
Qed.

(** The table's entries are one draw of the multinomial distribution with the
    configured total and the probabilities [p] (cells in the order origin by
    destination). *)
Definition drawn_with (G : source) (total n : nat) (p table : vec) : Prop :=
  exists g, forall k, table k = INR (fst (th_multinomial G total n p g) k).

Lemma utility_flat : forall nd (cost : mat) al be w i j, (j < nd)%nat ->
  utility al be w (fun i j => flat2 nd cost (i * nd + j)%nat) i j = utility al be w cost i j.
Proof. intros. unfold utility. now rewrite flat2_at. Qed.

(** With different numbers of origins and destinations the probabilities are
    the model's flows at the configured alpha and beta times bmax, the stored
    costs and the stored attractions. *)
Theorem C185_flows_partial : forall G c st o no nd,
  generate G c st = Ok o -> dim (o_dims o) "origin" = Ok no -> dim (o_dims o) "destination" = Ok nd ->
  no <> nd -> (0 < no)%nat -> (0 < nd)%nat ->
  exists cost w table,
    aget "cost_matrix" (o_data o) = Some cost /\ aget "destination_attraction_ts" (o_data o) = Some w /\
    aget "ground_truth_table" (o_data o) = Some table /\ f_shape w = [nd; 1%nat] /\
    drawn_with G (orD (c_total c) 1%nat) (no * nd) (flat2 nd (o_probs o)) (f_val table) /\
    let al := orD (c_alpha c) (1 / 2) in let be := orD (c_beta c) (1 / 2) * orD (c_bmax c) 1 in
    let C := fun i j => f_val cost (i * nd + j)%nat in
    (c_production c = false -> forall i j, (i < no)%nat -> (j < nd)%nat ->
       o_probs o i j = tc_share no nd al be (f_val w) C i j) /\
    (c_production c = true -> exists d, aget "origin_demand" (o_data o) = Some d /\
       forall i j, (i < no)%nat -> (j < nd)%nat -> 0 < f_val d i ->
       o_probs o i j = pc_share nd (f_val d) al be (f_val w) C i j).
Proof.
  intros G c st o no nd H Do Dd NE Po Pd. apply probs_inv in H.
  destruct H as (no' & nd' & cost & time & s & od & lf & p & Do' & Dd' & CP & Hc & Hw & Ht & Hod & El & Ea & Eb & _ & [g Hg] & _ & _).
  rewrite Do in Do'. injection Do' as <-. rewrite Dd in Dd'. injection Dd' as <-.
  unfold cell_probs in CP. rewrite (proj2 (Nat.eqb_neq no nd) NE) in CP. cbn [negb] in CP.
  destruct s as [w|w]; [|discriminate]. apply (f_equal (fun r => match r with Ok q => q | Raise _ => fun _ _ => 0 end)) in CP.
  do 3 eexists. split; [exact Hc|]. split; [exact Hw|]. split; [exact Hg|]. split; [reflexivity|].
  split; [exists g; reflexivity|]. cbv zeta. cbn [f_val stored_attraction]. split.
  - intros Pr i j Hi Hj. rewrite <- CP. rewrite El, Pr. unfold log_flow, tc_log_flow. rewrite ln_1, Rplus_0_r, Ea, Eb.
    unfold Rminus. rewrite exp_plus, exp_Ropp, exp_lse2 by assumption. unfold tc_share. rewrite utility_flat by exact Hj.
    unfold Rdiv. f_equal. f_equal. apply rsum_ext. intros i' _. apply rsum_ext. intros j' Hj'. now rewrite utility_flat.
  - intros Pr. destruct (Hod Pr) as [d [D1 D2]]. exists d. split; [exact D1|]. intros i j Hi Hj Pos. subst od.
    rewrite <- CP. rewrite El, Pr. unfold log_flow, pc_log_flow. rewrite ln_1, Rplus_0_r, Ea, Eb.
    unfold Rminus at 1. rewrite exp_plus, exp_Ropp, exp_lse by assumption. rewrite exp_plus, exp_ln by exact Pos.
    unfold pc_share. rewrite utility_flat by exact Hj. unfold Rdiv. rewrite Rmult_assoc. f_equal. f_equal. f_equal.
    apply rsum_ext. intros j' Hj'. now rewrite utility_flat.
Qed.
Print Assumptions C185_flows_partial.

(** With as many origins as destinations alpha, beta and the origin demand do
    not enter: the probabilities are proportional to attraction over cost. *)
Theorem C185_square_refuted : forall G c st o n,
  generate G c st = Ok o -> dim (o_dims o) "origin" = Ok n -> dim (o_dims o) "destination" = Ok n ->
  (0 < n)%nat -> c_method c = SdeSolver -> c_steps c <> 0%nat ->
  exists cost w table,
    aget "cost_matrix" (o_data o) = Some cost /\ aget "destination_attraction_ts" (o_data o) = Some w /\
    aget "ground_truth_table" (o_data o) = Some table /\
    drawn_with G (orD (c_total c) 1%nat) (n * n) (flat2 n (o_probs o)) (f_val table) /\
    ((forall j, (j < n)%nat -> 0 < f_val w j) -> (forall k, (k < n * n)%nat -> 0 < f_val cost k) ->
     forall i j, (i < n)%nat -> (j < n)%nat ->
     o_probs o i j = f_val w j / f_val cost (i * n + j)%nat /
                     rsum2 n n (fun i j => f_val w j / f_val cost (i * n + j)%nat)).
Proof.
  intros G c st o n H Do Dd Pn M St. apply probs_inv in H.
  destruct H as (no' & nd' & cost & time & s & od & lf & p & Do' & Dd' & CP & Hc & Hw & Ht & Hod & El & Ea & Eb & _ & [g Hg] & Sh & _).
  rewrite Do in Do'. injection Do' as <-. rewrite Dd in Dd'. injection Dd' as <-.
  rewrite M in Sh. rewrite (proj2 (Nat.eqb_neq _ _) St) in Sh. destruct Sh as [w ->].
  unfold cell_probs in CP. rewrite Nat.eqb_refl in CP. cbn [negb] in CP.
  apply (f_equal (fun r => match r with Ok q => q | Raise _ => fun _ _ => 0 end)) in CP.
  do 3 eexists. split; [exact Hc|]. split; [exact Hw|]. split; [exact Hg|]. split; [exists g; reflexivity|].
  cbn [f_val stored_attraction]. intros Pw Pc i j Hi Hj.
  assert (Q : forall i j, (i < n)%nat -> (j < n)%nat -> 0 < w j / cost i j).
  { intros i' j' Hi' Hj'. specialize (Pw j' Hj'). assert (K : (i' * n + j' < n * n)%nat) by nia.
    specialize (Pc _ K). rewrite flat2_at in Pc by exact Hj'. now apply Rdiv_lt_0_compat. }
  rewrite <- CP. unfold Rminus. rewrite exp_plus, exp_Ropp, exp_lse2 by assumption.
  rewrite exp_ln by (apply Q; assumption). rewrite flat2_at by exact Hj.
  match goal with |- ?a * / ?x = ?a / ?y => assert (XY : x = y); [|rewrite XY; reflexivity] end.
  apply rsum_ext. intros i' Hi'. apply rsum_ext. intros j' Hj'. rewrite flat2_at by exact Hj'. apply exp_ln. now apply Q.
Qed.
Print Assumptions C185_square_refuted.

(** By minimising the potential: with different numbers of origins and
    destinations the generation always fails; with equal ones the attractions
    cancel out of the table and only as many of them as there are time steps
    are stored. *)
Theorem C185_potential_refuted : forall G c st o no nd,
  c_method c = SdePotential -> generate G c st = Ok o ->
  dim (o_dims o) "origin" = Ok no -> dim (o_dims o) "destination" = Ok nd -> (0 < no)%nat ->
  no = nd /\ exists cost w time,
    aget "cost_matrix" (o_data o) = Some cost /\ aget "destination_attraction_ts" (o_data o) = Some w /\
    dim (o_dims o) "time" = Ok time /\ f_shape w = [Nat.min time nd] /\
    ((0 < time)%nat -> (forall k, (k < Nat.min time nd)%nat -> 0 < f_val w k) ->
     (forall k, (k < no * nd)%nat -> 0 < f_val cost k) ->
     forall i j, (i < no)%nat -> (j < nd)%nat ->
     o_probs o i j = 1 / f_val cost (i * nd + j)%nat / rsum2 no nd (fun i j => 1 / f_val cost (i * nd + j)%nat)).
Proof.
  intros G c st o no nd M H Do Dd Pn. apply probs_inv in H.
  destruct H as (no' & nd' & cost & time & s & od & lf & p & Do' & Dd' & CP & Hc & Hw & Ht & Hod & El & Ea & Eb & _ & [g Hg] & Sh & _).
  rewrite Do in Do'. injection Do' as <-. rewrite Dd in Dd'. injection Dd' as <-.
  rewrite M in Sh. destruct Sh as [w ->]. unfold cell_probs in CP.
  destruct (Nat.eqb_spec no nd) as [<-|N]; [|discriminate]. cbn [negb] in CP. split; [reflexivity|].
  apply (f_equal (fun r => match r with Ok q => q | Raise _ => fun _ _ => 0 end)) in CP.
  do 3 eexists. split; [exact Hc|]. split; [exact Hw|]. split; [exact Ht|]. split; [reflexivity|].
  cbn [f_val stored_attraction]. intros Pt Pw Pc i j Hi Hj.
  assert (W : 0 < w (no - 1)%nat).
  { specialize (Pw (Nat.min time no - 1)%nat ltac:(lia)).
    replace (no - Nat.min time no + (Nat.min time no - 1))%nat with (no - 1)%nat in Pw by lia. exact Pw. }
  assert (Q : forall i j, (i < no)%nat -> (j < no)%nat -> 0 < cost i j).
  { intros i' j' Hi' Hj'. assert (K : (i' * no + j' < no * no)%nat) by nia.
    specialize (Pc _ K). now rewrite flat2_at in Pc. }
  rewrite <- CP. unfold Rminus. rewrite exp_plus, exp_Ropp, exp_lse2 by assumption.
  assert (QQ : forall i j, (i < no)%nat -> (j < no)%nat -> 0 < w (no - 1)%nat / cost i j) by (intros; apply Rdiv_lt_0_compat; auto).
  rewrite exp_ln by (apply QQ; assumption). rewrite flat2_at by exact Hj.
  assert (R : rsum2 no no (fun i j => exp (ln (w (no - 1)%nat / cost i j))) =
              w (no - 1)%nat * rsum2 no no (fun i j => 1 / flat2 no cost (i * no + j)%nat)).
  { unfold rsum2. rewrite <- rsum_scal. apply rsum_ext. intros i' Hi'. rewrite <- rsum_scal. apply rsum_ext. intros j' Hj'.
    rewrite flat2_at by exact Hj'. rewrite exp_ln by now apply QQ. unfold Rdiv. lra. }
  rewrite R.
  assert (S : 0 < rsum2 no no (fun i j => 1 / flat2 no cost (i * no + j)%nat)).
  { unfold rsum2. apply rsum_pos; [exact Pn|]. intros i' Hi'. apply rsum_pos; [exact Pn|]. intros j' Hj'.
    rewrite flat2_at by exact Hj'. apply Rdiv_lt_0_compat; [lra|now apply Q]. }
  field. repeat split; try lra. specialize (Q i j Hi Hj). lra.
Qed.
Print Assumptions C185_potential_refuted.

(** Two square generations that differ only in alpha and beta draw the table
    from the same probabilities when the attractions agree. *)
Example C185_nonvacuous :
  (exists o, generate toy (toy_cfg ("origin", 2%nat) ("destination", 3%nat) 1 1 (Some 7%Z) SdeSolver) (0%Z, 0%Z) = Ok o) /\
  (exists o, generate toy (toy_cfg ("origin", 2%nat) ("destination", 2%nat) 1 1 (Some 7%Z) SdeSolver) (0%Z, 0%Z) = Ok o) /\
  (exists o, generate toy (toy_cfg ("origin", 2%nat) ("destination", 2%nat) 1 1 (Some 7%Z) SdePotential) (0%Z, 0%Z) = Ok o /\
     (exists w, aget "destination_attraction_ts" (o_data o) = Some w /\ f_shape w = [1%nat] /\ 0 < f_val w 0%nat)).
Proof.
  split; [eexists; reflexivity|]. split; [eexists; reflexivity|]. eexists. split; [reflexivity|].
  eexists. split; [reflexivity|]. split; [reflexivity|]. cbn. lra.
Qed.
Print Assumptions C185_nonvacuous.
