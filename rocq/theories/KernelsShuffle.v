(** The shuffle behind the Monte Carlo start table and behind direct sampling with
    both margins constrained. *)
From Coq Require Import List ZArith Lia Bool Arith Reals Lra Permutation.
From Verif Require Import Base RealBase Axes Tables TablesProps InitTables InitTablesProps MarkovBasis MarkovBasisProps TableMCMC ProbUtils TableMCMCProps Kernels KernelsProps.
Import ListNotations.
Local Open Scope R_scope.

(** * Permutations *)

(** Every item with the other items. *)
Fixpoint selects (l : list Z) : list (Z * list Z) :=
  match l with [] => [] | x :: r => (x, r) :: map (fun q => (fst q, x :: snd q)) (selects r) end.
Fixpoint orderings (n : nat) (l : list Z) : list (list Z) :=
  match n with
  | O => [[]]
  | S n' => flat_map (fun q => map (cons (fst q)) (orderings n' (snd q))) (selects l)
  end.

Lemma selects_perm : forall l q, In q (selects l) -> Permutation (fst q :: snd q) l.
Proof.
  induction l as [|x l IH]; intros q []; [subst q; reflexivity|]. apply in_map_iff in H as [q' [<- H]]. cbn [fst snd]. apply IH in H. rewrite perm_swap. constructor. exact H.
Qed.
Lemma selects_in : forall l x, In x l -> exists r, In (x, r) (selects l).
Proof.
  induction l as [|y l IH]; intros x []; [subst; exists l; left; reflexivity|]. destruct (IH x H) as [r Hr]. exists (y :: r). right. apply in_map_iff. exists (x, r). auto.
Qed.
Lemma selects_fst : forall l, map fst (selects l) = l.
Proof. induction l as [|x l IH]; [reflexivity|]. cbn. f_equal. rewrite map_map. cbn [fst]. exact IH. Qed.

Lemma orderings_in : forall n l p, length l = n -> In p (orderings n l) <-> Permutation p l.
Proof.
  induction n as [|n IH]; intros l p Hl; cbn [orderings].
  - destruct l; [|discriminate]. split; [intros [<-|[]]; constructor|]. intros H. apply Permutation_sym, Permutation_nil in H. left; auto.
  - rewrite in_flat_map. split.
    + intros [q [Hq Hp]]. apply in_map_iff in Hp as [r [<- Hr]]. pose proof (selects_perm l q Hq) as P. apply IH in Hr; [|apply Permutation_length in P; cbn in P; lia]. rewrite <- P. constructor. exact Hr.
    + intros H. destruct p as [|x p]; [apply Permutation_nil in H; subst; discriminate|]. destruct (selects_in l x) as [r Hr]; [apply (Permutation_in _ H); left; reflexivity|].
      exists (x, r). split; [exact Hr|]. apply in_map_iff. exists p. split; [reflexivity|]. pose proof (selects_perm l _ Hr) as P. cbn [fst snd] in *. apply IH; [apply Permutation_length in P; cbn in P; lia|].
      apply Permutation_cons_inv with x. rewrite H. symmetry. exact P.
Qed.
Lemma orderings_NoDup : forall n l, length l = n -> NoDup l -> NoDup (orderings n l).
Proof.
  induction n as [|n IH]; intros l Hl HN; cbn [orderings]; [repeat constructor; auto|].
  assert (G : forall qs, incl qs (selects l) -> NoDup (map fst qs) -> NoDup (flat_map (fun q => map (cons (fst q)) (orderings n (snd q))) qs)).
  { induction qs as [|q qs IHq]; intros Hi Hq; [constructor|]. cbn [flat_map map] in *. inversion Hq; subst. pose proof (selects_perm l q (Hi q (or_introl eq_refl))) as P. apply NoDup_app.
    - apply FinFun.Injective_map_NoDup; [intros a b E; congruence|]. apply IH; [apply Permutation_length in P; cbn in P; lia|]. apply Permutation_sym in P. apply (Permutation_NoDup P) in HN. inversion HN; assumption.
    - apply IHq; [intros y Hy; apply Hi; right; exact Hy|assumption].
    - intros z Hz Hz'. apply in_map_iff in Hz as [a [<- _]]. apply in_flat_map in Hz' as [y [Hy Hz']]. apply in_map_iff in Hz' as [b [E _]]. injection E as E _. apply H1. rewrite <- E. apply in_map. exact Hy. }
  apply G; [apply incl_refl|]. rewrite selects_fst. exact HN.
Qed.

(** * Counting the orderings that give a table *)

Section Counting.
Variable lab : Z -> nat.
Variable J : nat.

Definition cnt (j : nat) (l : list Z) : nat := length (filter (fun x => Nat.eqb (lab x) j) l).
Fixpoint nsum (n : nat) (f : nat -> nat) : nat := match n with O => O | S n' => (nsum n' f + f n')%nat end.
Definition row_total (r : nat -> nat) : nat := nsum J r.
Fixpoint fits (rows : list (nat -> nat)) (p : list Z) : bool :=
  match rows with
  | [] => true
  | r :: rs => forallb (fun j => Nat.eqb (cnt j (firstn (row_total r) p)) (r j)) (seq 0 J) && fits rs (skipn (row_total r) p)
  end.
Definition take (j : nat) (r : nat -> nat) : nat -> nat := fun k => if Nat.eqb k j then (r k - 1)%nat else r k.

Definition row_weight (r : nat -> nat) : R := INR (fact (row_total r)) / rprod J (fun j => INR (fact (r j))).
Definition column_weight (l : list Z) : R := rprod J (fun j => INR (fact (cnt j l))).

Lemma cnt_cons : forall j x l, cnt j (x :: l) = ((if Nat.eqb (lab x) j then 1 else 0) + cnt j l)%nat.
Proof. intros j x l. unfold cnt. cbn [filter]. destruct (Nat.eqb (lab x) j); reflexivity. Qed.
Lemma cnt_perm : forall j a b, Permutation a b -> cnt j a = cnt j b.
Proof. intros j a b H. induction H; rewrite ?cnt_cons; lia. Qed.
Lemma nsum_ext : forall n f g, (forall k, (k < n)%nat -> f k = g k) -> nsum n f = nsum n g.
Proof. induction n as [|n IH]; intros f g H; [reflexivity|]. cbn. rewrite (IH f g), (H n); auto. Qed.
Lemma nsum_take : forall n r j, (j < n)%nat -> (0 < r j)%nat -> nsum n r = S (nsum n (take j r)).
Proof.
  induction n as [|n IH]; intros r j Hj Hr; [lia|]. cbn. destruct (Nat.eq_dec j n) as [->|Hne].
  - rewrite (nsum_ext n (take n r) r); [|intros k Hk; unfold take; destruct (Nat.eqb_spec k n); [lia|reflexivity]]. unfold take. rewrite Nat.eqb_refl. lia.
  - rewrite (IH r j) by lia. assert (take j r n = r n) as -> by (unfold take; destruct (Nat.eqb_spec n j); [lia|reflexivity]). lia.
Qed.
Lemma rprod_ext : forall n f g, (forall k, (k < n)%nat -> f k = g k) -> rprod n f = rprod n g.
Proof. induction n as [|n IH]; intros f g H; [reflexivity|]. cbn [rprod]. rewrite (IH f g), (H n) by (intros; try apply H; lia). reflexivity. Qed.
Lemma rprod_one : forall n f g k, (k < n)%nat -> (forall q, (q < n)%nat -> q <> k -> f q = g q) -> rprod n f * g k = rprod n g * f k.
Proof.
  induction n as [|n IH]; intros f g k Hk H; [lia|]. cbn [rprod]. destruct (Nat.eq_dec k n) as [->|Hne].
  - rewrite (rprod_ext n f g) by (intros q Hq; apply H; lia). ring.
  - rewrite (H n) by lia. transitivity (rprod n f * g k * g n); [ring|]. rewrite (IH f g k) by (try lia; intros; apply H; lia). ring.
Qed.
Lemma fact_pred : forall n, (0 < n)%nat -> INR (fact n) = INR n * INR (fact (n - 1)).
Proof. intros [|n] H; [lia|]. cbn [Nat.sub]. rewrite Nat.sub_0_r, fact_simpl, mult_INR. reflexivity. Qed.

Lemma fact_prod_pos : forall n (f : nat -> nat), 0 < rprod n (fun j => INR (fact (f j))).
Proof. intros n f. apply rprod_pos. intros. apply INR_fact_pos. Qed.

(** First item of a row that is not exhausted. *)
Lemma fits_cons : forall r rs x p, (lab x < J)%nat -> (0 < row_total r)%nat ->
  fits (r :: rs) (x :: p) = (Nat.ltb 0 (r (lab x))) && fits (take (lab x) r :: rs) p.
Proof.
  intros r rs x p Hx Hr. cbn [fits]. destruct (row_total r) as [|k] eqn:Ek; [lia|]. cbn [firstn skipn]. destruct (Nat.ltb_spec 0 (r (lab x))) as [H|H]; cbn [andb].
  - assert (row_total (take (lab x) r) = k) as -> by (unfold row_total in *; rewrite (nsum_take J r (lab x) Hx H) in Ek; lia). f_equal.
    apply eq_true_iff_eq. rewrite !forallb_forall. split; intros G j Hj; specialize (G j Hj); rewrite cnt_cons in *; unfold take in *; rewrite Nat.eqb_eq in *; destruct (Nat.eqb_spec (lab x) j); destruct (Nat.eqb_spec j (lab x)); subst; try lia; try congruence.
  - assert (E : forallb (fun j => Nat.eqb (cnt j (x :: firstn k p)) (r j)) (seq 0 J) = false); [|rewrite E; reflexivity].
    apply not_true_iff_false. rewrite forallb_forall. intros G. specialize (G (lab x) ltac:(apply in_seq; lia)). rewrite cnt_cons, Nat.eqb_refl, Nat.eqb_eq in G. lia.
Qed.

Lemma fits_empty_row : forall r rs p, row_total r = 0%nat -> fits (r :: rs) p = fits rs p.
Proof.
  intros r rs p H. cbn [fits]. rewrite H. cbn [firstn skipn]. assert (forallb (fun j => Nat.eqb (cnt j []) (r j)) (seq 0 J) = true) as ->; [|reflexivity].
  apply forallb_forall. intros j Hj. apply in_seq in Hj. apply Nat.eqb_eq. unfold cnt. cbn. unfold row_total in H. clear -H Hj. assert (j < J)%nat by lia. clear Hj. revert H H0. induction J as [|n IH]; intros H Hj; [lia|]. cbn in H. destruct (Nat.eq_dec j n) as [->|]; [lia|apply IH; lia].
Qed.

Lemma lsumf_filter_fits : forall (P : list Z -> bool) l, lsumf (fun p => if P p then 1 else 0) l = INR (length (filter P l)).
Proof. intros P l. induction l as [|x l IH]; [reflexivity|]. cbn [lsumf filter]. rewrite IH. destruct (P x); [cbn [length]; rewrite S_INR; ring|ring]. Qed.

(** Items of a label, weighted. *)
Lemma selects_by_label : forall (h : nat -> R) l, (forall x, In x l -> (lab x < J)%nat) ->
  lsumf (fun q => h (lab (fst q))) (selects l) = rsum J (fun j => INR (cnt j l) * h j).
Proof.
  intros h l Hl. rewrite <- (lsumf_map _ _ (fun x => h (lab x)) fst), selects_fst. induction l as [|x l IH].
  - cbn [lsumf]. symmetry. rewrite (rsum_ext _ _ (fun _ => 0)); [rewrite rsum_const; ring|]. intros. unfold cnt. cbn. ring.
  - cbn [lsumf]. rewrite IH by (intros; apply Hl; right; assumption).
    rewrite (rsum_ext J (fun j => INR (cnt j (x :: l)) * h j) (fun j => (if Nat.eqb (lab x) j then 1 else 0) * h j + INR (cnt j l) * h j)).
    + rewrite rsum_add. f_equal. specialize (Hl x (or_introl eq_refl)). clear -Hl. revert Hl. generalize (lab x). intros a. induction J as [|n IH]; intros H; [lia|]. rewrite rsum_S. destruct (Nat.eq_dec a n) as [->|Hne].
      * rewrite (rsum_ext _ _ (fun _ => 0)); [rewrite rsum_const, Nat.eqb_refl; ring|]. intros k Hk. destruct (Nat.eqb_spec n k); [lia|ring].
      * rewrite <- IH by lia. destruct (Nat.eqb_spec a n); [congruence|ring].
    + intros j Hj. rewrite cnt_cons. destruct (Nat.eqb (lab x) j); rewrite plus_INR; cbn [INR]; ring.
Qed.

Lemma column_take : forall x a l, Permutation (x :: a) l -> (lab x < J)%nat -> column_weight a * INR (cnt (lab x) l) = column_weight l.
Proof.
  intros x a l P Hx. unfold column_weight. pose proof (cnt_perm (lab x) _ _ P) as E. rewrite cnt_cons, Nat.eqb_refl in E.
  pose proof (rprod_one J (fun j => INR (fact (cnt j a))) (fun j => INR (fact (cnt j l))) (lab x) Hx) as R. cbv beta in R.
  assert (F : INR (fact (cnt (lab x) l)) = INR (cnt (lab x) l) * INR (fact (cnt (lab x) a))) by (rewrite (fact_pred (cnt (lab x) l)) by lia; replace (cnt (lab x) l - 1)%nat with (cnt (lab x) a) by lia; reflexivity).
  rewrite F in R. apply Rmult_eq_reg_r with (INR (fact (cnt (lab x) a))); [|apply Rgt_not_eq, INR_fact_pos]. rewrite <- R; [ring|].
  intros q Hq Hne. rewrite <- (cnt_perm q _ _ P), cnt_cons. destruct (Nat.eqb_spec (lab x) q); [congruence|reflexivity].
Qed.
Lemma row_take : forall r j, (j < J)%nat -> (0 < r j)%nat -> row_weight (take j r) = row_weight r * INR (r j) / INR (row_total r).
Proof.
  intros r j Hj Hr. unfold row_weight. pose proof (nsum_take J r j Hj Hr) as E. fold (row_total r) (row_total (take j r)) in E.
  pose proof (rprod_one J (fun q => INR (fact (take j r q))) (fun q => INR (fact (r q))) j Hj) as R. cbv beta in R.
  assert (take j r j = r j - 1)%nat as Et by (unfold take; rewrite Nat.eqb_refl; reflexivity). rewrite Et, (fact_pred (r j) Hr) in R.
  assert (R' : rprod J (fun q => INR (fact (take j r q))) * INR (r j) = rprod J (fun q => INR (fact (r q)))).
  { apply Rmult_eq_reg_r with (INR (fact (r j - 1))); [|apply Rgt_not_eq, INR_fact_pos]. rewrite <- R; [ring|]. intros q Hq Hne. unfold take. destruct (Nat.eqb_spec q j); [congruence|reflexivity]. }
  rewrite <- R'. rewrite (fact_pred (row_total r)) by lia. replace (row_total r - 1)%nat with (row_total (take j r)) by lia.
  pose proof (fact_prod_pos J (take j r)) as P. assert (0 < INR (r j)) by (apply lt_0_INR; exact Hr). assert (0 < INR (row_total r)) by (apply lt_0_INR; lia).
  field. repeat split; lra.
Qed.
Lemma nsum_rsum : forall n f, INR (nsum n f) = rsum n (fun j => INR (f j)).
Proof. induction n as [|n IH]; intros f; [reflexivity|]. cbn [nsum]. rewrite plus_INR, IH, rsum_S. reflexivity. Qed.
Lemma nsum_zero : forall n f, nsum n f = 0%nat -> forall j, (j < n)%nat -> f j = 0%nat.
Proof. induction n as [|n IH]; intros f H j Hj; [lia|]. cbn in H. destruct (Nat.eq_dec j n) as [->|]; [lia|apply IH; lia]. Qed.

Lemma count_fits : forall rows n l, length l = n -> (forall x, In x l -> (lab x < J)%nat) ->
  (forall j, (j < J)%nat -> cnt j l = fold_right (fun r a => (r j + a)%nat) 0%nat rows) ->
  lsumf (fun p => if fits rows p then 1 else 0) (orderings n l) = column_weight l * lprod row_weight rows.
Proof.
  induction rows as [|r rs IHr].
  - intros n l Hn Hl Hc. destruct l as [|x l].
    + subst n. cbn [length orderings lsumf fits]. unfold column_weight, lprod. cbn [map fold_right]. rewrite (rprod_ext J _ (fun _ => 1)) by reflexivity. assert (rprod J (fun _ => 1) = 1) as ->; [|ring]. clear. induction J as [|k IH]; [reflexivity|]. cbn [rprod]. rewrite IH. ring.
    + exfalso. pose proof (Hl x (or_introl eq_refl)) as Hx. specialize (Hc _ Hx). rewrite cnt_cons, Nat.eqb_refl in Hc. cbn in Hc. lia.
  - intros n l. remember (row_total r) as k eqn:Ek. revert r Ek n l. induction k as [|k IHk]; intros r Ek n l Hn Hl Hc.
    + rewrite lprod_cons. assert (Z0 : forall j, (j < J)%nat -> r j = 0%nat) by (intros j Hj; apply (nsum_zero J r); auto).
      assert (row_weight r = 1) as ->.
      { unfold row_weight. rewrite <- Ek. rewrite (rprod_ext J _ (fun _ => 1)) by (intros j Hj; rewrite (Z0 j Hj); reflexivity). assert (rprod J (fun _ => 1) = 1) as ->; [|cbn; field]. clear. induction J as [|q IH]; [reflexivity|]. cbn [rprod]. rewrite IH. ring. }
      rewrite Rmult_1_l, <- (IHr n l Hn Hl); [|intros j Hj; rewrite (Hc j Hj); cbn [fold_right]; rewrite (Z0 j Hj); reflexivity].
      apply lsumf_ext. intros p _. rewrite fits_empty_row by auto. reflexivity.
    + destruct n as [|n].
      { exfalso. destruct l; [|discriminate]. assert (Z0 : forall j, (j < J)%nat -> r j = 0%nat). { intros j Hj. specialize (Hc j Hj). unfold cnt in Hc. cbn in Hc. lia. }
        unfold row_total in Ek. rewrite (nsum_ext J r (fun _ => 0%nat) Z0) in Ek. clear -Ek. assert (forall m, nsum m (fun _ => 0%nat) = 0%nat) as H; [|rewrite H in Ek; discriminate]. induction m as [|m IH]; [reflexivity|]. cbn. rewrite IH. reflexivity. }
      cbn [orderings]. rewrite lsumf_flat_map, lprod_cons. set (R0 := lprod row_weight rs).
      assert (Kp : 0 < INR (row_total r)) by (apply lt_0_INR; lia).
      rewrite (lsumf_ext _ _ (fun q => (fun j => column_weight l * row_weight r * R0 / INR (row_total r) * (INR (r j) / INR (cnt j l))) (lab (fst q)))).
      2:{ intros q Hq. pose proof (selects_perm l q Hq) as P. assert (Hx : (lab (fst q) < J)%nat) by (apply Hl; apply (Permutation_in _ P); left; reflexivity).
        rewrite lsumf_map. rewrite (lsumf_ext _ _ (fun p => if Nat.ltb 0 (r (lab (fst q))) && fits (take (lab (fst q)) r :: rs) p then 1 else 0)) by (intros p _; rewrite fits_cons by (try exact Hx; lia); reflexivity).
        destruct (Nat.ltb_spec 0 (r (lab (fst q)))) as [Hr|Hr]; cbn [andb].
        - rewrite (IHk (take (lab (fst q)) r)).
          + rewrite lprod_cons, row_take by assumption. fold R0. rewrite <- (column_take _ _ _ P Hx). assert (Hcp : (0 < cnt (lab (fst q)) l)%nat) by (rewrite (Hc _ Hx); cbn [fold_right]; lia).
            assert (0 < INR (cnt (lab (fst q)) l)) by (apply lt_0_INR; exact Hcp). field. split; lra.
          + unfold row_total in *. rewrite (nsum_take J r _ Hx Hr) in Ek. lia.
          + apply Permutation_length in P. cbn in P. lia.
          + intros x Hx'. apply Hl. apply (Permutation_in _ P). right. exact Hx'.
          + intros j Hj. pose proof (cnt_perm j _ _ P) as E. rewrite (Hc j Hj), cnt_cons in E. cbn [fold_right] in *. unfold take. destruct (Nat.eqb_spec (lab (fst q)) j); destruct (Nat.eqb_spec j (lab (fst q))); subst; try congruence; lia.
        - rewrite lsumf_zero by reflexivity. replace (r (lab (fst q))) with 0%nat by lia. cbn [INR]. unfold Rdiv. ring. }
      rewrite (selects_by_label (fun j => column_weight l * row_weight r * R0 / INR (row_total r) * (INR (r j) / INR (cnt j l)))) by exact Hl.
      rewrite (rsum_ext _ _ (fun j => column_weight l * row_weight r * R0 / INR (row_total r) * INR (r j))).
      * rewrite rsum_scal, <- nsum_rsum. fold (row_total r). field. lra.
      * intros j Hj. destruct (Nat.eq_dec (cnt j l) 0) as [E|E].
        -- assert (r j = 0)%nat as -> by (specialize (Hc j Hj); cbn [fold_right] in Hc; lia). rewrite E. cbn [INR]. ring.
        -- assert (0 < INR (cnt j l)) by (apply lt_0_INR; lia). field. split; lra.
Qed.
End Counting.

(** * The table of a permutation *)

Definition column_of (cs : list Z) (x : Z) : nat :=
  match find (fun j => (prefix_sum cs j + 1 <=? x)%Z && (x <=? prefix_sum cs (S j))%Z) (seq 0 (length cs)) with Some j => j | None => length cs end.

Lemma column_of_spec : forall cs x, (forall q, (q < length cs)%nat -> (0 <= nth q cs 0)%Z) -> (0 < x <= lsum cs)%Z ->
  (column_of cs x < length cs)%nat /\ (forall j, (j < length cs)%nat -> column_of cs x = j <-> (prefix_sum cs j < x <= prefix_sum cs (S j))%Z).
Proof.
  intros cs x Hnn Hx. assert (E : exists j, (j < length cs)%nat /\ (prefix_sum cs j < x <= prefix_sum cs (S j))%Z).
  { assert (G : forall k, (k <= length cs)%nat -> (x <= prefix_sum cs k)%Z -> exists j, (j < k)%nat /\ (prefix_sum cs j < x <= prefix_sum cs (S j))%Z).
    { induction k as [|k IH]; intros Hk Hp; [rewrite prefix_sum_0 in Hp; lia|]. destruct (Z_lt_le_dec (prefix_sum cs k) x) as [L|L]; [exists k; split; [lia|lia]|]. destruct (IH ltac:(lia) L) as [j [Hj H]]. exists j. split; [lia|exact H]. }
    destruct (G (length cs) (le_n _)) as [j [Hj H]]; [rewrite prefix_sum_all; lia|]. exists j. auto. }
  assert (U : forall a b, (a < length cs)%nat -> (b < length cs)%nat -> (prefix_sum cs a < x <= prefix_sum cs (S a))%Z -> (prefix_sum cs b < x <= prefix_sum cs (S b))%Z -> a = b).
  { intros a b Ha Hb A B. destruct (Nat.lt_total a b) as [L|[L|L]]; [|exact L|]; exfalso.
    - pose proof (prefix_sum_mono cs (S a) b Hnn ltac:(lia)). lia.
    - pose proof (prefix_sum_mono cs (S b) a Hnn ltac:(lia)). lia. }
  unfold column_of. destruct (find _ _) as [a|] eqn:F.
  - apply find_some in F as [Fa Fb]. apply in_seq in Fa. apply andb_true_iff in Fb as [F1 F2]. apply Z.leb_le in F1, F2. split; [lia|]. intros j Hj. split; [intros <-; lia|]. intros B. apply U; try assumption; lia.
  - exfalso. destruct E as [j [Hj E]]. apply (find_none _ _ F j) in Hj || (pose proof (find_none _ _ F j ltac:(apply in_seq; lia)) as Q; cbv beta in Q; apply andb_false_iff in Q as [Q|Q]; apply Z.leb_gt in Q; lia).
Qed.

Lemma cnt_between : forall cs l j, (forall q, (q < length cs)%nat -> (0 <= nth q cs 0)%Z) -> (forall x, In x l -> (0 < x <= lsum cs)%Z) -> (j < length cs)%nat ->
  Z.of_nat (cnt (column_of cs) j l) = count_between (prefix_sum cs j) (prefix_sum cs (S j)) l.
Proof.
  intros cs l j Hnn Hl Hj. induction l as [|x l IH]; [reflexivity|]. rewrite cnt_cons, count_cons, <- IH by (intros; apply Hl; right; assumption).
  destruct (column_of_spec cs x Hnn (Hl x (or_introl eq_refl))) as [_ S]. specialize (S j Hj).
  destruct (Nat.eqb_spec (column_of cs x) j) as [E|E]; destruct (Z.leb_spec (prefix_sum cs j + 1) x); destruct (Z.leb_spec x (prefix_sum cs (Datatypes.S j))); cbn [andb]; lia.
Qed.

Lemma fits_spec : forall lab J (row : nat -> nat -> nat) n a p,
  fits lab J (map row (seq a n)) p = true <->
  forall i j, (i < n)%nat -> (j < J)%nat -> cnt lab j (firstn (row_total J (row (a + i)%nat)) (skipn (nsum i (fun q => row_total J (row (a + q)%nat))) p)) = row (a + i)%nat j.
Proof.
  intros lab J row. induction n as [|n IH]; intros a p; [split; [intros _ i j Hi; lia|reflexivity]|]. cbn [seq map fits]. rewrite andb_true_iff, IH, forallb_forall.
  assert (Sh : forall i, nsum (S i) (fun q => row_total J (row (a + q)%nat)) = (row_total J (row a) + nsum i (fun q => row_total J (row (S a + q)%nat)))%nat).
  { induction i as [|i IHi]; [cbn; rewrite Nat.add_0_r; lia|]. change (nsum (S (S i)) (fun q => row_total J (row (a + q)%nat))) with (nsum (S i) (fun q => row_total J (row (a + q)%nat)) + row_total J (row (a + S i)%nat))%nat.
    rewrite IHi. cbn [nsum]. replace (a + S i)%nat with (S a + i)%nat by lia. lia. }
  assert (SK : forall (l : list Z) x y, skipn (x + y) l = skipn y (skipn x l)).
  { intros l x. revert l. induction x as [|x IHx]; intros l y; [reflexivity|]. destruct l; [destruct y; reflexivity|]. cbn. apply IHx. }
  split.
  - intros [H1 H2] i j Hi Hj. destruct i as [|i].
    + cbn [nsum skipn]. rewrite Nat.add_0_r. apply Nat.eqb_eq. apply H1. apply in_seq. lia.
    + specialize (H2 i j ltac:(lia) Hj). replace (a + S i)%nat with (S a + i)%nat by lia. rewrite Sh, SK. exact H2.
  - intros H. split.
    + intros j Hj. apply in_seq in Hj. apply Nat.eqb_eq. specialize (H 0%nat j ltac:(lia) ltac:(lia)). cbn [nsum skipn] in H. rewrite Nat.add_0_r in H. exact H.
    + intros i j Hi Hj. specialize (H (S i) j ltac:(lia) Hj). replace (a + S i)%nat with (S a + i)%nat in H by lia. rewrite Sh, SK in H. exact H.
Qed.

Definition nat_table (t : table) : nat -> nat -> nat := fun i j => Z.to_nat (t i j).

Lemma nsum_zsum : forall n (f : nat -> Z), (forall k, (k < n)%nat -> (0 <= f k)%Z) -> Z.of_nat (nsum n (fun k => Z.to_nat (f k))) = zsum n f.
Proof. induction n as [|n IH]; intros f H; [reflexivity|]. cbn [nsum]. rewrite zsum_S, Nat2Z.inj_add, IH by (intros; apply H; lia). specialize (H n). lia. Qed.

(** Every permutation once. *)
Definition lists_randperms (n : Z) (perms : list (list Z)) : Prop := NoDup perms /\ forall p, In p perms <-> is_randperm n p.

Theorem C128_shuffle : forall s truth m axes c perms L t,
  (forall a, length (m a) = axis_len s a) -> (forall a x, In x (m a) -> (0 <= x)%Z) ->
  zsum (nI s) (fun i => nth i (m A1) 0%Z) = nth 0 (m A01) 0%Z -> zsum (nJ s) (fun j => nth j (m A0) 0%Z) = nth 0 (m A01) 0%Z ->
  build_ct s truth m axes [] = Ok c -> In A0 axes -> In A1 axes ->
  lists_randperms (nth 0 (m A01) 0%Z) perms -> lists_tables c L -> In t L ->
  shuffle_draw_prob c perms t = target s (fun _ _ => 0) t / lsumf (target s (fun _ _ => 0)) L.
Proof.
  intros s truth m axes c perms L t W Hnn HR HC Hok H0 H1 [PN PI] [HLa [HLd HLc]] Ht.
  destruct (build_shape _ _ _ _ _ _ Hok) as [Es [Et [Em [Ea Ef]]]]. rewrite Es in *.
  pose proof (build_resid _ _ _ _ _ _ Hok) as Er. cbn in Er.
  destruct (C02_two_way_closure axes) as [K0 [K1 K01]].
  set (N := nth 0 (m A01) 0%Z) in *.
  assert (HN : (0 <= N)%Z) by (apply (Hnn A01), nth_In; rewrite W; cbn; lia).
  assert (W1 : length (m A1) = nI s) by apply (W A1). assert (W0 : length (m A0) = nJ s) by apply (W A0).
  assert (N1 : forall q, (q < length (m A1))%nat -> (0 <= nth q (m A1) 0)%Z) by (intros; apply (Hnn A1), nth_In; assumption).
  assert (N0 : forall q, (q < length (m A0))%nat -> (0 <= nth q (m A0) 0)%Z) by (intros; apply (Hnn A0), nth_In; assumption).
  assert (S1 : lsum (m A1) = N) by (rewrite <- zsum_nth, W1; exact HR). assert (S0 : lsum (m A0) = N) by (rewrite <- zsum_nth, W0; exact HC).
  assert (EU : update_margins c (fun _ => None) = c) by (destruct c; reflexivity).
  set (items := map Z.of_nat (seq 1 (Z.to_nat N))). set (lab := column_of (m A0)). set (J := nJ s).
  assert (RP : forall p x, is_randperm N p -> In x p -> (0 < x <= N)%Z).
  { intros p x HP Hx. apply (Permutation_in _ HP) in Hx. apply in_map_iff in Hx as [z [<- Hz]]. apply in_seq in Hz. lia. }
  assert (Adm : forall u, table_admissible c u = true -> (forall i, (i < nI s)%nat -> zsum (nJ s) (fun j => u i j) = nth i (m A1) 0%Z) /\ (forall j, (j < nJ s)%nat -> zsum (nI s) (fun i => u i j) = nth j (m A0) 0%Z)).
  { intros u Hu. apply C01_admissible_iff in Hu; [|rewrite Em, Es; exact W]. rewrite Es, Em, Ea in Hu. destruct Hu as [A [B _]]. split; [apply A, K1; exact H1|apply B, K0; exact H0]. }
  assert (Samp : forall p, is_randperm N p -> table_monte_carlo_sample c (fun _ => None) p = Ok (monte_carlo_fill c p) /\ table_admissible c (monte_carlo_fill c p) = true /\ nonneg_on s (monte_carlo_fill c p)).
  { intros p HP. destruct (C06_monte_carlo_start_table s truth m axes c p W Hnn HR HC Hok HP) as [v [E [Nv _]]].
    assert (E' : table_monte_carlo_sample c (fun _ => None) p = Ok v) by exact E. unfold table_monte_carlo_sample in E'. rewrite EU in E'. destruct (_ <? 0)%Z; [discriminate|]. unfold admissibility_debugging in E'.
    destruct (table_admissible c (monte_carlo_fill c p)) eqn:A; [|discriminate]. injection E' as E'. subst v. split; [exact E|]. split; [reflexivity|exact Nv]. }
  set (rows := fun u => map (nat_table u) (seq 0 (nI s))).
  assert (RT : forall u, table_admissible c u = true -> nonneg_on s u -> forall i, (i < nI s)%nat -> Z.of_nat (row_total J (nat_table u i)) = nth i (m A1) 0%Z).
  { intros u A Nu i Hi. unfold row_total, nat_table. rewrite nsum_zsum by (intros; apply Nu; assumption). apply (proj1 (Adm u A)); exact Hi. }
  assert (PS : forall u, table_admissible c u = true -> nonneg_on s u -> forall i, (i <= nI s)%nat -> Z.of_nat (nsum i (fun q => row_total J (nat_table u q))) = prefix_sum (m A1) i).
  { intros u A Nu. induction i as [|i IH]; intros Hi; [reflexivity|]. cbn [nsum]. rewrite Nat2Z.inj_add, IH, RT, prefix_sum_S by (try assumption; lia). reflexivity. }
  assert (Fit : forall u p, table_admissible c u = true -> nonneg_on s u -> is_randperm N p -> fits lab J (rows u) p = table_eqb s (monte_carlo_fill c p) u).
  { intros u p A Nu HP. apply eq_true_iff_eq. rewrite table_eqb_spec. unfold rows. rewrite fits_spec.
    assert (LP : Z.of_nat (length p) = N) by (rewrite (Permutation_length HP), map_length, seq_length; lia).
    assert (Cell : forall i j, (i < nI s)%nat -> (j < nJ s)%nat -> Z.of_nat (cnt lab j (firstn (row_total J (nat_table u i)) (skipn (nsum i (fun q => row_total J (nat_table u q))) p))) = monte_carlo_fill c p i j).
    { intros i j Hi Hj. unfold monte_carlo_fill. rewrite Ef, Er. cbn [cell_in existsb].
      assert (B1 : (prefix_sum (m A1) i <= prefix_sum (m A1) (S i))%Z) by (apply prefix_sum_mono; [exact N1|lia]).
      assert (B2 : (prefix_sum (m A1) (S i) <= N)%Z) by (rewrite <- S1, <- prefix_sum_all; apply prefix_sum_mono; [exact N1|lia]).
      assert (B0 : (0 <= prefix_sum (m A1) i)%Z) by (rewrite <- (prefix_sum_0 (m A1)); apply prefix_sum_mono; [exact N1|lia]).
      rewrite <- (PS u A Nu i) by lia. rewrite <- (PS u A Nu i) in B1, B0 by lia. rewrite <- (PS u A Nu (S i)) in * by lia. rewrite py_slice_seq by lia. cbn [nsum]. rewrite (Nat.add_comm _ (row_total J (nat_table u i))), Nat.add_sub.
      unfold lab. apply cnt_between; [exact N0| |lia]. intros x Hx. rewrite S0. apply (RP p x HP).
      rewrite <- (firstn_skipn (nsum i (fun q => row_total J (nat_table u q))) p). apply in_or_app. right.
      rewrite <- (firstn_skipn (row_total J (nat_table u i)) (skipn (nsum i (fun q => row_total J (nat_table u q))) p)). apply in_or_app. left. exact Hx. }
    split.
    - intros F i j Hi Hj. rewrite <- (Cell i j Hi Hj). specialize (F i j Hi Hj). cbn [Nat.add] in F. rewrite F. unfold nat_table. specialize (Nu i j Hi Hj). lia.
    - intros F i j Hi Hj. cbn [Nat.add]. specialize (Cell i j Hi Hj). rewrite (F i j Hi Hj) in Cell. unfold nat_table at 3. rewrite <- Cell. rewrite Nat2Z.id. reflexivity. }
  set (K := column_weight lab J items * lprod (fun i => INR (fact (Z.to_nat (nth i (m A1) 0%Z)))) (seq 0 (nI s))).
  set (hit := fun p u => match table_monte_carlo_sample c (fun _ => None) p with Ok v => if table_eqb s v u then 1 else 0 | Raise _ => 0 end).
  assert (Cnt : forall u, table_admissible c u = true -> nonneg_on s u -> lsumf (fun p => hit p u) perms = K * target s (fun _ _ => 0) u).
  { intros u A Nu. transitivity (lsumf (fun p => if fits lab J (rows u) p then 1 else 0) perms).
    { apply lsumf_ext. intros p Hp. apply PI in Hp. unfold hit. destruct (Samp p Hp) as [-> _]. rewrite (Fit u p A Nu Hp). reflexivity. }
    assert (HP : Permutation perms (orderings (length items) items)).
    { apply NoDup_Permutation; [exact PN|apply orderings_NoDup; [reflexivity|]|].
      - unfold items. apply FinFun.Injective_map_NoDup; [intros a b; apply Nat2Z.inj|apply seq_NoDup].
      - intros p. rewrite PI, orderings_in by reflexivity. reflexivity. }
    rewrite (lsumf_perm _ _ _ _ HP). rewrite count_fits; [|reflexivity| |].
    - unfold K. rewrite Rmult_assoc. f_equal. unfold rows. rewrite lprod_map, target_product, lprod_all_cells, <- lprod_mult. apply lprod_ext. intros i Hi. apply in_seq in Hi.
      unfold row_weight. rewrite <- (RT u A Nu i) by lia. rewrite Nat2Z.id. unfold Rdiv. f_equal. rewrite rprod_list. fold J. unfold nat_table. generalize (seq 0 J). intros q. induction q as [|j q IH]; [unfold lprod; cbn; apply Rinv_1|].
      rewrite !lprod_cons, Rinv_mult, IH. f_equal. unfold cell_weight. cbn [fst snd]. rewrite Rmult_0_r, exp_0. unfold fz, Rdiv. ring.
    - intros x Hx. unfold lab, J. rewrite <- W0. apply column_of_spec; [exact N0|]. rewrite S0. unfold items in Hx. apply in_map_iff in Hx as [z [<- Hz]]. apply in_seq in Hz. lia.
    - intros j Hj. apply Nat2Z.inj. unfold lab. rewrite cnt_between; [|exact N0| |unfold J in Hj; lia].
      + unfold items. rewrite count_seq.
        * rewrite prefix_sum_S by (unfold J in Hj; lia). rewrite <- (proj2 (Adm u A) j Hj). unfold rows. 
          assert (G : forall n, (n <= nI s)%nat -> zsum n (fun i => u i j) = Z.of_nat (fold_right (fun r a => (r j + a)%nat) 0%nat (map (nat_table u) (seq 0 n)))).
          { assert (FA : forall l x, fold_right (fun (r : nat -> nat) a => (r j + a)%nat) x l = (fold_right (fun r a => (r j + a)%nat) 0%nat l + x)%nat) by (induction l as [|y l IHl]; intros x; [reflexivity|cbn; rewrite IHl; lia]).
            induction n as [|n IHn]; intros Hn; [reflexivity|]. rewrite zsum_S, IHn by lia. rewrite seq_S, map_app, fold_right_app. cbn [map fold_right Nat.add]. rewrite (FA _ (nat_table u n j + 0)%nat). unfold nat_table at 3. specialize (Nu n j ltac:(lia) Hj). lia. }
          rewrite (G (nI s)) by lia. lia.
        * rewrite <- (prefix_sum_0 (m A0)). apply prefix_sum_mono; [exact N0|unfold J in Hj; lia].
        * apply prefix_sum_mono; [exact N0|unfold J in Hj; lia].
        * rewrite Z2Nat.id by exact HN. rewrite <- S0, <- prefix_sum_all. apply prefix_sum_mono; [exact N0|unfold J in Hj; lia].
      + intros x Hx. rewrite S0. unfold items in Hx. apply in_map_iff in Hx as [z [<- Hz]]. apply in_seq in Hz. lia. }
  assert (Tot : K * lsumf (target s (fun _ _ => 0)) L = INR (length perms)).
  { rewrite <- lsumf_scal. rewrite (lsumf_ext _ _ (fun u => lsumf (fun p => hit p u) perms)) by (intros u Hu; destruct (HLa u Hu); symmetry; apply Cnt; assumption).
    rewrite lsumf_swap. rewrite (lsumf_ext _ _ (fun _ => 1)).
    - clear. induction perms as [|p l IH]; [reflexivity|]. cbn [lsumf length]. rewrite IH, S_INR. ring.
    - intros p Hp. apply PI in Hp. unfold hit. destruct (Samp p Hp) as [-> [A Nv]]. destruct (HLc _ A Nv) as [v [Hv Sv]]. apply (hits_once s L _ v HLd Hv Sv). }
  destruct (HLa t Ht) as [A Nt]. unfold shuffle_draw_prob. rewrite Es. fold (hit).
  transitivity (lsumf (fun p => hit p t) perms / INR (length perms)); [reflexivity|]. rewrite (Cnt t A Nt), <- Tot.
  assert (TS : 0 < lsumf (target s (fun _ _ => 0)) L) by (apply lsumf_pos; [intros ->; destruct Ht|intros; apply target_pos]).
  assert (KP : 0 < K) by (unfold K; apply Rmult_lt_0_compat; [apply fact_prod_pos|apply lprod_pos; intros; apply INR_fact_pos]). field. split; lra.
Qed.
Print Assumptions C128_shuffle.

Lemma two_perms : lists_randperms 2 [[1; 2]; [2; 1]]%Z.
Proof.
  split; [repeat constructor; cbn; intuition congruence|]. intros p. unfold is_randperm. change (map Z.of_nat (seq 1 (Z.to_nat 2))) with [1; 2]%Z. cbn [In]. split.
  - intros [<-|[<-|[]]]; [reflexivity|constructor].
  - intros H. apply Permutation_sym, Permutation_length_2_inv in H. intuition congruence.
Qed.

Lemma unit_shuffle : forall c, unit_ct = Ok c -> shuffle_draw_prob c [[1; 2]; [2; 1]]%Z unit_diag = 1 / 2.
Proof.
  intros c Hc. rewrite (C128_shuffle (Shape 2 2) unit_diag (axis_margin (Shape 2 2) unit_diag) [A0; A1] c [[1; 2]; [2; 1]]%Z [unit_diag; unit_anti] unit_diag).
  - cbn [lsumf]. destruct (unit_targets (fun _ _ => 0)) as [-> ->]. rewrite Rplus_0_r, exp_0. field.
  - intros []; reflexivity.
  - intros [] x Hx; cbn in Hx; intuition lia.
  - reflexivity.
  - reflexivity.
  - exact Hc.
  - cbn; auto.
  - cbn; auto.
  - exact two_perms.
  - apply unit_lists; exact Hc.
  - left; reflexivity.
Qed.

(** One item per row and column. *)
Example C128_nonvacuous : exists c, unit_ct = Ok c /\ lists_randperms 2 [[1; 2]; [2; 1]]%Z /\ lists_tables c [unit_diag; unit_anti] /\
  shuffle_draw_prob c [[1; 2]; [2; 1]]%Z unit_diag = 1 / 2.
Proof.
  destruct unit_ct as [c|] eqn:Hc; [|discriminate]. exists c. split; [reflexivity|]. split; [exact two_perms|]. split; [apply unit_lists; exact Hc|apply unit_shuffle; exact Hc].
Qed.

(** With both margins constrained the intensities are not used. *)
Theorem C127_both_margins_refuted : forall li c, unit_ct = Ok c -> li 0%nat 0%nat + li 1%nat 1%nat <> li 0%nat 1%nat + li 1%nat 0%nat ->
  lists_randperms 2 [[1; 2]; [2; 1]]%Z /\ lists_tables c [unit_diag; unit_anti] /\
  shuffle_draw_prob c [[1; 2]; [2; 1]]%Z unit_diag <> target (Shape 2 2) li unit_diag / lsumf (target (Shape 2 2) li) [unit_diag; unit_anti].
Proof.
  intros li c Hc Hli. split; [exact two_perms|]. split; [apply unit_lists; exact Hc|]. rewrite (unit_shuffle c Hc). cbn [lsumf]. destruct (unit_targets li) as [-> ->]. intros E.
  set (a := exp (li 0%nat 0%nat + li 1%nat 1%nat)) in *. set (b := exp (li 0%nat 1%nat + li 1%nat 0%nat)) in *. assert (Pa : 0 < a) by apply exp_pos. assert (Pb : 0 < b) by apply exp_pos.
  apply Hli. apply exp_inv. fold a b. apply (f_equal (fun z => z * (a + (b + 0)) * 2)) in E. field_simplify in E; [|lra]. lra.
Qed.
Print Assumptions C127_both_margins_refuted.

(** With column totals constrained some tables of positive probability are never
    drawn: one item per column, both in the first row. *)
Definition top_row : table := fun i _ => if Nat.eqb i 0 then 1%Z else 0%Z.
Theorem C127_columns_refuted : exists c,
  build_ct (Shape 2 2) top_row (axis_margin (Shape 2 2) top_row) [A0] [] = Ok c /\ table_admissible c top_row = true /\ nonneg_on (Shape 2 2) top_row /\
  forall draws u, (forall counts, In counts draws -> length counts = 2%nat /\ forall j, (j < 2)%nat -> multinomial_draw 1 2 (nth j counts [])) ->
    direct_sampling_proposal c (map AtProduct draws) = Ok (Some u) -> ~ same_on (Shape 2 2) u top_row.
Proof.
  destruct (build_ct (Shape 2 2) top_row (axis_margin (Shape 2 2) top_row) [A0] []) as [c|] eqn:Hc; [|discriminate]. exists c. split; [reflexivity|]. split; [inversion Hc; reflexivity|].
  split; [intros i j _ _; unfold top_row; destruct (Nat.eqb i 0); lia|]. induction draws as [|counts draws IH]; intros u Hd Hs; [discriminate|].
  cbn [map direct_sampling_proposal direct_attempt] in Hs. destruct (Hd counts (or_introl eq_refl)) as [HL HD].
  assert (Hl : forall l, In l counts -> length l = 2%nat). { intros l Hl. apply (In_nth _ _ []) in Hl as [j [Hj <-]]. apply HD. lia. }
  destruct (C23_columns_are_scrambled (Shape 2 2) top_row _ [A0] c counts Hc ltac:(cbn; auto) ltac:(cbn; intuition discriminate) HL Hl) as [v [Ev V]]. rewrite Ev in Hs. cbn [rbind] in Hs.
  destruct (table_admissible c v).
  - injection Hs as <-. intros S. pose proof (S 0 0 ltac:(cbn; lia) ltac:(cbn; lia))%nat as A. pose proof (S 0 1 ltac:(cbn; lia) ltac:(cbn; lia))%nat as B.
    rewrite V in A, B by (cbn; lia). cbn [nI nJ] in A, B. change ((0 * 2 + 0) mod 2)%nat with 0%nat in A. change ((0 * 2 + 0) / 2)%nat with 0%nat in A. change ((0 * 2 + 1) mod 2)%nat with 1%nat in B. change ((0 * 2 + 1) / 2)%nat with 0%nat in B.
    destruct (HD 0%nat ltac:(lia)) as [L0 [S0 _]]. destruct (nth 0 counts []) as [|x [|y [|z q]]]; try discriminate. cbn in A, B, S0. lia.
  - apply (IH u); [|exact Hs]. intros q Hq. apply Hd. right. exact Hq.
Qed.
Print Assumptions C127_columns_refuted.

(** The table of C126: two items in the first row, for the row and the total
    versions, and the same with no constraint. *)
Example C127_nonvacuous : exists c,
  pair_ct = Ok c /\ nth 0 (axis_margin (Shape 2 2) (pair_table 1 1) A01) 0%Z = lsum (axis_margin (Shape 2 2) (pair_table 1 1) A1) /\ lists_tables c pair_tables /\
  product_draw_prob c (fun _ _ => 0) (table_rows (Shape 2 2) (pair_table 1 1)) = 1 / 2 /\
  product_draw_prob c (fun _ _ => 0) (table_rows (Shape 2 2) (pair_table 2 0)) = 1 / 4.
Proof.
  destruct pair_ct as [c|] eqn:Hc; [|discriminate]. exists c. split; [reflexivity|]. split; [reflexivity|]. split; [apply pair_lists; exact Hc|]. destruct pair_target as [T1 [T2 T3]].
  assert (G : forall t, In t pair_tables -> product_draw_prob c (fun _ _ => 0) (table_rows (Shape 2 2) t) = target (Shape 2 2) (fun _ _ => 0) t / lsumf (target (Shape 2 2) (fun _ _ => 0)) pair_tables).
  { intros t Ht. apply (C127_rows_partial (Shape 2 2) (pair_table 1 1) (axis_margin (Shape 2 2) (pair_table 1 1)) [A1] c (fun _ _ => 0) pair_tables t []); [intros []; reflexivity|reflexivity|exact Hc|cbn; auto|cbn; intuition discriminate|apply pair_lists; exact Hc|exact Ht]. }
  split; (rewrite G by (cbn; auto)); unfold pair_tables; cbn [lsumf]; rewrite T1, T2, T3; field.
Qed.

Definition single (a b : nat) : table := fun i j => if Nat.eqb i a && Nat.eqb j b then 1%Z else 0%Z.
Definition singles : list table := [single 0 0; single 0 1; single 1 0; single 1 1].
Example C127_total_nonvacuous : exists c,
  build_ct (Shape 2 2) (single 0 0) (axis_margin (Shape 2 2) (single 0 0)) [A01] [] = Ok c /\ lists_tables c singles /\
  multinomial_draw_prob c (fun _ _ => 0) (free_counts c (single 0 1)) = 1 / 4.
Proof.
  destruct (build_ct (Shape 2 2) (single 0 0) (axis_margin (Shape 2 2) (single 0 0)) [A01] []) as [c|] eqn:Hc; [|discriminate]. exists c. split; [reflexivity|].
  assert (HL : lists_tables c singles).
  { inversion Hc; subst c. cbn [ct_shape]. split; [|split].
    - intros t [<-|[<-|[<-|[<-|[]]]]]; (split; [reflexivity|]); intros i j _ _; unfold single; destruct (_ && _); lia.
    - repeat constructor; intros H; pose proof (H 0 0 ltac:(cbn; lia) ltac:(cbn; lia))%nat; pose proof (H 0 1 ltac:(cbn; lia) ltac:(cbn; lia))%nat; pose proof (H 1 0 ltac:(cbn; lia) ltac:(cbn; lia))%nat; cbn in *; discriminate.
    - intros v Ha Hn. cbn in Hn.
      unfold table_admissible in Ha. apply andb_true_iff in Ha as [Ha _].
      unfold table_margins_admissible, constrained_margins_stat in Ha. cbn [ct_caxes ct_shape ct_margins flat_map] in Ha.
      let ax := eval vm_compute in (constrained_axes_2d [A01]) in change (constrained_axes_2d [A01]) with ax in Ha.
      cbn [flat_map] in Ha. apply zlist_eqb_spec in Ha. unfold axis_margin, total, row_sum, col_sum in Ha. cbn in Ha. injection Ha as Z0.
      pose proof (Hn 0 0 ltac:(cbn; lia) ltac:(cbn; lia))%nat. pose proof (Hn 0 1 ltac:(cbn; lia) ltac:(cbn; lia))%nat. pose proof (Hn 1 0 ltac:(cbn; lia) ltac:(cbn; lia))%nat. pose proof (Hn 1 1 ltac:(cbn; lia) ltac:(cbn; lia))%nat.
      assert (v 0%nat 0%nat = 1 \/ v 0%nat 1%nat = 1 \/ v 1%nat 0%nat = 1 \/ v 1%nat 1%nat = 1)%Z as [E|[E|[E|E]]] by lia; [exists (single 0 0)|exists (single 0 1)|exists (single 1 0)|exists (single 1 1)]; (split; [cbn; auto|]); intros i j Hi Hj; cbn in Hi, Hj;
        destruct i as [|[|i]]; destruct j as [|[|j]]; try lia; cbn; lia. }
  split; [exact HL|].
  destruct (C127_multinomial_partial (Shape 2 2) (single 0 0) (axis_margin (Shape 2 2) (single 0 0)) [A01] [] c (fun _ _ => 0) singles (single 0 1) []) as [_ [_ E]];
    [intros []; reflexivity|intros k []|constructor|exact Hc|cbn; auto|cbn; intuition discriminate|cbn; intuition discriminate|exact HL|cbn; auto|].
  rewrite E. assert (T : forall a b, (a < 2)%nat -> (b < 2)%nat -> target (Shape 2 2) (fun _ _ => 0) (single a b) = 1).
  { intros a b Ha Hb. rewrite <- exp_0. unfold target, log_target. f_equal. change (all_cells (Shape 2 2)) with [(0, 0); (0, 1); (1, 0); (1, 1)]%nat.
    destruct a as [|[|a]]; destruct b as [|[|b]]; try lia; cbn; try change (Pos.to_nat 1) with 1%nat; cbn; rewrite ?ln_1; ring. }
  unfold singles. cbn [lsumf]. rewrite !T by lia. field.
Qed.
