(** Finite Markov chains: geometric convergence to the stationary distribution. *)
From Coq Require Import List ZArith Lia Bool Arith Reals Lra Relations.
From Verif Require Import Base RealBase Axes Tables TablesProps InitTables MarkovBasis MarkovBasisProps TableMCMC ProbUtils TableMCMCProps Kernels KernelsProps.
Import ListNotations.
Local Open Scope R_scope.

Lemma lsumf_nonneg : forall A (f : A -> R) l, (forall x, In x l -> 0 <= f x) -> 0 <= lsumf f l.
Proof. intros A f l H. induction l as [|x l IH]; cbn; [lra|]. pose proof (H x (or_introl eq_refl)). assert (0 <= lsumf f l) by (apply IH; intros; apply H; right; assumption). lra. Qed.
Lemma lsumf_le : forall A (f g : A -> R) l, (forall x, In x l -> f x <= g x) -> lsumf f l <= lsumf g l.
Proof. intros A f g l H. induction l as [|x l IH]; cbn; [lra|]. pose proof (H x (or_introl eq_refl)). assert (lsumf f l <= lsumf g l) by (apply IH; intros; apply H; right; assumption). lra. Qed.
Lemma lsumf_abs : forall A (f : A -> R) l, Rabs (lsumf f l) <= lsumf (fun x => Rabs (f x)) l.
Proof. intros A f l. induction l as [|x l IH]; cbn; [rewrite Rabs_R0; lra|]. pose proof (Rabs_triang (f x) (lsumf f l)). lra. Qed.
Lemma lsumf_term : forall A (f : A -> R) l x, In x l -> (forall y, In y l -> 0 <= f y) -> f x <= lsumf f l.
Proof.
  intros A f l x Hx H. induction l as [|y l IH]; [destruct Hx|]. cbn. assert (0 <= lsumf f l) by (apply lsumf_nonneg; intros; apply H; right; assumption).
  pose proof (H y (or_introl eq_refl)). destruct Hx as [->|Hx]; [lra|]. assert (f x <= lsumf f l) by (apply IH; [exact Hx|]; intros; apply H; right; assumption). lra.
Qed.
Lemma lsumf_const : forall A (c : R) (l : list A), lsumf (fun _ => c) l = INR (length l) * c.
Proof. intros A c l. induction l as [|x l IH]; [cbn; ring|]. cbn [lsumf length]. rewrite IH, S_INR. ring. Qed.

Lemma eventually_all : forall A (Q : A -> nat -> Prop) l, (forall x, In x l -> exists n, forall m, (n <= m)%nat -> Q x m) ->
  exists n, forall m, (n <= m)%nat -> forall x, In x l -> Q x m.
Proof.
  intros A Q l. induction l as [|y l IH]; intros H; [exists 0%nat; intros m _ x []|].
  destruct (H y (or_introl eq_refl)) as [n1 H1]. destruct IH as [n2 H2]; [intros; apply H; right; assumption|].
  exists (Nat.max n1 n2). intros m Hm x [<-|Hx]; [apply H1; lia|apply H2; [lia|exact Hx]].
Qed.
Lemma lower_bound : forall A (f : A -> R) l, (forall x, In x l -> 0 < f x) -> exists e, 0 < e /\ forall x, In x l -> e <= f x.
Proof.
  intros A f l. induction l as [|y l IH]; intros H; [exists 1; split; [lra|intros x []]|].
  destruct IH as [e [He H1]]; [intros; apply H; right; assumption|]. exists (Rmin e (f y)). split; [apply Rmin_glb_lt; [exact He|apply H; left; reflexivity]|].
  intros x [<-|Hx]; [apply Rmin_r|]. eapply Rle_trans; [apply Rmin_l|apply H1; exact Hx].
Qed.

Section Chain.
  Context {A : Type} (L : list A) (P : A -> A -> R).
  Hypothesis Pnonneg : forall x y, In x L -> In y L -> 0 <= P x y.
  Hypothesis Ptotal : forall x, In x L -> lsumf (P x) L = 1.
  Hypothesis Pself : exists x, In x L /\ 0 < P x x.

  (** Distribution after [n] steps. *)
  Fixpoint after (n : nat) (mu : A -> R) (y : A) : R :=
    match n with O => mu y | S n' => lsumf (fun x => after n' mu x * P x y) L end.
  Fixpoint power (n : nat) (x y : A) : R :=
    match n with O => P x y | S n' => lsumf (fun z => power n' x z * P z y) L end.
  Definition arc (x y : A) : Prop := In x L /\ In y L /\ 0 < P x y.
  Definition size (mu : A -> R) : R := lsumf (fun x => Rabs (mu x)) L.

  Lemma power_nonneg : forall n x y, In x L -> In y L -> 0 <= power n x y.
  Proof.
    induction n as [|n IH]; intros x y Hx Hy; [apply Pnonneg; assumption|]. cbn. apply lsumf_nonneg. intros z Hz. apply Rmult_le_pos; [apply IH|apply Pnonneg]; assumption.
  Qed.
  Lemma power_total : forall n x, In x L -> lsumf (power n x) L = 1.
  Proof.
    induction n as [|n IH]; intros x Hx; [apply Ptotal; exact Hx|].
    transitivity (lsumf (fun y => lsumf (fun z => power n x z * P z y) L) L); [reflexivity|]. rewrite lsumf_swap.
    rewrite (lsumf_ext _ _ (power n x)); [apply IH; exact Hx|]. intros z Hz. rewrite lsumf_scal. transitivity (power n x z * 1); [|ring]. f_equal. apply Ptotal. exact Hz.
  Qed.
  Lemma after_power : forall n mu y, after (S n) mu y = lsumf (fun x => mu x * power n x y) L.
  Proof.
    induction n as [|n IH]; intros mu y; [reflexivity|].
    transitivity (lsumf (fun z => lsumf (fun x => mu x * power n x z) L * P z y) L); [change (after (S (S n)) mu y) with (lsumf (fun z => after (S n) mu z * P z y) L); apply lsumf_ext; intros z _; rewrite IH; reflexivity|].
    rewrite (lsumf_ext _ _ (fun z => lsumf (fun x => P z y * (mu x * power n x z)) L)) by (intros z _; rewrite lsumf_scal; ring).
    rewrite lsumf_swap. apply lsumf_ext. intros x _. cbn [power]. rewrite <- lsumf_scal. apply lsumf_ext. intros z _. ring.
  Qed.
  Lemma after_plus : forall n k mu y, after (n + k) mu y = after n (after k mu) y.
  Proof. induction n as [|n IH]; intros k mu y; [reflexivity|]. cbn. apply lsumf_ext. intros x _. rewrite IH. reflexivity. Qed.
  Lemma after_ext : forall n mu nu, (forall x, In x L -> mu x = nu x) -> forall y, In y L -> after n mu y = after n nu y.
  Proof. induction n as [|n IH]; intros mu nu H y Hy; [apply H; exact Hy|]. cbn. apply lsumf_ext. intros x Hx. rewrite (IH mu nu H x Hx). reflexivity. Qed.
  Lemma after_total : forall n mu, lsumf (after n mu) L = lsumf mu L.
  Proof.
    induction n as [|n IH]; intros mu; [reflexivity|]. rewrite <- (IH mu).
    transitivity (lsumf (fun y => lsumf (fun x => after n mu x * P x y) L) L); [reflexivity|]. rewrite lsumf_swap. apply lsumf_ext. intros x Hx. rewrite lsumf_scal.
    transitivity (after n mu x * 1); [|ring]. f_equal. apply Ptotal. exact Hx.
  Qed.
  Lemma after_sub : forall n mu nu y, after n (fun x => mu x - nu x) y = after n mu y - after n nu y.
  Proof.
    induction n as [|n IH]; intros mu nu y; [reflexivity|]. cbn. transitivity (lsumf (fun x => after n mu x * P x y + (-1) * (after n nu x * P x y)) L).
    - apply lsumf_ext. intros x _. rewrite IH. ring.
    - rewrite lsumf_add, lsumf_scal. ring.
  Qed.

  (** A signed vector contracts under a matrix whose entries exceed [e]. *)
  Lemma push_size : forall (Q : A -> A -> R) e mu, (forall x y, In x L -> In y L -> e <= Q x y) -> (forall x, In x L -> lsumf (Q x) L = 1) ->
    e = 0 \/ lsumf mu L = 0 -> lsumf (fun y => Rabs (lsumf (fun x => mu x * Q x y) L)) L <= (1 - INR (length L) * e) * size mu.
  Proof.
    intros Q e mu HQ HT Hz. apply Rle_trans with (lsumf (fun y => lsumf (fun x => Rabs (mu x) * (Q x y - e)) L) L).
    - apply lsumf_le. intros y Hy. assert (E : lsumf (fun x => mu x * Q x y) L = lsumf (fun x => mu x * (Q x y - e)) L).
      { rewrite (lsumf_ext _ (fun x => mu x * (Q x y - e)) (fun x => mu x * Q x y + (- e) * mu x)) by (intros; ring). rewrite lsumf_add, lsumf_scal. change (lsumf (fun x => mu x) L) with (lsumf mu L). destruct Hz as [->| ->]; ring. }
      rewrite E. eapply Rle_trans; [apply lsumf_abs|]. apply lsumf_le. intros x Hx. rewrite Rabs_mult. right. f_equal. apply Rabs_pos_eq. pose proof (HQ x y Hx Hy). lra.
    - rewrite lsumf_swap. unfold size. rewrite <- lsumf_scal. apply lsumf_le. intros x Hx. right. rewrite lsumf_scal, Rmult_comm. f_equal.
      rewrite (lsumf_ext _ (fun y => Q x y - e) (fun y => Q x y + - e)) by (intros; ring). rewrite lsumf_add, lsumf_const. change (lsumf (fun y => Q x y) L) with (lsumf (Q x) L). rewrite HT by exact Hx. ring.
  Qed.

  Hypothesis Pconn : forall x y, In x L -> In y L -> clos_refl_trans_n1 A arc x y.
  Hypothesis Lne : L <> [].

  Lemma power_term : forall n x z y, In x L -> In z L -> In y L -> 0 < power n x z -> 0 < P z y -> 0 < power (S n) x y.
  Proof.
    intros n x z y Hx Hz Hy H1 H2. cbn. eapply Rlt_le_trans; [|apply (lsumf_term _ (fun w => power n x w * P w y) L z Hz)].
    - apply Rmult_lt_0_compat; assumption.
    - intros w Hw. apply Rmult_le_pos; [apply power_nonneg|apply Pnonneg]; assumption.
  Qed.
  Lemma power_split : forall n x y, In x L -> In y L -> 0 < power (S n) x y -> exists z, In z L /\ 0 < power n x z /\ 0 < P z y.
  Proof.
    intros n x y Hx Hy H. cbn in H. destruct (Exists_dec (fun z => 0 < power n x z * P z y) L (fun z => Rlt_dec 0 (power n x z * P z y))) as [E|N]; [apply Exists_exists in E as [z [Hz Hp]]|].
    - exists z. split; [exact Hz|]. pose proof (power_nonneg n x z Hx Hz) as A1. pose proof (Pnonneg z y Hz Hy) as A2.
      split; [destruct A1 as [A1|A1]; [exact A1|rewrite <- A1 in Hp; lra]|destruct A2 as [A2|A2]; [exact A2|rewrite <- A2 in Hp; lra]].
    - exfalso. assert (lsumf (fun z => power n x z * P z y) L <= lsumf (fun _ => 0) L); [|rewrite (lsumf_zero _ (fun _ => 0)) in H0 by reflexivity; lra].
      apply lsumf_le. intros z Hz. apply Rnot_lt_le. intros Hp. apply N, Exists_exists. exists z. split; assumption.
  Qed.
  Lemma power_join : forall m n x z y, In x L -> In z L -> In y L -> 0 < power n x z -> 0 < power m z y -> 0 < power (S (n + m)) x y.
  Proof.
    induction m as [|m IH]; intros n x z y Hx Hz Hy H1 H2.
    - rewrite Nat.add_0_r. apply (power_term n x z y); assumption.
    - destruct (power_split m z y Hz Hy H2) as [w [Hw [H3 H4]]]. rewrite Nat.add_succ_r. apply (power_term (S (n + m)) x w y); try assumption. apply (IH n x z w); assumption.
  Qed.
  Lemma path_power : forall x y, In x L -> clos_refl_trans_n1 A arc x y -> x = y \/ exists n, 0 < power n x y.
  Proof.
    intros x y Hx H. induction H as [|y z [Hy [Hz Hyz]] H IH]; [left; reflexivity|]. right. destruct IH as [<-|[n IH]]; [exists 0%nat; exact Hyz|].
    exists (S n). apply (power_term n x y z); assumption.
  Qed.
  Lemma power_pos : forall x y, In x L -> In y L -> exists n, forall m, (n <= m)%nat -> 0 < power m x y.
  Proof.
    intros x y Hx Hy. destruct Pself as [o [Ho Hoo]].
    assert (Stay : forall k, 0 < power k o o) by (induction k as [|k IH]; [exact Hoo|apply (power_term k o o o); assumption]).
    assert (A1 : exists a, forall m, (a <= m)%nat -> 0 < power m x o).
    { destruct (path_power x o Hx (Pconn x o Hx Ho)) as [->|[a Ha]]; [exists 0%nat; intros; apply Stay|].
      exists (S a). intros m Hm. replace m with (S (a + (m - S a))) by lia. apply (power_join _ _ x o o); auto. }
    destruct A1 as [a Ha]. destruct (path_power o y Ho (Pconn o y Ho Hy)) as [<-|[b Hb]]; [exists a; exact Ha|].
    exists (S (a + b)). intros m Hm. replace m with (S ((m - S b) + b)) by lia. apply (power_join _ _ x o y); auto. apply Ha. lia.
  Qed.

  Lemma power_bound : exists n e, 0 < e /\ forall x y, In x L -> In y L -> e <= power n x y.
  Proof.
    destruct (eventually_all _ (fun xy m => 0 < power m (fst xy) (snd xy)) (list_prod L L)) as [n Hn].
    { intros [x y] Hxy. apply in_prod_iff in Hxy as [Hx Hy]. apply power_pos; assumption. }
    destruct (lower_bound _ (fun xy => power n (fst xy) (snd xy)) (list_prod L L)) as [e [He H]]; [intros xy Hxy; apply Hn; [lia|exact Hxy]|].
    exists n, e. split; [exact He|]. intros x y Hx Hy. apply (H (x, y)). apply in_prod; assumption.
  Qed.

  Theorem chain_converges : forall mu pi, lsumf mu L = 1 -> lsumf pi L = 1 -> (forall y, In y L -> lsumf (fun x => pi x * P x y) L = pi y) ->
    exists k q, (0 < k)%nat /\ 0 <= q < 1 /\ forall n, size (fun y => after n mu y - pi y) <= q ^ (n / k) * size (fun y => mu y - pi y).
  Proof.
    intros mu pi Hmu Hpi Hinv. destruct power_bound as [N [e [He HN]]]. set (q := 1 - INR (length L) * e).
    assert (Hlen : 1 <= INR (length L)) by (change 1 with (INR 1); apply le_INR; destruct L; [congruence|cbn; lia]).
    assert (Hq : 0 <= q < 1).
    { split; [|unfold q; nra]. unfold q. destruct L as [|x0 l0] eqn:EL; [congruence|]. rewrite <- EL in *. assert (Hx0 : In x0 L) by (rewrite EL; left; reflexivity).
      pose proof (power_total N x0 Hx0) as T. assert (Le : lsumf (fun _ => e) L <= lsumf (power N x0) L) by (apply lsumf_le; intros y Hy; apply HN; assumption). rewrite lsumf_const, T in Le. lra. }
    set (delta := fun y => mu y - pi y).
    assert (Hd0 : lsumf delta L = 0).
    { unfold delta. rewrite (lsumf_ext _ _ (fun y => mu y + (-1) * pi y)) by (intros; ring). rewrite lsumf_add, lsumf_scal. change (lsumf (fun x => mu x) L) with (lsumf mu L). change (lsumf (fun x => pi x) L) with (lsumf pi L). rewrite Hmu, Hpi. ring. }
    assert (Hst : forall n y, In y L -> after n pi y = pi y).
    { induction n as [|n IH]; intros y Hy; [reflexivity|]. cbn. rewrite (lsumf_ext _ _ (fun x => pi x * P x y)) by (intros x Hx; rewrite (IH x Hx); reflexivity). apply Hinv. exact Hy. }
    assert (Hdn : forall n, size (fun y => after n mu y - pi y) = size (after n delta)).
    { intros n. unfold size. apply lsumf_ext. intros y Hy. unfold delta. rewrite after_sub, (Hst n y Hy). reflexivity. }
    assert (Hshrink : forall n, size (after (S N + n) delta) <= q * size (after n delta)).
    { intros n. unfold size at 1. rewrite (lsumf_ext _ _ (fun y => Rabs (lsumf (fun x => after n delta x * power N x y) L))) by (intros y _; rewrite after_plus, after_power; reflexivity).
      apply push_size; [intros; apply HN; assumption|apply power_total|right; rewrite after_total; exact Hd0]. }
    assert (Hmono : forall n, size (after n delta) <= size delta).
    { induction n as [|n IH]; [apply Rle_refl|]. eapply Rle_trans; [|exact IH]. unfold size at 1. cbn [after].
      eapply Rle_trans; [apply (push_size P 0 (after n delta)); [intros; apply Pnonneg; assumption|exact Ptotal|left; reflexivity]|]. right. ring. }
    exists (S N), q. split; [lia|]. split; [exact Hq|]. intros n. rewrite Hdn. fold delta.
    assert (G : forall j r, size (after (j * S N + r) delta) <= q ^ j * size delta).
    { induction j as [|j IH]; intros r; [cbn [Nat.mul Nat.add pow]; rewrite Rmult_1_l; apply Hmono|].
      replace (S j * S N + r)%nat with (S N + (j * S N + r))%nat by lia. eapply Rle_trans; [apply Hshrink|]. cbn [pow]. rewrite Rmult_assoc. apply Rmult_le_compat_l; [apply Hq|apply IH]. }
    pose proof (Nat.div_mod n (S N) ltac:(lia)) as E. rewrite E at 1. rewrite (Nat.mul_comm (S N)). apply G.
  Qed.
End Chain.

(** A geometric bound gives a limit. *)
Lemma geometric_limit : forall u l k q c, (0 < k)%nat -> 0 <= q < 1 -> (forall n, Rabs (u n - l) <= q ^ (n / k) * c) -> Un_cv u l.
Proof.
  intros u l k q c Hk Hq H eps Heps. destruct (pow_lt_1_zero q ltac:(rewrite Rabs_pos_eq; lra) (eps / (Rabs c + 1))) as [N HN].
  { apply Rdiv_lt_0_compat; [exact Heps|]. pose proof (Rabs_pos c). lra. }
  exists (N * k)%nat. intros n Hn. unfold R_dist. assert (Hj : (n / k >= N)%nat) by (apply Nat.div_le_lower_bound; [lia|nia]). specialize (HN _ Hj).
  rewrite Rabs_pos_eq in HN by (apply pow_le; lra). set (p := q ^ (n / k)) in *. pose proof (H n) as Hb. fold p in Hb.
  assert (Hp : 0 <= p) by (apply pow_le; lra). pose proof (Rabs_pos c). pose proof (Rle_abs c). apply Rle_lt_trans with (p * (Rabs c + 1)); [nra|].
  apply Rmult_lt_compat_r with (r := Rabs c + 1) in HN; [|lra]. unfold Rdiv in HN. rewrite Rmult_assoc, Rinv_l, Rmult_1_r in HN by lra. exact HN.
Qed.
