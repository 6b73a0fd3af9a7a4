(** Properties C148 and C149: what the grid searches report. *)
From Coq Require Import List ZArith Lia Bool Arith String Sorted.
From Verif Require Import Base GridSearch.
Import ListNotations.
Open Scope Z_scope.
Open Scope list_scope.

(** ---- SPECIFICATION ------------------------------------------------------- *)

(** a beats b: it is nan and b is not, or it is a larger number. *)
Definition less (a b : score) : Prop :=
  match a, b with
  | Num x, Num y => x < y
  | Num _, NaN => True
  | NaN, _ => False
  end.

(** Visited before, in the order of the two loops. *)
Definition before (p q : nat * nat) : Prop :=
  (fst p < fst q)%nat \/ (fst p = fst q /\ (snd p < snd q)%nat).

Definition in_grid (na nb : nat) (p : nat * nat) : Prop := (fst p < na)%nat /\ (snd p < nb)%nat.

(** The first best point of a grid of scores. *)
Definition first_best (na nb : nat) (sc : nat * nat -> score) (p : nat * nat) : Prop :=
  in_grid na nb p /\
  (forall q, in_grid na nb q -> before q p -> less (sc q) (sc p)) /\
  (forall q, in_grid na nb q -> ~ less (sc p) (sc q)).

(** ---- auxiliary ----------------------------------------------------------- *)

Lemma better_less : forall s b, better s b = true <-> less b s.
Proof. intros [z|] [b|]; cbn; try tauto; try (split; intros; (discriminate || tauto)). apply Z.ltb_lt. Qed.

Lemma better_not : forall s b, better s b = false <-> ~ less b s.
Proof. intros s b. rewrite <- better_less. destruct (better s b); split; intros; congruence. Qed.

Lemma less_neg_trans : forall a b c, less a c -> ~ less a b -> less b c.
Proof. intros [x|] [y|] [z|]; cbn; intros; try tauto; try lia. Qed.

Lemma less_trans : forall a b c, less a b -> less b c -> less a c.
Proof. intros [x|] [y|] [z|]; cbn; intros; try tauto; try lia. Qed.

Lemma nless_trans : forall a b c, ~ less b a -> ~ less c b -> ~ less c a.
Proof. intros [x|] [y|] [z|]; cbn; intros; try tauto; try lia. Qed.

(** First best of a list. *)
Definition splits_at {A} (rank : A -> score) (l : list A) (x : A) : Prop :=
  exists l1 l2, l = l1 ++ x :: l2 /\ (forall y, In y l1 -> less (rank y) (rank x)) /\
                (forall y, In y l2 -> ~ less (rank x) (rank y)).

Lemma argmax_spec : forall l pre best,
  (forall y, In y pre -> less (snd y) (snd best)) ->
  forall mid, (forall y, In y mid -> ~ less (snd best) (snd y)) ->
  splits_at snd (pre ++ best :: mid ++ l) (argmax_from l best).
Proof.
  induction l as [|x l IH]; intros pre best Hpre mid Hmid; cbn [argmax_from].
  - exists pre, mid. rewrite app_nil_r. auto.
  - destruct (better (snd x) (snd best)) eqn:E.
    + apply better_less in E.
      replace (pre ++ best :: mid ++ x :: l) with ((pre ++ best :: mid) ++ x :: [] ++ l) by (cbn; rewrite <- app_assoc; reflexivity).
      apply IH; [|intros y []]. intros y Hy. apply in_app_or in Hy as [Hy|[<-|Hy]].
      * apply less_trans with (snd best); [apply Hpre; exact Hy|exact E].
      * exact E.
      * apply less_neg_trans with (snd best); [exact E|apply Hmid; exact Hy].
    + apply better_not in E.
      replace (pre ++ best :: mid ++ x :: l) with (pre ++ best :: (mid ++ [x]) ++ l) by (rewrite <- app_assoc; reflexivity).
      apply IH; [exact Hpre|]. intros y Hy. apply in_app_or in Hy as [Hy|[<-|[]]]; auto.
Qed.

Lemma np_argmax_spec : forall l x, np_argmax l = Ok x -> splits_at snd l x.
Proof.
  intros [|y l] x H; [discriminate|]. injection H as <-.
  apply (argmax_spec l [] y (fun y H => match H with end) [] (fun y H => match H with end)).
Qed.

Lemma grid_in : forall na nb p, In p (grid_points na nb) <-> in_grid na nb p.
Proof.
  intros na nb [i j]. unfold grid_points, in_grid. rewrite in_flat_map. cbn [fst snd]. split.
  - intros [x [Hx Hj]]. apply in_map_iff in Hj as [y [E Hy]]. injection E as <- <-.
    apply in_seq in Hx, Hy. lia.
  - intros [Hi Hj]. exists i. split; [apply in_seq; lia|]. apply in_map_iff. exists j. split; [reflexivity|apply in_seq; lia].
Qed.

Lemma before_irrefl : forall p, ~ before p p.
Proof. intros p [H|[_ H]]; lia. Qed.

Lemma before_asym : forall p q, before p q -> ~ before q p.
Proof. intros p q [H|[E H]] [H'|[E' H']]; lia. Qed.

Lemma sorted_app : forall (R : nat * nat -> nat * nat -> Prop) l1 l2, StronglySorted R l1 -> StronglySorted R l2 ->
  (forall x y, In x l1 -> In y l2 -> R x y) -> StronglySorted R (l1 ++ l2).
Proof.
  intros R l1 l2 H1 H2 H. induction H1 as [|x l1 H1 IH F]; [exact H2|]. cbn. constructor.
  - apply IH. intros; apply H; [right|]; assumption.
  - apply Forall_app. split; [exact F|]. apply Forall_forall. intros y Hy. apply H; [left; reflexivity|exact Hy].
Qed.

Lemma row_sorted : forall i a n, StronglySorted before (map (fun j => (i, j)) (seq a n)).
Proof.
  intros i a n. revert a. induction n as [|n IH]; intros a; cbn; constructor; [apply IH|].
  apply Forall_forall. intros q Hq. apply in_map_iff in Hq as [j [<- Hj]]. apply in_seq in Hj. right. cbn. lia.
Qed.

Lemma grid_sorted : forall na nb, StronglySorted before (grid_points na nb).
Proof.
  intros na nb. unfold grid_points.
  assert (G : forall a, StronglySorted before (flat_map (fun i => map (fun j => (i, j)) (seq 0 nb)) (seq a na)));
    [|apply G].
  induction na as [|na IH]; intros a; cbn [seq flat_map]; [constructor|].
  apply sorted_app; [apply row_sorted|apply IH|].
  intros p q Hp Hq. apply in_map_iff in Hp as [j [<- Hj]]. apply in_flat_map in Hq as [x [Hx Hq]].
  apply in_map_iff in Hq as [y [<- Hy]]. apply in_seq in Hx. left. cbn. lia.
Qed.

Lemma sorted_split : forall l1 (p : nat * nat) l2 q, StronglySorted before (l1 ++ p :: l2) ->
  In q (l1 ++ p :: l2) -> before q p -> In q l1.
Proof.
  induction l1 as [|x l1 IH]; intros p l2 q Hs Hq Hb; cbn in *.
  - exfalso. apply StronglySorted_inv in Hs as [_ F]. destruct Hq as [<-|Hq]; [exact (before_irrefl _ Hb)|].
    rewrite Forall_forall in F. exact (before_asym _ _ Hb (F _ Hq)).
  - apply StronglySorted_inv in Hs as [Hs _]. destruct Hq as [<-|Hq]; [left; reflexivity|right; eapply IH; eauto].
Qed.

Lemma splits_first_best : forall na nb sc p, splits_at sc (grid_points na nb) p <-> first_best na nb sc p.
Proof.
  intros na nb sc p. split.
  - intros [l1 [l2 [E [H1 H2]]]]. pose proof (grid_sorted na nb) as Hs. rewrite E in Hs. split; [|split].
    + apply grid_in. rewrite E. apply in_elt.
    + intros q Hq Hb. apply H1. apply (sorted_split l1 p l2 q Hs); [rewrite <- E; apply grid_in; exact Hq|exact Hb].
    + intros q Hq. apply grid_in in Hq. rewrite E in Hq. apply in_app_or in Hq as [Hq|[<-|Hq]].
      * intros C. specialize (H1 q Hq). pose proof (less_trans _ _ _ H1 C) as X. destruct (sc q); cbn in X; lia || contradiction.
      * intros C. destruct (sc p); cbn in C; lia || contradiction.
      * apply H2; exact Hq.
  - intros [Hi [H1 H2]]. apply grid_in in Hi. apply in_split in Hi as [l1 [l2 E]]. exists l1, l2. split; [exact E|].
    pose proof (grid_sorted na nb) as Hs. rewrite E in Hs. split.
    + intros q Hq. apply H1; [apply grid_in; rewrite E; apply in_or_app; left; exact Hq|].
      clear - Hs Hq. induction l1 as [|x l1 IH]; [destruct Hq|]. cbn in Hs. apply StronglySorted_inv in Hs as [Hs F].
      destruct Hq as [<-|Hq]; [|auto]. rewrite Forall_forall in F. apply F. apply in_elt.
    + intros q Hq. apply H2. apply grid_in. rewrite E. apply in_or_app; right; right; exact Hq.
Qed.

Lemma first_best_unique : forall na nb sc p q, first_best na nb sc p -> first_best na nb sc q -> p = q.
Proof.
  intros na nb sc [i j] [i' j'] [Ip [Bp Mp]] [Iq [Bq Mq]].
  destruct (Nat.lt_trichotomy i i') as [L|[->|L]].
  - exfalso. apply (Mp (i', j') Iq). apply Bq; [exact Ip|left; exact L].
  - destruct (Nat.lt_trichotomy j j') as [L|[->|L]]; [|reflexivity|].
    + exfalso. apply (Mp (i', j') Iq). apply Bq; [exact Ip|right; auto].
    + exfalso. apply (Mq (i', j) Ip). apply Bp; [exact Iq|right; auto].
  - exfalso. apply (Mq (i, j) Ip). apply Bp; [exact Iq|left; exact L].
Qed.

(** The loop. *)
Definition max_state (sc : nat * nat -> score) (pts : list (nat * nat)) (st : gstate) : Prop :=
  (forall p, In p pts -> stored (g_cells st) (fst p) (snd p) = sc p) /\
  ((g_pred st = None /\ g_max st = 0 /\ forall p z, In p pts -> sc p = Num z -> z <= 0) \/
   (exists l1 p l2, pts = l1 ++ p :: l2 /\ g_pred st = Some p /\ sc p = Num (g_max st) /\ 0 < g_max st /\
      (forall q z, In q l1 -> sc q = Num z -> z < g_max st) /\ (forall q z, In q l2 -> sc q = Num z -> z <= g_max st))).

Lemma pt_eqb : forall (p q : nat * nat), Nat.eqb (fst p) (fst q) && Nat.eqb (snd p) (snd q) = true <-> p = q.
Proof.
  intros [a b] [c d]; cbn. rewrite andb_true_iff, !Nat.eqb_eq. split; [intros [-> ->]; reflexivity|intros E; injection E; auto].
Qed.

Lemma grid_loop_spec : forall shape eval sc rest done st,
  NoDup (done ++ rest) ->
  (forall p, In p rest -> eval (fst p) (snd p) = Ok (sc p) /\ in_grid (fst shape) (snd shape) p) ->
  max_state sc done st ->
  exists st', grid_loop shape eval rest st = Ok st' /\ max_state sc (done ++ rest) st'.
Proof.
  intros shape eval sc rest. induction rest as [|[i j] rest IH]; intros done st ND H Hm.
  - exists st. split; [reflexivity|rewrite app_nil_r; exact Hm].
  - destruct (H (i, j) (or_introl eq_refl)) as [E [Hi Hj]]. cbn [fst snd] in E, Hi, Hj.
    assert (Hstep : exists st1, grid_step shape eval st (i, j) = Ok st1 /\ max_state sc (done ++ [(i, j)]) st1).
    { unfold grid_step. rewrite E. cbn [rbind]. rewrite (proj2 (Nat.ltb_lt _ _) Hi), (proj2 (Nat.ltb_lt _ _) Hj). cbn [andb].
      eexists. split; [reflexivity|]. destruct Hm as [Hs Hm].
      assert (Hnew : forall p, In p (done ++ [(i, j)]) ->
                stored ((i, j, sc (i, j)) :: g_cells st) (fst p) (snd p) = sc p).
      { intros p Hp. cbn [stored]. destruct (Nat.eqb (fst p) i && Nat.eqb (snd p) j) eqn:Q.
        - apply (pt_eqb p (i, j)) in Q. rewrite Q. reflexivity.
        - apply in_app_or in Hp as [Hp|[<-|[]]]; [apply Hs; exact Hp|]. cbn in Q. rewrite !Nat.eqb_refl in Q. discriminate. }
      cbn [g_cells]. destruct (sc (i, j)) as [z|] eqn:Z.
      - destruct (g_max st <? z) eqn:L.
        + apply Z.ltb_lt in L. split; [cbn [g_cells]; exact Hnew|]. right. exists done, (i, j), []. cbn [g_pred g_max].
          split; [reflexivity|]. split; [reflexivity|]. split; [exact Z|].
          assert (0 <= g_max st) by (destruct Hm as [[_ [-> _]]|[l1 [p [l2 [_ [_ [_ [A _]]]]]]]]; lia).
          split; [lia|]. split; [|intros q z' []]. intros q z' Hq Eq.
          destruct Hm as [[_ [G A]]|[l1 [p [l2 [Ed [_ [Ep [_ [A1 A2]]]]]]]]].
          * specialize (A q z' Hq Eq). lia.
          * rewrite Ed in Hq. apply in_app_or in Hq as [Hq|[<-|Hq]].
            -- specialize (A1 _ _ Hq Eq). lia.
            -- rewrite Ep in Eq. injection Eq as <-. exact L.
            -- specialize (A2 _ _ Hq Eq). lia.
        + apply Z.ltb_ge in L. split; [cbn [g_cells]; exact Hnew|]. cbn [g_pred g_max].
          destruct Hm as [[A [G B]]|[l1 [p [l2 [Ed [A [Ep [P [A1 A2]]]]]]]]].
          * left. split; [exact A|]. split; [exact G|]. intros p z' Hp Ez. apply in_app_or in Hp as [Hp|[<-|[]]]; [eauto|].
            rewrite Z in Ez. injection Ez as <-. lia.
          * right. exists l1, p, (l2 ++ [(i, j)]). split; [rewrite Ed, <- app_assoc; reflexivity|].
            split; [exact A|]. split; [exact Ep|]. split; [exact P|]. split; [exact A1|].
            intros q z' Hq Ez. apply in_app_or in Hq as [Hq|[<-|[]]]; [eauto|]. rewrite Z in Ez. injection Ez as <-. lia.
      - split; [cbn [g_cells]; exact Hnew|]. cbn [g_pred g_max].
        destruct Hm as [[A [G B]]|[l1 [p [l2 [Ed [A [Ep [P [A1 A2]]]]]]]]].
        + left. split; [exact A|]. split; [exact G|]. intros p z' Hp Ez. apply in_app_or in Hp as [Hp|[<-|[]]]; [eauto|congruence].
        + right. exists l1, p, (l2 ++ [(i, j)]). split; [rewrite Ed, <- app_assoc; reflexivity|].
          split; [exact A|]. split; [exact Ep|]. split; [exact P|]. split; [exact A1|].
          intros q z' Hq Ez. apply in_app_or in Hq as [Hq|[<-|[]]]; [eauto|congruence]. }
    destruct Hstep as [st1 [E1 M1]].
    replace (done ++ (i, j) :: rest) with ((done ++ [(i, j)]) ++ rest) in * by (rewrite <- app_assoc; reflexivity).
    destruct (IH (done ++ [(i, j)]) st1 ND) as [st2 [E2 M2]]; [intros p Hp; apply H; right; exact Hp|exact M1|].
    exists st2. cbn [grid_loop]. rewrite E1. cbn [rbind]. split; [exact E2|exact M2].
Qed.

Lemma sorted_nodup : forall l, StronglySorted before l -> NoDup l.
Proof.
  intros l H. induction H as [|x l H IH F]; constructor; [|exact IH].
  intros C. rewrite Forall_forall in F. exact (before_irrefl _ (F _ C)).
Qed.

(** What physics is given for the learned parameters alpha, beta and [more],
    whose initial values are kept; the solver is only given alpha and beta. *)
Definition given (m : method) (bmax : Z) (more : kws) (a b : Z) : kws :=
  match m with
  | Potential => ("alpha", a) :: ("beta", b * bmax) :: more
  | Solver => [("alpha", a); ("beta", b)]
  end%string.

Definition score_at (m : method) (bmax : Z) (more : kws) (alphas betas : list Z) (physics : kws -> score)
    (p : nat * nat) : score :=
  physics (given m bmax more (nth (fst p) alphas 0) (nth (snd p) betas 0)).

Lemma nth_res_ok : forall l k, (k < List.length l)%nat -> nth_res l k = Ok (nth k l 0).
Proof. intros l k H. unfold nth_res. rewrite (nth_error_nth' l 0 H). reflexivity. Qed.

Lemma combine_split_pairs : forall (l : kws), combine (map fst l) (map snd l) = l.
Proof. induction l as [|[x y] l IH]; cbn; [reflexivity|now rewrite IH]. Qed.

Lemma run_spec : forall m t0 t1 more bmax alphas betas physics,
  (0 < List.length alphas)%nat -> (0 < List.length betas)%nat ->
  exists i j rep,
    rsquared_run m true ("alpha" :: "beta" :: map fst more)%string (t0 :: t1 :: map snd more) bmax alphas betas physics = Ok rep /\
    first_best (List.length alphas) (List.length betas) (score_at m bmax more alphas betas physics) (i, j) /\
    rep = R2Report (nth i alphas 0) (nth j betas 0) (nth j betas 0 * bmax)
            (score_at m bmax more alphas betas physics (i, j)) (f_predicted rep) /\
    ((f_predicted rep = None /\ forall p z, in_grid (List.length alphas) (List.length betas) p ->
        score_at m bmax more alphas betas physics p = Num z -> z <= 0) \/
     (exists l1 p l2 z, grid_points (List.length alphas) (List.length betas) = l1 ++ p :: l2 /\
        f_predicted rep = Some p /\ score_at m bmax more alphas betas physics p = Num z /\ 0 < z /\
        (forall q y, In q l1 -> score_at m bmax more alphas betas physics q = Num y -> y < z) /\
        (forall q y, In q l2 -> score_at m bmax more alphas betas physics q = Num y -> y <= z))).
Proof.
  intros m t0 t1 more bmax alphas betas physics Ha Hb. unfold rsquared_run. cbv zeta.
  set (na := List.length alphas) in *. set (nb := List.length betas) in *.
  set (sc := score_at m bmax more alphas betas physics).
  set (eval := fun i j => _).
  assert (HE : forall p, In p (grid_points na nb) -> eval (fst p) (snd p) = Ok (sc p) /\ in_grid na nb p).
  { intros [i j] Hp. apply grid_in in Hp. split; [|exact Hp]. destruct Hp as [Hi Hj]. cbn [fst snd] in *. unfold eval.
    rewrite nth_res_ok by exact Hi. cbn [rbind]. rewrite nth_res_ok by exact Hj. cbn [rbind].
    unfold r2_point, positional, set_pos. cbn [List.length Nat.ltb Nat.leb firstn skipn app rbind combine].
    rewrite combine_split_pairs. destruct m; reflexivity. }
  destruct (grid_loop_spec (na, nb) eval sc (grid_points na nb) [] (GState [] 0 None)) as [st [E [Hs Hm]]].
  { apply sorted_nodup, grid_sorted. }
  { exact HE. }
  { split; [intros p []|]. left. cbn. split; [reflexivity|]. split; [reflexivity|intros p z []]. }
  cbn [app] in *. cbn [grid_shape]. rewrite E. cbn [rbind fst snd].
  rewrite (map_ext_in _ (fun p => (p, sc p)) (grid_points na nb)) by (intros p Hp; rewrite (Hs p Hp); reflexivity).
  destruct (np_argmax (map (fun p => (p, sc p)) (grid_points na nb))) as [[p s]|e] eqn:EA.
  2:{ exfalso. destruct (grid_points na nb) as [|q l] eqn:G; [|discriminate].
      assert (In (0, 0)%nat (grid_points na nb)) as C by (apply grid_in; split; cbn; lia). rewrite G in C. destruct C. }
  pose proof (np_argmax_spec _ _ EA) as [l1 [l2 [EL [H1 H2]]]].
  apply map_eq_app in EL as [g1 [g2 [EG [E1 E2]]]].
  destruct g2 as [|q g2]; [discriminate|]. cbn in E2. injection E2 as Eq Es E3. subst q.
  assert (FB : first_best na nb sc p).
  { apply splits_first_best. exists g1, g2. split; [exact EG|]. split; intros y Hy.
    - assert (C : In (y, sc y) l1) by (rewrite <- E1; apply in_map_iff; exists y; auto).
      specialize (H1 _ C). cbn in H1. rewrite <- Es in H1. exact H1.
    - assert (C : In (y, sc y) l2) by (rewrite <- E3; apply in_map_iff; exists y; auto).
      specialize (H2 _ C). cbn in H2. rewrite <- Es in H2. exact H2. }
  cbn [rbind fst snd]. destruct p as [i j]. cbn [fst snd].
  destruct FB as [[Hi Hj] FB]. cbn [fst snd] in Hi, Hj.
  rewrite nth_res_ok by exact Hi. cbn [rbind]. rewrite nth_res_ok by exact Hj. cbn [rbind].
  exists i, j. eexists. split; [reflexivity|]. split; [split; [split; assumption|exact FB]|]. cbn [f_predicted].
  split; [rewrite <- Es; reflexivity|].
  destruct Hm as [[A [_ B]]|[k1 [p [k2 [Ed [A [Ep [P [A1 A2]]]]]]]]].
  - left. split; [exact A|]. intros q z Hq. apply B. apply grid_in; exact Hq.
  - right. exists k1, p, k2, (g_max st). repeat split; assumption.
Qed.

(** ---- C148 ---------------------------------------------------------------- *)

(** When alpha and beta, in this order, and possibly more parameters are learned,
    and alpha and beta are listed in this order in the grid, the search reports for every grid and every model the first grid
    point with the highest score, its score and, if that score is positive, the
    prediction made there — provided no evaluation failed. *)
Theorem C148_best_point_partial : forall m t0 t1 more bmax alphas betas physics,
  alphas <> [] -> betas <> [] ->
  let sc := score_at m bmax more alphas betas physics in
  (forall p, in_grid (List.length alphas) (List.length betas) p -> sc p <> NaN) ->
  exists i j z, rsquared_run m true ("alpha" :: "beta" :: map fst more)%string (t0 :: t1 :: map snd more) bmax alphas betas physics
    = Ok (R2Report (nth i alphas 0) (nth j betas 0) (nth j betas 0 * bmax) (Num z)
            (if 0 <? z then Some (i, j) else None)) /\
  in_grid (List.length alphas) (List.length betas) (i, j) /\
  physics (given m bmax more (nth i alphas 0) (nth j betas 0)) = Num z /\
  (forall p y, in_grid (List.length alphas) (List.length betas) p -> sc p = Num y -> y <= z) /\
  (forall p y, in_grid (List.length alphas) (List.length betas) p -> before p (i, j) -> sc p = Num y -> y < z).
Proof.
  intros m t0 t1 more bmax alphas betas physics Ha Hb sc Hn.
  destruct (run_spec m t0 t1 more bmax alphas betas physics) as [i [j [rep [E [FB [R P]]]]]].
  { destruct alphas; [congruence|cbn; lia]. } { destruct betas; [congruence|cbn; lia]. }
  fold sc in FB, R, P. destruct FB as [Hi [HB HM]].
  destruct (sc (i, j)) as [z|] eqn:Z; [|exfalso; exact (Hn _ Hi Z)].
  exists i, j, z. assert (HMz : forall p y, in_grid (List.length alphas) (List.length betas) p -> sc p = Num y -> y <= z).
  { intros p y Hp Ey. specialize (HM p Hp). rewrite Ey in HM. cbn in HM. lia. }
  assert (HBz : forall p y, in_grid (List.length alphas) (List.length betas) p -> before p (i, j) -> sc p = Num y -> y < z).
  { intros p y Hp Hb' Ey. specialize (HB p Hp Hb'). rewrite Ey in HB. exact HB. }
  split; [|split; [exact Hi|split; [exact Z|split; [exact HMz|exact HBz]]]].
  rewrite E, R. f_equal. f_equal. destruct (0 <? z) eqn:L.
  - apply Z.ltb_lt in L. destruct P as [[_ P]|[l1 [p [l2 [y [EG [A [Ep [Py [A1 A2]]]]]]]]]].
    + specialize (P _ _ Hi Z). lia.
    + rewrite A. f_equal.
      assert (FBp : first_best (List.length alphas) (List.length betas) sc p).
      { apply splits_first_best. exists l1, l2. split; [exact EG|]. split; intros q Hq.
        - destruct (sc q) as [w|] eqn:W.
          + rewrite Ep. exact (A1 _ _ Hq W).
          + exfalso. apply (Hn q); [|exact W]. apply grid_in. rewrite EG. apply in_or_app; left; exact Hq.
        - destruct (sc q) as [w|] eqn:W.
          + rewrite Ep. cbn. specialize (A2 _ _ Hq W). lia.
          + exfalso. apply (Hn q); [|exact W]. apply grid_in. rewrite EG. apply in_or_app; right; right; exact Hq. }
      apply (first_best_unique _ _ _ _ _ FBp). split; [exact Hi|]. rewrite Z. split; [exact HB|exact HM].
  - apply Z.ltb_ge in L. destruct P as [[A _]|[l1 [p [l2 [y [EG [A [Ep [Py [A1 A2]]]]]]]]]]; [exact A|].
    assert (Hp : in_grid (List.length alphas) (List.length betas) p) by (apply grid_in; rewrite EG; apply in_elt).
    specialize (HMz p y Hp Ep). lia.
Qed.
Print Assumptions C148_best_point_partial.

(** A failed evaluation decides the fit: if some point has no score, the first
    such point is reported as the best one, for every model. *)
Theorem C148_failed_point_refuted : forall m t0 t1 more bmax alphas betas physics p,
  let sc := score_at m bmax more alphas betas physics in
  in_grid (List.length alphas) (List.length betas) p -> sc p = NaN ->
  exists i j pred, rsquared_run m true ("alpha" :: "beta" :: map fst more)%string (t0 :: t1 :: map snd more) bmax alphas betas physics
    = Ok (R2Report (nth i alphas 0) (nth j betas 0) (nth j betas 0 * bmax) NaN pred) /\
  sc (i, j) = NaN.
Proof.
  intros m t0 t1 more bmax alphas betas physics p sc [Hi Hj] Hn.
  destruct (run_spec m t0 t1 more bmax alphas betas physics) as [i [j [rep [E [[_ [_ HM]] [R _]]]]]]; [lia|lia|].
  fold sc in HM, R. specialize (HM p (conj Hi Hj)). rewrite Hn in HM.
  assert (Z : sc (i, j) = NaN) by (destruct (sc (i, j)); [exfalso; apply HM; exact I|reflexivity]).
  exists i, j, (f_predicted rep). split; [rewrite E; f_equal; rewrite R at 1; rewrite Z; reflexivity|exact Z].
Qed.
Print Assumptions C148_failed_point_refuted.

(** When the best score is not positive no prediction of any grid point is
    saved. *)
Theorem C148_prediction_refuted : forall m t0 t1 more bmax alphas betas physics,
  alphas <> [] -> betas <> [] ->
  (forall p, in_grid (List.length alphas) (List.length betas) p ->
     exists z, score_at m bmax more alphas betas physics p = Num z /\ z <= 0) ->
  exists rep, rsquared_run m true ("alpha" :: "beta" :: map fst more)%string (t0 :: t1 :: map snd more) bmax alphas betas physics = Ok rep /\
    f_predicted rep = None.
Proof.
  intros m t0 t1 more bmax alphas betas physics Ha Hb H.
  destruct (C148_best_point_partial m t0 t1 more bmax alphas betas physics Ha Hb) as [i [j [z [E [Hi [Ez _]]]]]].
  { intros p Hp C. destruct (H p Hp) as [z [Ez _]]. congruence. }
  eexists. split; [exact E|]. cbn. destruct (H _ Hi) as [y [Ey L]]. unfold score_at in Ey. cbn [fst snd] in Ey.
  rewrite Ez in Ey. injection Ey as <-. rewrite (proj2 (Z.ltb_ge 0 z) L). reflexivity.
Qed.
Print Assumptions C148_prediction_refuted.

(** The score belongs to the reported scaled beta with the potential method, to
    the unscaled one with the solver. *)
Theorem C148_scaled_beta_partial : forall t0 t1 more bmax alphas betas physics rep,
  rsquared_run Potential true ("alpha" :: "beta" :: map fst more)%string (t0 :: t1 :: map snd more) bmax alphas betas physics = Ok rep ->
  physics (("alpha", f_alpha rep) :: ("beta", f_scaled_beta rep) :: more)%string = f_r2 rep /\
  f_scaled_beta rep = f_beta rep * bmax.
Proof.
  intros t0 t1 more bmax alphas betas physics rep H.
  destruct alphas as [|a alphas]; [|destruct betas as [|b betas]].
  - cbn in H. discriminate.
  - exfalso. unfold rsquared_run in H. cbv zeta in H. cbn [List.length grid_shape fst snd] in H.
    assert (G : forall n, grid_points n 0 = []) by (intros n; unfold grid_points; induction (seq 0 n); cbn; auto).
    rewrite G in H. cbn in H. discriminate.
  - destruct (run_spec Potential t0 t1 more bmax (a :: alphas) (b :: betas) physics) as [i [j [rep' [E [_ [R _]]]]]];
      [cbn; lia|cbn; lia|].
    rewrite H in E. injection E as <-. rewrite R. cbn [f_alpha f_scaled_beta f_r2 f_beta]. split; reflexivity.
Qed.
Print Assumptions C148_scaled_beta_partial.

Theorem C148_solver_scale_refuted : exists physics rep,
  rsquared_run Solver true ["alpha"; "beta"]%string [1; 1] 2 [1; 2] [1; 2] physics = Ok rep /\
  physics [("alpha", f_alpha rep); ("beta", f_scaled_beta rep)]%string <> f_r2 rep /\
  physics [("alpha", f_alpha rep); ("beta", f_beta rep)]%string = f_r2 rep.
Proof.
  exists (fun kw => match kw with [(_, a); (_, b)] => Num (a + b) | _ => NaN end).
  eexists. split; [reflexivity|]. split; [discriminate|reflexivity].
Qed.
Print Assumptions C148_solver_scale_refuted.

(** Parameters are filled by position: learning beta and alpha in this order
    evaluates the model at swapped arguments. *)
Theorem C148_parameter_order_refuted : forall t0 t1 bmax a b physics,
  rsquared_run Potential true ["beta"; "alpha"]%string [t0; t1] bmax [a] [b] physics
    = Ok (R2Report a b (b * bmax) (physics [("beta", a); ("alpha", b * bmax)]%string)
            (match physics [("beta", a); ("alpha", b * bmax)]%string with
             | Num z => if 0 <? z then Some (0, 0)%nat else None | NaN => None end)).
Proof.
  intros. unfold rsquared_run. cbn. destruct (physics _) as [z|]; [|reflexivity]. cbn.
  destruct (0 <? z); reflexivity.
Qed.
Print Assumptions C148_parameter_order_refuted.

(** Listing beta before alpha in the grid gives the result array the wrong
    shape: the search fails whenever the two have different sizes. *)
Theorem C148_grid_order_refuted : forall m t0 t1 bmax alphas betas physics,
  alphas <> [] -> betas <> [] -> List.length alphas <> List.length betas ->
  rsquared_run m false ["alpha"; "beta"]%string [t0; t1] bmax alphas betas physics = Raise EIndex.
Proof.
  intros m t0 t1 bmax alphas betas physics Ha Hb Hne. unfold rsquared_run. cbv zeta.
  set (na := List.length alphas) in *. set (nb := List.length betas) in *. set (eval := fun i j => _).
  assert (HE : forall p, In p (grid_points na nb) -> exists s, eval (fst p) (snd p) = Ok s).
  { intros [i j] Hp. apply grid_in in Hp. destruct Hp as [Hi Hj]. cbn [fst snd] in *. unfold eval.
    rewrite nth_res_ok by exact Hi. cbn [rbind]. rewrite nth_res_ok by exact Hj. cbn [rbind].
    unfold r2_point, positional, set_pos. cbn. destruct m; eexists; reflexivity. }
  assert (HB : exists p, In p (grid_points na nb) /\ ~ in_grid nb na p).
  { assert (0 < na)%nat by (destruct alphas; [congruence|unfold na; cbn; lia]).
    assert (0 < nb)%nat by (destruct betas; [congruence|unfold nb; cbn; lia]).
    destruct (Nat.lt_trichotomy na nb) as [L|[L|L]]; [|contradiction|].
    - exists (0, na)%nat. split; [apply grid_in; split; cbn; lia|]. intros [_ C]. cbn in C. lia.
    - exists (nb, 0)%nat. split; [apply grid_in; split; cbn; lia|]. intros [C _]. cbn in C. lia. }
  cbn [grid_shape].
  assert (G : forall pts st, (forall p, In p pts -> exists s, eval (fst p) (snd p) = Ok s) ->
     (exists p, In p pts /\ ~ in_grid nb na p) -> grid_loop (nb, na) eval pts st = Raise EIndex).
  { induction pts as [|[i j] pts IH]; intros st H1 [p [Hp Hn]]; [destruct Hp|].
    cbn [grid_loop]. unfold grid_step. destruct (H1 (i, j) (or_introl eq_refl)) as [s Es]. cbn [fst snd] in Es.
    rewrite Es. cbn [rbind fst snd]. destruct ((i <? nb)%nat && (j <? na)%nat) eqn:L; [|reflexivity].
    apply andb_true_iff in L as [L1 L2]. apply Nat.ltb_lt in L1, L2. cbn [rbind].
    apply IH; [intros q Hq; apply H1; right; exact Hq|]. destruct Hp as [<-|Hp]; [exfalso; apply Hn; split; cbn; lia|eauto]. }
  rewrite (G _ _ HE HB). reflexivity.
Qed.
Print Assumptions C148_grid_order_refuted.

(** With fewer than two learned parameters the search cannot run. *)
Theorem C148_two_parameters_needed : forall m af names theta bmax a alphas b betas physics,
  (List.length theta < 2)%nat ->
  rsquared_run m af names theta bmax (a :: alphas) (b :: betas) physics = Raise EIndex.
Proof.
  intros m af names theta bmax a alphas b betas physics H.
  assert (P : forall x y, positional names theta x y = Raise EIndex).
  { intros x y. unfold positional, set_pos. destruct theta as [|t [|t' th]]; cbn in *; try reflexivity; lia. }
  unfold rsquared_run; cbv zeta; cbn [List.length grid_points seq flat_map map app grid_loop];
    unfold grid_step; cbn [nth_res nth_error rbind fst snd]; unfold nth_res; cbn [nth_error rbind]; unfold r2_point;
    rewrite P; reflexivity.
Qed.
Print Assumptions C148_two_parameters_needed.

Definition demo_physics (kw : kws) : score :=
  match kw with [(_, a); (_, b)] => Num (10 - (a - 2) * (a - 2) - (b - 6) * (b - 6)) | _ => NaN end.

Example C148_nonvacuous :
  rsquared_run Potential true ["alpha"; "beta"]%string [5; 5] 2 [1; 2; 3] [1; 2; 3; 4] demo_physics
  = Ok (R2Report 2 3 6 (Num 10) (Some (1, 2)%nat)) /\
  rsquared_run Potential true ["alpha"; "beta"; "kappa"]%string [5; 5; 7] 2 [1; 2] [1]
    (fun kw => match kw with [_; _; (_, k)] => Num k | _ => NaN end)
  = Ok (R2Report 1 1 2 (Num 7) (Some (0, 0)%nat)).
Proof. split; reflexivity. Qed.

(** ---- C149 ---------------------------------------------------------------- *)

(** State of the second search after some points. *)
Definition lt_state (arg : nat * nat -> kws) (sc : nat * nat -> score) (pts : list (nat * nat))
    (st : option (kws * Z)) : Prop :=
  match st with
  | None => forall p, In p pts -> sc p = NaN
  | Some (kw, z) => exists l1 p l2, pts = l1 ++ p :: l2 /\ kw = arg p /\ sc p = Num z /\
      (forall q y, In q l1 -> sc q = Num y -> y < z) /\ (forall q y, In q l2 -> sc q = Num y -> y <= z)
  end.

Lemma lt_loop_spec : forall eval arg sc rest done st,
  (forall p, In p rest -> eval (fst p) (snd p) = Ok (arg p, sc p)) ->
  lt_state arg sc done st ->
  exists st', lt_loop eval rest st = Ok st' /\ lt_state arg sc (done ++ rest) st'.
Proof.
  intros eval arg sc rest. induction rest as [|x rest IH]; intros done st H Hm.
  - exists st. split; [reflexivity|rewrite app_nil_r; exact Hm].
  - cbn [lt_loop]. unfold lt_step. rewrite (H x (or_introl eq_refl)). cbn [rbind fst snd].
    replace (done ++ x :: rest) with ((done ++ [x]) ++ rest) by (rewrite <- app_assoc; reflexivity).
    apply IH; [intros p Hp; apply H; right; exact Hp|].
    destruct (sc x) as [z|] eqn:Z; destruct st as [[kw b]|].
    + destruct Hm as [l1 [p [l2 [E [Ek [Ep [A1 A2]]]]]]]. destruct (b <? z) eqn:L.
      * apply Z.ltb_lt in L. exists done, x, []. split; [reflexivity|]. split; [reflexivity|]. split; [exact Z|].
        split; [|intros q y []]. intros q y Hq Ey. rewrite E in Hq. apply in_app_or in Hq as [Hq|[<-|Hq]].
        -- specialize (A1 _ _ Hq Ey). lia.
        -- rewrite Ep in Ey. injection Ey as <-. exact L.
        -- specialize (A2 _ _ Hq Ey). lia.
      * apply Z.ltb_ge in L. exists l1, p, (l2 ++ [x]). split; [rewrite E, <- app_assoc; reflexivity|].
        split; [exact Ek|]. split; [exact Ep|]. split; [exact A1|]. intros q y Hq Ey.
        apply in_app_or in Hq as [Hq|[<-|[]]]; [eauto|]. rewrite Z in Ey. injection Ey as <-. exact L.
    + exists done, x, []. split; [reflexivity|]. split; [reflexivity|]. split; [exact Z|].
      split; [|intros q y []]. intros q y Hq Ey. rewrite (Hm q Hq) in Ey. discriminate.
    + destruct Hm as [l1 [p [l2 [E [Ek [Ep [A1 A2]]]]]]]. exists l1, p, (l2 ++ [x]).
      split; [rewrite E, <- app_assoc; reflexivity|].
      split; [exact Ek|]. split; [exact Ep|]. split; [exact A1|]. intros q y Hq Ey.
      apply in_app_or in Hq as [Hq|[<-|[]]]; [eauto|congruence].
    + intros p Hp. apply in_app_or in Hp as [Hp|[<-|[]]]; [apply Hm; exact Hp|exact Z].
Qed.

(** The second search reports the first point with the highest target; points
    without a target are skipped, and it fails exactly when no point has one.
    Its beta is the scaled one. *)
Theorem C149_best_target_partial : forall t0 t1 more bmax alphas betas physics, bmax <> 0 ->
  let at_ p := (("alpha", nth (fst p) alphas 0) :: ("beta", nth (snd p) betas 0 * bmax) :: more)%string in
  let inside := in_grid (List.length alphas) (List.length betas) in
  ((forall p, inside p -> physics (at_ p) = NaN) /\
   logtarget_run ("alpha" :: "beta" :: map fst more)%string (t0 :: t1 :: map snd more) bmax alphas betas physics = Raise EType) \/
  (exists i j z, inside (i, j) /\
     logtarget_run ("alpha" :: "beta" :: map fst more)%string (t0 :: t1 :: map snd more) bmax alphas betas physics
       = Ok (LTReport (nth i alphas 0) (nth j betas 0 * bmax) (nth j betas 0) z) /\
     physics (at_ (i, j)) = Num z /\
     (forall p y, inside p -> physics (at_ p) = Num y -> y <= z) /\
     (forall p y, inside p -> before p (i, j) -> physics (at_ p) = Num y -> y < z)).
Proof.
  intros t0 t1 more bmax alphas betas physics Hbm at_ inside. unfold logtarget_run. cbv zeta. set (eval := fun i j => _).
  destruct (lt_loop_spec eval at_ (fun p => physics (at_ p)) (grid_points (List.length alphas) (List.length betas)) [] None)
    as [st [E Hs]].
  { intros [i j] Hp. apply grid_in in Hp. destruct Hp as [Hi Hj]. cbn [fst snd] in *. unfold eval.
    rewrite nth_res_ok by exact Hi. cbn [rbind]. rewrite nth_res_ok by exact Hj. cbn [rbind].
    unfold positional, set_pos. cbn [List.length Nat.ltb Nat.leb firstn skipn app rbind combine].
    rewrite combine_split_pairs. reflexivity. }
  { intros p []. }
  rewrite E. cbn [rbind app] in *. destruct st as [[kw z]|].
  - right. destruct Hs as [l1 [[i j] [l2 [EG [Ek [Ep [A1 A2]]]]]]]. exists i, j, z.
    pose proof (grid_sorted (List.length alphas) (List.length betas)) as Hs. rewrite EG in Hs.
    split; [apply grid_in; rewrite EG; apply in_elt|].
    split; [rewrite Ek; cbn; rewrite Z.div_mul by exact Hbm; reflexivity|]. split; [exact Ep|]. split.
    + intros p y Hp Ey. apply grid_in in Hp. rewrite EG in Hp. apply in_app_or in Hp as [Hp|[<-|Hp]].
      * specialize (A1 _ _ Hp Ey). lia.
      * rewrite Ep in Ey. injection Ey as <-. lia.
      * apply (A2 _ _ Hp Ey).
    + intros p y Hp Hb Ey. apply (A1 p y); [|exact Ey]. apply (sorted_split l1 (i, j) l2 p Hs); [|exact Hb].
      rewrite <- EG. apply grid_in. exact Hp.
  - left. split; [|reflexivity]. intros p Hp. apply Hs. apply grid_in. exact Hp.
Qed.
Print Assumptions C149_best_target_partial.

(** The two searches use the names of the two betas in opposite ways: for the
    same best point they report the same beta only if the scale changes
    nothing. *)
Theorem C149_names_swapped_refuted : forall t0 t1 bmax a b physics z, bmax <> 0 ->
  physics [("alpha", a); ("beta", b * bmax)]%string = Num z ->
  exists r l,
    rsquared_run Potential true ["alpha"; "beta"]%string [t0; t1] bmax [a] [b] physics = Ok r /\
    logtarget_run ["alpha"; "beta"]%string [t0; t1] bmax [a] [b] physics = Ok l /\
    f_beta r = b /\ f_scaled_beta r = b * bmax /\ l_beta l = b * bmax /\ l_scaled_beta l = b /\
    (f_beta r = l_beta l <-> b = 0 \/ bmax = 1).
Proof.
  intros t0 t1 bmax a b physics z Hb H. unfold rsquared_run, logtarget_run. cbn. rewrite H. cbn.
  exists (R2Report a b (b * bmax) (Num z) (if 0 <? z then Some (0, 0)%nat else None)).
  eexists. split; [destruct (0 <? z); reflexivity|]. split; [reflexivity|]. cbn.
  rewrite Z.div_mul by exact Hb. repeat split; try reflexivity.
  - intros E. destruct (Z.eq_dec b 0); [left; assumption|right; nia].
  - intros [-> | ->]; lia.
Qed.
Print Assumptions C149_names_swapped_refuted.

(** With fewer than two learned parameters neither search can run. *)
Theorem C149_two_parameters_needed : forall m af names theta bmax a alphas b betas physics,
  (List.length theta < 2)%nat ->
  rsquared_run m af names theta bmax (a :: alphas) (b :: betas) physics = Raise EIndex /\
  logtarget_run names theta bmax (a :: alphas) (b :: betas) physics = Raise EIndex.
Proof.
  intros m af names theta bmax a alphas b betas physics H.
  assert (P : forall x y, positional names theta x y = Raise EIndex).
  { intros x y. unfold positional, set_pos. destruct theta as [|t [|t' th]]; cbn in *; try reflexivity; lia. }
  split; unfold rsquared_run, logtarget_run; cbv zeta; cbn [List.length grid_points seq flat_map map app grid_loop lt_loop];
    unfold grid_step, lt_step; cbn [nth_res nth_error rbind fst snd]; unfold nth_res; cbn [nth_error rbind]; unfold r2_point;
    rewrite P; reflexivity.
Qed.
Print Assumptions C149_two_parameters_needed.

Example C149_nonvacuous :
  logtarget_run ["alpha"; "beta"]%string [5; 5] 2 [1; 2; 3] [1; 2; 3; 4] demo_physics = Ok (LTReport 2 6 3 10).
Proof. reflexivity. Qed.
