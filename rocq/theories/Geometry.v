(** Model of the joining of plotted data to region geometries
    (plot.py 1458-1499) and its theorems. *)
From Coq Require Import List ZArith Lia Bool Arith String.
From Verif Require Import Base PyMonad.
Import ListNotations.
Local Open Scope string_scope.

Section Geo.
  Variables Cell G : Type.
  Variable key : Cell -> option Z.   (** the LOCATIONID a cell equals, if any *)

  (** A data frame: column names in order and rows addressed by column. *)
  Record frame := mkF { f_cols : list string; f_rows : list (string -> Cell) }.
  (** The columns LOCATIONID and geometry of a region_geometries frame. *)
  Definition regions := list (Z * G).

  (** What an Outputs object offers (plot.py 1460-1479): whether its inputs exist
      and hold a variable region_geometries (whose value may be None), and what
      its configuration names and would load. *)
  Record source := mkSrc {
    s_inputs : option (option (option regions));  (** inputs; the variable; its value *)
    s_config : option (option regions)            (** config; what the file named holds *)
  }.

  (** plot.py 1460-1479: inputs first, then the configuration; the bare
      exceptions of 1467, 1472 and 1480 raise. *)
  Definition fetch (s : source) : res regions :=
    match s_inputs s with
    | Some (Some (Some g)) => Ok g
    | Some (Some None) => Raise EExn
    | _ => match s_config s with
           | Some (Some g) => Ok g
           | _ => Raise EExn
           end
    end.

  (** plot.py 1491: the location columns in frame order. *)
  Definition location_dims (f : frame) : list string :=
    filter (fun c => String.eqb c "origin" || String.eqb c "destination") (f_cols f).

  Definition keyed (k : option Z) (g : Z * G) : bool :=
    match k with Some z => Z.eqb z (fst g) | None => false end.
  (** pandas.merge(how = 'left'), plot.py 1494-1500: rows in order, one copy per
      region with that id, a null geometry when there is none.  Neither a NaN
      LOCATIONID nor a LOCATIONID column already in the data is modelled. *)
  Definition join (d : string) (rows : list (string -> Cell)) (g : regions)
    : list ((string -> Cell) * option G) :=
    flat_map (fun r => match filter (keyed (key (r d))) g with
                       | [] => [(r, None)]
                       | gs => map (fun x => (r, Some (snd x))) gs
                       end) rows.

  (** merge_data_with_geometries: [cache] is self.region_geometries of the plot
      object, set by the first call (1459, 1482). *)
  Definition merge (cache : option regions) (s : source) (f : frame)
    : res (option regions * list ((string -> Cell) * option G)) :=
    rbind (match cache with Some g => Ok g | None => fetch s end) (fun g =>
    match location_dims f with
    | [] => Raise EIndex
    | d :: _ => Ok (Some g, join d (f_rows f) g)
    end).

  (** The calls of one plotting session in order. *)
  Fixpoint session (cache : option regions) (l : list (source * frame))
    : res (list (list ((string -> Cell) * option G))) :=
    match l with
    | [] => Ok []
    | (s, f) :: r =>
        rbind (merge cache s f) (fun p =>
        rbind (session (fst p) r) (fun out => Ok (snd p :: out)))
    end.

  (** ** Specification: each data row once, in order, with the geometry of its
      place: the origin if that column comes first, else the destination. *)
  Definition place (f : frame) (d : string) : Prop :=
    (d = "origin" \/ d = "destination") /\
    exists before after, f_cols f = (before ++ d :: after)%list /\
      ~ In "origin" before /\ ~ In "destination" before.
  Definition located (f : frame) (g : regions) (out : list ((string -> Cell) * option G)) : Prop :=
    exists d, place f d /\
    Forall2 (fun r o => fst o = r /\
       match snd o with
       | Some x => exists z, key (r d) = Some z /\ In (z, x) g
       | None => forall z x, key (r d) = Some z -> ~ In (z, x) g
       end) (f_rows f) out.

  Lemma location_place : forall f d l, location_dims f = d :: l -> place f d.
  Proof.
    intros [cols rows] d l. unfold location_dims, place. cbn [f_cols].
    induction cols as [|c cols IH]; cbn [filter]; [discriminate|].
    destruct (String.eqb c "origin" || String.eqb c "destination") eqn:E; intros H.
    - injection H as <- _. split.
      + apply orb_true_iff in E. destruct E as [E|E]; apply String.eqb_eq in E; tauto.
      + exists [], cols. cbn. tauto.
    - destruct (IH H) as [Hd (b & a & E2 & H1 & H2)]. split; [exact Hd|]. exists (c :: b), a.
      apply orb_false_iff in E. destruct E as [E1 E3].
      apply String.eqb_neq in E1, E3. rewrite E2. cbn. intuition.
  Qed.

  Lemma filter_one : forall (g : regions) z, NoDup (map fst g) ->
    filter (keyed (Some z)) g = [] /\ (forall x, ~ In (z, x) g) \/
    exists x, filter (keyed (Some z)) g = [(z, x)] /\ In (z, x) g.
  Proof.
    induction g as [|[z0 x0] g IH]; intros z ND; [left; cbn; tauto|].
    inversion ND as [|? ? Hn ND']; subst. cbn [fst] in Hn. cbn [filter keyed fst].
    destruct (Z.eqb_spec z z0) as [->|Hz].
    - right. exists x0. split; [|now left]. f_equal.
      destruct (IH z0 ND') as [[H _]|[x [_ H]]]; [exact H|].
      exfalso. apply Hn. apply in_map_iff. exists (z0, x). now split.
    - destruct (IH z ND') as [[H1 H2]|[x [H1 H2]]].
      + left. split; [exact H1|]. intros x [Hx|Hx]; [injection Hx; congruence|now apply (H2 x)].
      + right. exists x. split; [exact H1|now right].
  Qed.

  Lemma join_located : forall d rows (g : regions), NoDup (map fst g) ->
    Forall2 (fun r o => fst o = r /\
       match snd o with
       | Some x => exists z, key (r d) = Some z /\ In (z, x) g
       | None => forall z x, key (r d) = Some z -> ~ In (z, x) g
       end) rows (join d rows g).
  Proof.
    intros d rows g ND. unfold join. induction rows as [|r rows IH]; cbn [flat_map]; [constructor|].
    destruct (key (r d)) as [z|] eqn:Ek.
    - destruct (filter_one g z ND) as [[H1 H2]|[x [H1 H2]]]; rewrite H1; cbn [map app]; constructor; try exact IH; cbn [fst snd].
      + split; [reflexivity|]. intros z' x E. rewrite Ek in E. injection E as <-. apply H2.
      + split; [reflexivity|]. exists z. now split.
    - assert (HN : filter (keyed None) g = []) by (clear; induction g; [reflexivity|exact IHg]).
      rewrite HN. cbn [app]. constructor; [|exact IH]. cbn. split; [reflexivity|]. intros z x E. congruence.
  Qed.

  (** The regions an experiment brings: those of its inputs, else those its
      configuration names. *)
  Definition own (s : source) (g : regions) : Prop :=
    s_inputs s = Some (Some (Some g)) \/
    ((s_inputs s = None \/ s_inputs s = Some None) /\ s_config s = Some (Some g)).

  (** They are used when there are some; otherwise the first plot is refused. *)
  Theorem C202_own_regions : forall s,
    (forall g, fetch s = Ok g <-> own s g) /\
    ((forall g, ~ own s g) -> forall f, exists e, merge None s f = Raise e).
  Proof.
    intros s. assert (H : forall g, fetch s = Ok g <-> own s g).
    { intros g. unfold fetch, own. destruct s as [[[[gi|]|]|] [[gc|]|]]; cbn; split; intros H;
        repeat match goal with
        | H : Ok _ = Ok _ |- _ => injection H as ->
        | H : Raise _ = Ok _ |- _ => discriminate
        | H : _ \/ _ |- _ => destruct H
        | H : _ /\ _ |- _ => destruct H
        | H : Some _ = Some _ |- _ => injection H as H; try subst
        | H : Some _ = None |- _ => discriminate
        | H : None = Some _ |- _ => discriminate
        end; subst; auto; try discriminate. }
    split; [exact H|]. intros Hn f. unfold merge. destruct (fetch s) as [g|e] eqn:E.
    - exfalso. apply (Hn g). now apply H.
    - exists e. reflexivity.
  Qed.

  Theorem C202_first_plot_partial : forall s f g c out,
    own s g -> NoDup (map fst g) ->
    merge None s f = Ok (c, out) ->
    c = Some g /\ located f g out.
  Proof.
    intros s f g c out Ho ND H. assert (Hf : fetch s = Ok g) by now apply C202_own_regions. unfold merge in H. rewrite Hf, rbind_Ok in H.
    destruct (location_dims f) as [|d l] eqn:E; [discriminate|]. injection H as <- <-.
    split; [reflexivity|]. exists d. split; [now apply location_place in E|now apply join_located].
  Qed.

  (** A session all of whose experiments are about the same regions. *)
  Theorem C202_same_regions_partial : forall g plots outs,
    NoDup (map fst g) ->
    Forall (fun p => own (fst p) g) plots ->
    session None plots = Ok outs ->
    Forall2 (fun p o => located (snd p) g o) plots outs.
  Proof.
    intros g plots outs ND HF0.
    assert (HF : Forall (fun p => fetch (fst p) = Ok g) plots)
      by (revert HF0; apply Forall_impl; intros p Hp; now apply C202_own_regions).
    clear HF0.
    assert (HC : forall cache, cache = None \/ cache = Some g -> forall outs, session cache plots = Ok outs ->
              Forall2 (fun p o => located (snd p) g o) plots outs).
    { induction HF as [|[s f] l Hp HF IH]; intros cache Hc os H; cbn [session] in H; [injection H as <-; constructor|].
      cbn [fst] in Hp. destruct (rbind_Ok_inv _ _ _ _ _ H) as [[c' o] [Hm Hr]]. cbn [fst snd] in Hr.
      destruct (rbind_Ok_inv _ _ _ _ _ Hr) as [os' [Hs E]]. injection E as <-.
      unfold merge in Hm.
      assert (Hg : rbind (Ok g) (fun g => match location_dims f with [] => Raise EIndex
                    | d :: _ => Ok (Some g, join d (f_rows f) g) end) = Ok (c', o))
        by (destruct Hc as [-> | ->]; [rewrite Hp in Hm|]; exact Hm).
      clear Hm. rename Hg into Hm. rewrite rbind_Ok in Hm. destruct (location_dims f) as [|d ld] eqn:E; [discriminate|]. injection Hm as <- <-.
      constructor; [|apply (IH (Some g)); [now right|exact Hs]].
      cbn [snd]. exists d. split; [now apply location_place in E|now apply join_located]. }
    intros H. apply (HC None (or_introl eq_refl) outs H).
  Qed.
End Geo.
Print Assumptions C202_own_regions.
Print Assumptions C202_first_plot_partial.
Print Assumptions C202_same_regions_partial.

(** Two experiments about different regions in one session: the second one's
    rows get the shapes of the first one's regions. *)
Theorem C202_other_regions_refuted :
  exists (g1 g2 : list (Z * string)) plots outs,
    map (fun p => fetch string (fst p)) plots = [Ok g1; Ok g2] /\
    NoDup (map fst g1) /\ NoDup (map fst g2) /\
    session Z string Some None plots = Ok outs /\
    ~ Forall2 (fun p o => exists g, fetch string (fst p) = Ok g /\ located Z string Some (snd p) g o) plots outs.
Proof.
  set (g1 := [(0%Z, "ward A"); (1%Z, "ward B")]). set (g2 := [(0%Z, "borough C"); (1%Z, "borough D")]).
  set (f := mkF Z ["origin"; "count"] [fun _ => 1%Z]).
  exists g1, g2, [(mkSrc string (Some (Some (Some g1))) None, f); (mkSrc string None (Some (Some g2)), f)].
  eexists. split; [reflexivity|]. split; [repeat constructor; cbn; intuition discriminate|].
  split; [repeat constructor; cbn; intuition discriminate|]. split; [reflexivity|].
  intros H. inversion H as [|? ? ? ? _ H2]; subst. inversion H2 as [|? ? ? ? H3 _]; subst.
  cbn in H3. destruct H3 as [g [Eg [d [_ HF]]]]. injection Eg as <-.
  inversion HF as [|? ? ? ? H4 _]; subst. cbn in H4. destruct H4 as [_ [z [_ Hin]]].
  cbn in Hin. destruct Hin as [Hin|[Hin|[]]]; discriminate.
Qed.
Print Assumptions C202_other_regions_refuted.

(** A frame with neither column raises; a region listed twice doubles its rows. *)
Theorem C202_edges_refuted :
  merge Z string Some None (mkSrc string (Some (Some (Some [(0%Z, "A")]))) None) (mkF Z ["count"] [fun _ => 0%Z])
    = Raise EIndex /\
  exists c out,
    merge Z string Some None (mkSrc string (Some (Some (Some [(0%Z, "A"); (0%Z, "A")]))) None) (mkF Z ["origin"] [fun _ => 0%Z])
      = Ok (c, out) /\ List.length out = 2%nat.
Proof. split; [reflexivity|]. eexists. eexists. split; reflexivity. Qed.
Print Assumptions C202_edges_refuted.

Example C202_nonvacuous :
  let g := [(3%Z, "A"); (5%Z, "B")] in
  let s := mkSrc string (Some None) (Some (Some g)) in
  let f := mkF Z ["count"; "destination"; "origin"]
             [fun c => if String.eqb c "destination" then 5%Z else 3%Z; fun _ => 9%Z] in
  NoDup (map fst g) /\ fetch string s = Ok g /\
  exists outs, session Z string Some None [(s, f); (s, f)] = Ok outs /\
    map (map snd) outs = [[Some "B"; None]; [Some "B"; None]].
Proof.
  cbn zeta. split; [repeat constructor; cbn; intuition discriminate|]. split; [reflexivity|].
  eexists. split; reflexivity.
Qed.
