(** Model of the stacking of swept dimensions after loading (outputs.py
    1635-1675, called at 818). *)
From Coq Require Import List ZArith Lia Bool Arith String Permutation.
From Verif Require Import Base PyMonad.
Import ListNotations.
Local Open Scope nat_scope.
Local Open Scope string_scope.

Section Stack.
  Variables L V : Type.

  (** A labelled array (xarray.DataArray): dimensions in order with their
      coordinate labels, and the value stored at one position per dimension.  A
      label of the stacked dimension is a tuple, so every label is a tuple here:
      an ordinary label is a tuple of one. *)
  Record darr := mkD {
    d_dims : list (string * list (list L));
    d_at : list nat -> V
  }.
  Definition names (a : darr) : list string := map fst (d_dims a).
  Definition coord (a : darr) (d : string) : list (list L) :=
    match find (fun p => String.eqb d (fst p)) (d_dims a) with Some p => snd p | None => [] end.
  (** The value at named positions. *)
  Definition val (a : darr) (e : string -> nat) : V := d_at a (map e (names a)).

  Definition mem (x : string) (l : list string) : bool := existsb (String.eqb x) l.
  Fixpoint pos (d : string) (ds : list string) : nat :=
    match ds with
    | [] => 0
    | x :: ds' => if String.eqb d x then 0 else S (pos d ds')
    end.
  (** The named positions a position list stands for. *)
  Definition env (ds : list string) (idx : list nat) : string -> nat := fun d => nth (pos d ds) idx 0.

  (** The tuples of a cartesian product, last factor fastest
      (pandas.MultiIndex.from_product inside DataArray.stack, outputs.py 1659). *)
  Fixpoint tuples (cs : list (list (list L))) : list (list L) :=
    match cs with
    | [] => [[]]
    | c :: cs' => flat_map (fun x => map (fun t => x ++ t)%list (tuples cs')) c
    end.

  Fixpoint prod (ns : list nat) : nat := match ns with [] => 1 | n :: r => n * prod r end.
  (** The position along every stacked dimension of a position along the stacked
      one: the C-order reshape of DataArray.stack (outputs.py 1659-1661). *)
  Fixpoint unravel (ns : list nat) (k : nat) : list nat :=
    match ns with
    | [] => []
    | n :: r => (k / prod r) :: unravel r (k mod prod r)
    end.

  (** DataArray.stack(sweep = ds), ds the dimensions outside [core]: ValueError
      when "sweep" is already a dimension (outputs.py 1659-1661). *)
  Definition stack (a : darr) (ds : list string) : res darr :=
    if mem "sweep" (names a) then Raise EValue
    else
      let others := filter (fun p => negb (mem (fst p) ds)) (d_dims a) in
      let dims := (others ++ [("sweep", tuples (map (coord a) ds))])%list in
      let sizes := map (fun d => List.length (coord a d)) ds in
      Ok (mkD dims (fun idx =>
            let e := env (map fst dims) idx in
            val a (fun d => if mem d ds then env ds (unravel sizes (e "sweep")) d else e d))).

  Fixpoint nodup_s (l : list string) : bool :=
    match l with [] => true | x :: r => negb (mem x r) && nodup_s r end.
  (** DataArray.transpose: no name at all reverses the dimensions; otherwise the
      names must be exactly the dimensions, else ValueError
      (outputs.py 1663-1670). *)
  Definition transpose (a : darr) (ds : list string) : res darr :=
    let go order := Ok (mkD (map (fun d => (d, coord a d)) order)
                            (fun idx => val a (env order idx))) in
    match ds with
    | [] => go (rev (names a))
    | _ => if nodup_s ds && forallb (fun d => mem d (names a)) ds
              && forallb (fun d => mem d ds) (names a)
           then go ds else Raise EValue
    end.

  (** One pass of the inner loop, outputs.py 1644-1670: [core] are the keys of
      CORE_COORDINATES_DTYPES (global_variables.py 528-536) and [schema] is
      OUTPUT_SCHEMA[sample_name].get("dims",[]). *)
  Definition iter_dims (a : darr) : list string := filter (fun d => mem d ["iter"; "seed"]) (names a).
  Definition sweep_dims (core : list string) (a : darr) : list string :=
    filter (fun d => negb (mem d core)) (names a).
  Definition stack_one (core schema : list string) (a : darr) : res darr :=
    match sweep_dims core a with
    | [] => transpose a (iter_dims a ++ schema)
    | ds => rbind (stack a ds) (fun b => transpose b (iter_dims a ++ schema ++ ["sweep"]))
    end.

  (** The two nested loops over the samples and their arrays, outputs.py
      1637-1675: the first failure aborts the load. *)
  Fixpoint mapr {A B} (f : A -> res B) (l : list A) : res (list B) :=
    match l with
    | [] => Ok []
    | x :: r => rbind (f x) (fun y => rbind (mapr f r) (fun ys => Ok (y :: ys)))
    end.
  Definition stack_sweep_dims (core : list string) (schema : string -> list string)
             (data : list (string * list darr)) : res (list (string * list darr)) :=
    mapr (fun p => rbind (mapr (stack_one core (schema (fst p))) (snd p)) (fun s => Ok (fst p, s))) data.
End Stack.
Arguments mkD {L V}. Arguments d_dims {L V}. Arguments d_at {L V}.
Arguments names {L V}. Arguments coord {L V}. Arguments val {L V}.
Arguments tuples {L}. Arguments stack {L V}. Arguments transpose {L V}.
Arguments iter_dims {L V}. Arguments sweep_dims {L V}. Arguments stack_one {L V}.
Arguments stack_sweep_dims {L V}.

(** CORE_COORDINATES_DTYPES, global_variables.py 528-536. *)
Definition CORE : list string :=
  ["iter"; "time"; "origin"; "destination"; "seed"; "alpha_range"; "beta_range"].
