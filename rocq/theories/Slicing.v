(** Model of the index slicing of samples (burn-in, thinning, trimming),
    outputs.py 437-541. *)
From Coq Require Import List ZArith Lia Bool Arith String Permutation.
From Verif Require Import Base PyMonad.
Import ListNotations.
Local Open Scope Z_scope.

(** A labelled array (xarray.DataArray): its dimensions with their coordinate
    labels, and the value stored under an assignment of labels to dimensions;
    [None] is a NaN produced by unstacking.  Labels are integers. *)
Record array (V : Type) := mkArray {
  a_dims : list (string * list Z);
  a_val : (string -> Z) -> option V
}.
Arguments mkArray {V} _ _.
Arguments a_dims {V} _.
Arguments a_val {V} _ _.

(** One entry of settings['burnin_thinning_trimming']: the names between '+'
    signs and the settings with their defaults (outputs.py 453-460, 475-489). *)
Record islice := mkSlice {
  sl_names : list string;
  sl_burnin : Z;
  sl_thinning : Z;
  sl_trimming : option Z
}.

Definition mem_str (x : string) (l : list string) : bool := existsb (String.eqb x) l.
Definition zs_eqb (a b : list Z) : bool := if list_eq_dec Z.eq_dec a b then true else false.

Definition coords_of {V} (a : array V) (d : string) : list Z :=
  match find (fun p => String.eqb d (fst p)) (a_dims a) with Some p => snd p | None => [] end.

(** numpy.arange for integers (outputs.py 481-486). *)
Definition arange_int (start stop step : Z) : res (list Z) :=
  if step =? 0 then Raise EZeroDiv
  else Ok (map (fun k => start + Z.of_nat k * step)
               (seq 0 (Z.to_nat (- ((start - stop) / step))))).

(** [iters[:trimming]] (outputs.py 488-492). *)
Definition take_trim {A} (t : option Z) (l : list A) : list A :=
  match t with
  | None => l
  | Some m => if 0 <=? m then firstn (Z.to_nat m) l
              else firstn (Z.to_nat (Z.of_nat (List.length l) + m)) l
  end.

(** Positional indexing: negative indices count from the end, anything outside
    raises (the [except] of outputs.py 504-511). *)
Definition resolve (n : Z) (i : Z) : option nat :=
  if (0 <=? i) && (i <? n) then Some (Z.to_nat i)
  else if (- n <=? i) && (i <? 0) then Some (Z.to_nat (i + n)) else None.
Fixpoint resolve_all (n : Z) (l : list Z) : option (list nat) :=
  match l with
  | [] => Some []
  | i :: l' => match resolve n i, resolve_all n l' with
               | Some p, Some ps => Some (p :: ps)
               | _, _ => None
               end
  end.

(** [samples.stack(temp_dim = dims)]: the stacked index runs through the product
    of the coordinates, last dimension fastest (outputs.py 469). *)
Fixpoint product (ls : list (list Z)) : list (list Z) :=
  match ls with
  | [] => [[]]
  | l :: ls' => flat_map (fun x => map (cons x) (product ls')) l
  end.
Definition stacked {V} (a : array V) (ds : list string) : list (list Z) :=
  product (map (coords_of a) ds).

(** [unstack] after [isel]: every stacked dimension keeps, in the old order, the
    labels that still occur; a combination of kept labels that was not selected
    becomes NaN.  xarray moves the unstacked dimensions to the end of the
    dimension list; the model keeps their place (dimensions are addressed by
    name everywhere).  (outputs.py 504-514) *)
Fixpoint index_of (d : string) (ds : list string) : nat :=
  match ds with
  | [] => 0%nat
  | x :: ds' => if String.eqb d x then 0%nat else S (index_of d ds')
  end.
Definition unstack_coords (ds : list string) (kept : list (list Z)) (dim : string * list Z)
  : string * list Z :=
  if mem_str (fst dim) ds
  then (fst dim, filter (fun x => existsb (fun row => nth (index_of (fst dim) ds) row 0 =? x) kept) (snd dim))
  else dim.
Definition select_rows {V} (a : array V) (ds : list string) (kept : list (list Z)) : array V :=
  mkArray (map (unstack_coords ds kept) (a_dims a))
          (fun e => if existsb (zs_eqb (map e ds)) kept then a_val a e else None).

(** DataArray.size. *)
Definition size_of {V} (a : array V) : nat :=
  fold_right (fun p n => (List.length (snd p) * n)%nat) 1%nat (a_dims a).

Fixpoint nodup_nat (l : list nat) : bool :=
  match l with
  | [] => true
  | x :: l' => negb (existsb (Nat.eqb x) l') && nodup_nat l'
  end.

(** One pass of the loop, outputs.py 453-531.  [ord] is the order in which the
    interpreter lists the set intersection at line 462 (it depends on string
    hashing).  Unstacking an index with repeated entries raises ValueError. *)
Definition slice_step {V} (ord : list string -> list string) (st : array V * list string) (s : islice)
  : res (array V * list string) :=
  let '(a, done) := st in
  let ds := ord (filter (fun d => mem_str d (sl_names s)) (map fst (a_dims a))) in
  match ds with
  | [] => Ok st
  | _ =>
    let idx := stacked a ds in
    let total := Z.of_nat (List.length idx) in
    do iters <- arange_int (sl_burnin s) total (sl_thinning s) ;
    let iters := take_trim (sl_trimming s) iters in
    if existsb (fun d => mem_str d done) ds then Ok st
    else match resolve_all total iters with
         | None => Ok st
         | Some ps =>
           if nodup_nat ps then
             let kept := map (fun p => nth p idx []) ps in
             let a' := select_rows a ds kept in
             if (size_of a' <=? 0)%nat then Ok st
             else Ok (a', done ++ ds)
           else Raise EValue
         end
  end.

Fixpoint slice_loop {V} (ord : list string -> list string) (st : array V * list string) (ss : list islice)
  : res (array V * list string) :=
  match ss with
  | [] => Ok st
  | s :: ss' => do st' <- slice_step ord st s ; slice_loop ord st' ss'
  end.

(** The whole function: EmptyData (modelled as [EExn]) when a dimension is empty
    at the end (outputs.py 533-541). *)
Definition slice_by_index {V} (ord : list string -> list string) (a : array V) (ss : list islice)
  : res (array V * list string) :=
  do st <- slice_loop ord (a, []) ss ;
  if existsb (fun p => (List.length (snd p) <=? 0)%nat) (a_dims (fst st)) then Raise EExn
  else Ok st.
