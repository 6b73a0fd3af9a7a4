(** LoadOutputs: from the file of a run back to labelled arrays, gensit/outputs.py
    552-689 (load_h5_data, read_h5_file), 821-877 (the coordinates of
    load_single), 1000-1010 (the attributes of the file), utils/misc_utils.py
    338-354 (parse), 672-678 (stringify_coordinate), 1053-1056
    (string_to_numeric).  Entries are opaque: the conversion to the dtype of
    the schema is not modelled. *)
From Coq Require Import List String ZArith QArith Bool Arith Lia.
From Verif Require Import Base PyMonad Inputs Recorder Evaluate.
Import ListNotations.
Open Scope Q_scope.
Open Scope string_scope.
Open Scope nat_scope.
Open Scope list_scope.

(** * Coordinates *)

(** Values of a coordinate: row numbers, numbers (in units of 1e-5, to which
    they are rounded) and texts. *)
Inductive cval := CRow (n : nat) | CNum (z : Z) | CText (s : string).

(** np.round(x, 5): the nearest multiple of 1e-5, ties to the even one. *)
Definition rint (q : Q) : Z :=
  let f := (Qnum q / Zpos (Qden q))%Z in
  let r := (Qnum q mod Zpos (Qden q))%Z in
  if (2 * r <? Zpos (Qden q))%Z then f
  else if (2 * r >? Zpos (Qden q))%Z then (f + 1)%Z
  else if Z.even f then f else (f + 1)%Z.
Definition round5 (q : Q) : Z := rint (q * 100000).

(** COORDINATES_DTYPES, global_variables.py 494-541. *)
Inductive cdtype := DInt | DFloat | DStr | DObject.
Definition coordinate_dtypes : list (string * cdtype) :=
  [("iter", DInt); ("time", DInt); ("origin", DInt); ("destination", DInt); ("seed", DInt);
   ("alpha_range", DInt); ("beta_range", DInt);
   ("N", DInt); ("dataset", DStr); ("covariance", DStr); ("step_size", DFloat); ("to_learn", DObject);
   ("alpha", DFloat); ("beta", DFloat); ("noise_percentage", DFloat); ("delta", DFloat); ("kappa", DFloat);
   ("sigma", DObject); ("title", DStr); ("axes", DObject); ("cells", DStr); ("loss_name", DObject);
   ("loss_function", DObject); ("loss_kwargs", DObject); ("name", DStr); ("table_steps", DInt); ("bmax", DFloat);
   ("cost_matrix", DStr); ("adjacency_matrix", DStr); ("region_features", DStr); ("origin_region_features", DStr);
   ("destination_region_features", DStr); ("destination_attraction_ts", DStr); ("proposal", DStr);
   ("train_cells", DStr); ("test_cells", DStr); ("validation_cells", DStr); ("gat_multitask_weights", DStr)].

(** * The file *)

(** A dataset: name, shape and entries in row-major order. *)
Record dset := mkds { ds_name : string; ds_shape : list nat; ds_vals : list Z }.
(** A group: the attributes sweep_params and sweep_values (texts) if both are
    there, and the datasets in the order of the file (by name). *)
Record group := mkgroup { g_sweep : option (list (string * string)); g_sets : list dset }.
(** data.h5: missing, in use by another process, or its groups. *)
Inductive h5 := Missing | InUse | File (groups : list group).

(** OUTPUT_SCHEMA, global_variables.py 307-463: whether the samples are
    iterable (None when the entry does not say) and the further dimensions. *)
Definition out_dims (x : string) : list string :=
  if memb x ["intensity"; "table"] then ["origin"; "destination"]
  else if String.eqb x "log_destination_attraction" then ["destination"; "time"]
  else if memb x ["r2"; "log_posterior_approximation"] then ["alpha_range"; "beta_range"] else [].
Definition out_iterable (x : string) : res bool :=
  if memb x output_schema then
    if memb x ["r2"; "log_posterior_approximation"] then Ok false
    else if String.eqb x "log_origin_attraction" then Raise EKey else Ok true
  else Raise EKey.

(** A labelled array: coordinates in the order of the axes, and entries. *)
Record larr := mkla { l_coords : list (string * list cval); l_vals : list Z }.

Section Load.
(** np.float32(text): the number that a text stands for, if any. *)
Variable reading : string -> option Q.

(** parse of a text with default None (misc_utils.py 338-348); None becomes the
    text 'None' in an array of texts. *)
Definition parse_text (s : string) : cval :=
  if String.eqb s "" then CText "None"
  else match reading s with Some q => CNum (round5 q) | None => CText s end.
(** np.array([v], dtype), outputs.py 574-582, followed by parse and
    stringify_coordinate, outputs.py 844-847, which turn numbers written as
    texts into numbers again. *)
Definition cast (t : cdtype) (v : cval) : res cval :=
  match t, v with
  | DInt, CNum z => Ok (CNum (Z.quot z 100000 * 100000))
  | DInt, CText _ => Raise EValue
  | DFloat, CText _ => Raise EValue
  | _, _ => Ok v
  end.
Definition coordinate (k text : string) : res (list cval) :=
  match aget k coordinate_dtypes with
  | None => Raise EKey
  | Some t => do v <- cast t (parse_text text) ; Ok [v]
  end.

(** np.arange(1, n+1) *)
Definition labels (n : nat) : list cval := map CRow (seq 1 n).

(** read_h5_file, outputs.py 632-676: the coordinates of one dataset. *)
Fixpoint add_dims (shape : list nat) (dims : list string) (g : list (string * list cval)) : res (list (string * list cval)) :=
  match dims with
  | [] => Ok g
  | d :: ds => match shape with
               | [] => Raise EIndex
               | n :: sh => add_dims sh ds (aset d (labels n) g)
               end
  end.
Definition read_one (names : list string) (st : list (string * list cval) * list (string * list Z)) (d : dset)
  : res (list (string * list cval) * list (string * list Z)) :=
  if negb (memb (ds_name d) names) then Ok st else
  do it <- out_iterable (ds_name d) ;
  do g <- (if it then match ds_shape d with
                      | [] => Raise EIndex
                      | n :: sh => add_dims sh (out_dims (ds_name d)) (aset "iter" (labels n) (fst st))
                      end
           else add_dims (ds_shape d) (out_dims (ds_name d)) (fst st)) ;
  Ok (g, aset (ds_name d) (ds_vals d) (snd st)).
(** read_h5_file, outputs.py 611-689: the first group of the file; any error is
    a CorruptedFileRead. *)
Definition read_h5 (names : list string) (gs : list group)
  : res (list (string * string) * (list (string * list cval) * list (string * list Z))) :=
  match gs with
  | [] => Raise EExn
  | g :: _ =>
      do r <- foldM (read_one names) (g_sets g) ([], []) ;
      Ok (match g_sweep g with Some l => l | None => [] end, r)
  end.

(** One sample of load_h5_data, outputs.py 586-607. *)
Fixpoint picks (g : list (string * list cval)) (ks : list string) : res (list (string * list cval)) :=
  match ks with
  | [] => Ok []
  | k :: r => match aget k g with
              | None => Raise EKey
              | Some v => do l <- picks g r ; Ok ((k, v) :: l)
              end
  end.
Definition merged (l1 l2 : list (string * list cval)) : list (string * list cval) :=
  fold_left (fun acc kv => aset (fst kv) (snd kv) acc) l2 l1.
Definition lsize (l : list (string * list cval)) : nat := fold_right (fun kv n => List.length (snd kv) * n) 1 l.
Definition load_sample (local global : list (string * list cval)) (e : string * list Z) : res (string * larr) :=
  do it <- out_iterable (fst e) ;
  do gl <- picks global ((if it then ["iter"] else []) ++ out_dims (fst e)) ;
  let cs := merged (filter (fun kv => negb (String.eqb (fst kv) (fst e))) local) gl in
  if Nat.eqb (List.length (snd e)) (lsize cs) then Ok (fst e, mkla cs (snd e)) else Raise EValue.

(** load_h5_data, outputs.py 552-609, with the coordinates that load_single
    gives to the arrays. *)
Definition load_h5 (names : list string) (f : h5) : res (list (string * larr)) :=
  match f with
  | Missing | InUse => Ok []
  | File gs =>
      match read_h5 names gs with
      | Raise _ => Ok []
      | Ok (sweep, (global, vars)) =>
          do local <- foldM (fun acc kv => do v <- coordinate (fst kv) (snd kv) ; Ok (aset (fst kv) v acc)) sweep [] ;
          mapM (load_sample local global) vars
      end
  end.
End Load.

(** * The file that a run leaves (experiments.py 517-651, outputs.py 1000-1010):
      one dataset per name, whose rows are those of the recorder's store, each
      with the cells [cells x row]. *)
Definition cell_count (sizes : string -> nat) (x : string) : nat := fold_right (fun d n => sizes d * n) 1 (out_dims x).
Definition dataset_of (sizes : string -> nat) (cells : string -> Z -> list Z) (st : store) (x : string) : dset :=
  mkds x (List.length (st x) :: map sizes (out_dims x)) (flat_map (cells x) (st x)).
Definition file_of (sizes : string -> nat) (cells : string -> Z -> list Z) (sweep : list (string * string))
    (names : list string) (st : store) : h5 :=
  File [mkgroup (Some sweep) (map (dataset_of sizes cells st) names)].
