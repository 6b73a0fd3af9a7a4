(** Inputs: the input data container of gensit/inputs.py (class Inputs):
    reading the data files, checking the dimensions, building the cell masks,
    copying, casting to and from xarray and moving to and from the device. *)
From Coq Require Import List String ZArith QArith Bool Arith Lia.
From Verif Require Import Base PyMonad Learning.
Import ListNotations.
Open Scope Q_scope.
Open Scope string_scope.
Open Scope nat_scope.
Open Scope list_scope.

(** * Arrays *)

(** Which library an array belongs to.  A DataArray carries its coordinates. *)
Inductive kind := Np | Torch | Xr (coords : list (string * list nat)).
Inductive dty := TFloat | TInt | TBool.

(** An n-dimensional array: shape and row-major entries.  Entries are exact
    rationals: float32 rounding and int32 overflow are not modelled. *)
Record arr := mkarr { a_kind : kind; a_dtype : dty; a_shape : list nat; a_vals : list Q }.

Definition qtrunc (q : Q) : Z := Z.quot (Qnum q) (Zpos (Qden q)).
Definition qneg (q : Q) : bool := negb (Qle_bool 0 q).
Definition qnonzero (q : Q) : bool := negb (Z.eqb (Qnum q) 0).

(** tensor.to(dtype) / torch.tensor(x, dtype): integers truncate towards zero,
    booleans test for non-zero (inputs.py 273-281, 356-374, 383). *)
Definition to_dtype (t : dty) (q : Q) : Q :=
  match t with
  | TFloat => q
  | TInt => inject_Z (qtrunc q)
  | TBool => if qnonzero q then 1%Q else 0%Q
  end.
Definition cast_arr (k : kind) (t : dty) (a : arr) : arr :=
  mkarr k t (a_shape a) (map (to_dtype t) (a_vals a)).

Definition size (sh : list nat) : nat := fold_right Nat.mul 1 sh.

(** * The attributes of the data object *)

Definition dims := list (string * option nat).
Inductive val :=
| VArr (a : arr)
| VDims (d : dims)
| VMargins (m : list (list Z * arr)).

(** vars(self.data), inputs.py 70-71: attributes in insertion order.  No
    attribute is ever set to None by the modelled code. *)
Definition data := list (string * val).

(** dict lookup and update. *)
Fixpoint aget {V} (k : string) (l : list (string * V)) : option V :=
  match l with [] => None | (k', v) :: r => if String.eqb k k' then Some v else aget k r end.
Fixpoint aset {V} (k : string) (v : V) (l : list (string * V)) : list (string * V) :=
  match l with
  | [] => [(k, v)]
  | (k', v') :: r => if String.eqb k k' then (k, v) :: r else (k', v') :: aset k v r
  end.
Definition dims_of (d : data) : dims :=
  match aget "dims" d with Some (VDims x) => x | _ => [] end.

(** * Schemas, static/global_variables.py 119-126 (PLOT_SCHEMA), 128-200
      (VALIDATION_SCHEMA), 203-330 (TRAIN_SCHEMA), 465 (INPUT_SCHEMA) *)

Record sch := mksch {
  s_axes : list nat; s_dims : list string; s_dtype : dty; s_ndmin : option nat;
  s_positive : bool; s_cast : bool }.

Definition has_dims (s : sch) : bool := match s_dims s with [] => false | _ => true end.

(** {} is None.  An absent "axes"/"dims" key is the empty list, which is what
    schema.get(...,[]) gives; "dims" itself has dtype "dict" and no ndmin. *)
Definition train_schema : list (string * option sch) := [
  ("origin_demand", Some (mksch [0] ["origin"] TFloat (Some 1) true false));
  ("destination_demand", Some (mksch [1] ["destination"] TFloat (Some 1) true false));
  ("origin_attraction_ts", Some (mksch [0] ["origin"] TFloat (Some 2) true false));
  ("destination_attraction_ts", Some (mksch [0; 1] ["destination"; "time"] TFloat (Some 2) true true));
  ("cost_matrix", Some (mksch [0; 1] ["origin"; "destination"] TFloat (Some 2) true false));
  ("total_cost_by_origin", Some (mksch [0] ["origin"] TFloat (Some 1) true false));
  ("ground_truth_table", Some (mksch [0; 1] ["origin"; "destination"] TInt (Some 2) true true));
  ("grand_total", Some (mksch [] [] TFloat (Some 0) true false));
  ("region_features", Some (mksch [] [] TFloat (Some 2) false false));
  ("origin_region_features", Some (mksch [] [] TFloat (Some 2) false false));
  ("destination_region_features", Some (mksch [] [] TFloat (Some 2) false false));
  ("adjacency_matrix", Some (mksch [0; 1] ["origin"; "destination"] TBool (Some 2) true false));
  ("margins", None); ("cells_subset", None);
  ("dims", Some (mksch [] [] TFloat None true false));
  ("to_learn", None); ("true_parameters", None); ("dataset", None)].

Definition cells_sch := Some (mksch [] [] TInt (Some 2) true false).
Definition mask_sch := Some (mksch [0; 1] ["origin"; "destination"] TInt (Some 2) true true).
Definition cell_lists : list string :=
  ["test_cells"; "test_validation_cells"; "validation_cells"; "zero_train_cells"; "train_cells"].
Definition mask_name (x : string) : string := append x "_mask".
Definition validation_schema : list (string * option sch) :=
  flat_map (fun x => [(x, cells_sch); (mask_name x, mask_sch)]) cell_lists.
Definition plot_schema : list (string * option sch) :=
  [("region_geometries", Some (mksch [] [] TFloat (Some 1) false false))].
Definition input_schema := train_schema ++ validation_schema ++ plot_schema.

Definition mem {V} (k : string) (l : list (string * V)) : bool :=
  match aget k l with Some _ => true | None => false end.

(** * Reading *)

(** One entry of settings['inputs']['data']['margins']: the tuplized axis, the
    contents of its file if it exists, and its 'value' if it has one. *)
Record margin_entry := mkme { me_axis : list Z; me_file : option (list Q); me_value : option (list Q) }.

(** The configuration and the file system as far as inputs.py reads them.
    [c_entries]: the keys of settings['inputs']['data'] with what read_file
    (utils/misc_utils.py 196-214) returns when the named file exists; only
    array-valued files are modelled.  [c_dims]: settings['inputs']['dims'].
    [c_margins], [c_cells]: the margins entry; whether a cells_subset entry is
    present and whether its path (dataset/name, without in_directory) exists. *)
Record cfg := mkcfg {
  c_entries : list (string * option arr);
  c_dims : option dims;
  c_margins : option (list margin_entry);
  c_cells : option bool }.

Definition default_dims : dims := [("origin", None); ("destination", None); ("time", None)].

(** The loop updating dims, inputs.py 132-134:
    dims[dim] = int(np.shape(data)[ax]) *)
Fixpoint update_dims (axs : list (nat * string)) (sh : list nat) (ds : dims) : res dims :=
  match axs with
  | [] => Ok ds
  | (ax, dim) :: r =>
    match nth_error sh ax with
    | None => Raise EIndex
    | Some n => update_dims r sh (aset dim (Some n) ds)
    end
  end.

(** dims[k] used as a number: KeyError when absent, TypeError when None. *)
Definition dim_of (ds : dims) (k : string) : res nat :=
  match aget k ds with
  | None => Raise EKey
  | Some None => Raise EType
  | Some (Some n) => Ok n
  end.

(** np.array([[i,j] for i in range(origin) for j in range(destination)]),
    inputs.py 138-142, 149-153. *)
Definition all_cells_arr (ds : dims) : res arr :=
  do nI <- dim_of ds "origin" ;
  match nI with
  | 0 => Ok (mkarr Np TFloat [0] [])
  | _ =>
    do nJ <- dim_of ds "destination" ;
    Ok (mkarr Np TInt (match nJ with 0 => [0] | _ => [nI * nJ; 2] end)
          (flat_map (fun i => flat_map (fun j => [inject_Z (Z.of_nat i); inject_Z (Z.of_nat j)])
             (seq 0 nJ)) (seq 0 nI)))
  end.

(** One iteration of the loop over INPUT_SCHEMA, inputs.py 117-146. *)
Definition load_one (c : cfg) (d : data) (e : string * option sch) : res data :=
  let '(attr, osch) := e in
  match osch with
  | None => Ok d
  | Some s =>
    match aget attr (c_entries c) with
    | None => Ok d
    | Some (Some a) =>
      match s_ndmin s with
      | None => Raise EKey
      | Some _ =>
        if s_positive s && existsb qneg (a_vals a) then Raise EExn else
        do ds <- update_dims (combine (s_axes s) (s_dims s)) (a_shape a) (dims_of d) ;
        Ok (aset "dims" (VDims ds) (aset attr (VArr a) d))
      end
    | Some None =>
      if mem attr validation_schema then
        if String.eqb attr "test_cells" then
          do a <- all_cells_arr (dims_of d) ; Ok (aset attr (VArr a) d)
        else Ok (aset attr (VArr (mkarr Np TFloat [0] [])) d)
      else Raise EExn
    end
  end.

Fixpoint foldM {A B} (f : A -> B -> res A) (l : list B) (a : A) : res A :=
  match l with [] => Ok a | b :: r => do a' <- f a b ; foldM f r a' end.

(** Test cells are initialised when none were read, inputs.py 147-153. *)
Definition init_test_cells (d : data) : res data :=
  match aget "test_cells" d with
  | Some _ => Ok d
  | None => do a <- all_cells_arr (dims_of d) ; Ok (aset "test_cells" (VArr a) d)
  end.

(** Dictionary of margins keyed by axis tuples. *)
Fixpoint mset (k : list Z) (v : arr) (l : list (list Z * arr)) : list (list Z * arr) :=
  match l with
  | [] => [(k, v)]
  | (k', v') :: r => if zlist_eqb k k' then (k, v) :: r else (k', v') :: mset k v r
  end.
Fixpoint mget (k : list Z) (l : list (list Z * arr)) : option arr :=
  match l with [] => None | (k', v) :: r => if zlist_eqb k k' then Some v else mget k r end.

(** One margin, inputs.py 394-414.  When the file exists, torch.any is called
    on a numpy array, which torch rejects with a TypeError. *)
Definition import_margin (m : list (list Z * arr)) (e : margin_entry) : res (list (list Z * arr)) :=
  match me_file e with
  | Some _ => Raise EType
  | None =>
    match me_value e with
    | Some v => Ok (mset (me_axis e) (mkarr Np TFloat [List.length v] v) m)
    | None => Raise EExn
    end
  end.

(** import_margins, inputs.py 391-416. *)
Definition import_margins (c : cfg) (d : data) : res data :=
  match c_margins c with
  | None => Ok d
  | Some l => do m <- foldM import_margin l [] ; Ok (aset "margins" (VMargins m) d)
  end.

(** import_cells_subset, inputs.py 418-462.  When the file exists, np.ones is
    called with the tuple of dimension NAMES, a TypeError. *)
Definition import_cells_subset (c : cfg) (d : data) : res data :=
  match c_cells c, aget "ground_truth_table" d with
  | Some true, None => Raise EType
  | _, _ => Ok d
  end.

(** One (ax,dim) check, inputs.py 77-81: the failed assertion re-raises as a
    plain Exception whose message needs shape[ax] and dims[dim]. *)
Fixpoint check_axes (axs : list (nat * string)) (sh : list nat) (ds : dims) : res unit :=
  match axs with
  | [] => Ok tt
  | (ax, dim) :: r =>
    match nth_error sh ax with
    | None => Raise EIndex
    | Some n =>
      match aget dim ds with
      | None => Raise EKey
      | Some (Some m) => if Nat.eqb n m then check_axes r sh ds else Raise EExn
      | Some None => Raise EExn
      end
    end
  end.

(** validate_dims, inputs.py 73-81. *)
Definition validate_one (d : data) (e : string * option sch) : res unit :=
  let '(attr, osch) := e in
  match osch, aget attr d with
  | Some s, Some (VArr a) => check_axes (combine (s_axes s) (s_dims s)) (a_shape a) (dims_of d)
  | _, _ => Ok tt
  end.
Definition validate_dims (d : data) : res unit :=
  foldM (fun _ e => validate_one d e) train_schema tt.

(** unpack_dims(dims, time_dims=False), utils/misc_utils.py 1124-1135. *)
Definition unpack_dims (ds : dims) : list (option nat) :=
  map snd (filter (fun kv => negb (String.eqb (fst kv) "time")) ds).

Fixpoint pairs_of (l : list Q) : list (Z * Z) :=
  match l with x :: y :: r => (qtrunc x, qtrunc y) :: pairs_of r | _ => [] end.

(** The cells a create_mask index denotes (utils/misc_utils.py 1617-1618):
    iterating the rows of an array and indexing with tuple(row).  A
    one-column row selects a whole table row. *)
Definition cells_of (J : nat) (a : arr) : res (list (Z * Z)) :=
  match a_shape a with
  | [] => Raise EType
  | [n] => if Nat.eqb n 0 then Ok [] else Raise EType
  | [n; 1] => Ok (flat_map (fun q => map (fun j => (qtrunc q, Z.of_nat j)) (seq 0 J)) (a_vals a))
  | [n; 2] => Ok (pairs_of (a_vals a))
  | n :: _ => if Nat.eqb n 0 then Ok [] else Raise EIndex
  end.

Definition mask_arr (I J : nat) (m : grid bool) : arr :=
  mkarr Np TBool [I; J]
    (flat_map (fun i => map (fun j => if m i j then 1%Q else 0%Q) (seq 0 J)) (seq 0 I)).

(** create_mask(shape = unpack_dims(...), index), utils/misc_utils.py
    1614-1619.  Tables with other than two non-time dimensions are not
    modelled. *)
Definition mask_of (ds : dims) (a : arr) : res arr :=
  match unpack_dims ds with
  | [Some nI; Some nJ] =>
    do cs <- cells_of nJ a ; do m <- create_mask nI nJ cs ; Ok (mask_arr nI nJ m)
  | _ => Raise EType
  end.

(** create_cell_masks, inputs.py 224-243, called once by read_data with no
    dataset list; a configuration that names a "_mask" file is not modelled. *)
Definition mask_one (d : data) (x : string) : res data :=
  match aget x d with
  | Some (VArr a) => do m <- mask_of (dims_of d) a ; Ok (aset (mask_name x) (VArr m) d)
  | _ => Ok d
  end.
Definition create_cell_masks (d : data) : res data := foldM mask_one cell_lists d.

(** The grand total, inputs.py 170-174. *)
Definition qsum (l : list Q) : Q := fold_right Qplus 0%Q l.
Definition set_grand_total (d : data) : data :=
  match aget "ground_truth_table" d with
  | Some (VArr t) => aset "grand_total" (VArr (mkarr Np TFloat [] [qsum (a_vals t)])) d
  | _ => d
  end.

(** read_data, inputs.py 103-175 (up to the parameter settings, which
    [SIM.update_delta_and_kappa] and [true_parameters] below model). *)
Definition read_data (c : cfg) : res data :=
  let d0 := [("dims", VDims (match c_dims c with Some x => x | None => default_dims end))] in
  do d1 <- foldM (load_one c) input_schema d0 ;
  do d2 <- init_test_cells d1 ;
  do d3 <- import_margins c d2 ;
  do d4 <- import_cells_subset c d3 ;
  do _ <- validate_dims d4 ;
  do d5 <- create_cell_masks d4 ;
  Ok (set_grand_total d5).

(** The parameters held fixed, inputs.py 178-195: every default that is not
    learned, overridden by the spatial_interaction_model settings and then by
    the harris_wilson_model settings; lines 198-202 then set delta and kappa
    whether or not they are learned ([delta], [kappa] are the resolved values). *)
Definition parameter_defaults : list (string * Q) :=
  [("alpha", 1 # 2); ("beta", 1 # 2); ("delta", 1 # 10); ("kappa", 1); ("epsilon", 1);
   ("bmax", 1); ("noise_percentage", 3); ("sigma", 0); ("dt", 1 # 1000)]%Q.
Definition memb (k : string) (l : list string) : bool := existsb (String.eqb k) l.
Definition true_parameters (sim hw : list (string * Q)) (learn : list string) (delta kappa : Q)
  : list (string * Q) :=
  let base := map (fun kv => (fst kv,
      match aget (fst kv) hw with
      | Some v => v
      | None => match aget (fst kv) sim with Some v => v | None => snd kv end
      end))
    (filter (fun kv => negb (memb (fst kv) learn)) parameter_defaults) in
  aset "kappa" kappa (aset "delta" delta base).

(** * Copying *)

(** data_vars, inputs.py 70-71. *)
Definition data_vars (d : data) : data := filter (fun kv => mem (fst kv) input_schema) d.

(** copy, inputs.py 83-101: None and [] both mean every dataset. *)
Definition adel {V} (k : string) (l : list (string * V)) : list (string * V) :=
  filter (fun kv => negb (String.eqb k (fst kv))) l.
Definition copy (d : data) (sel : list string) : data :=
  let interest := filter (fun k => mem k d) (map fst input_schema) in
  let keep := match sel with [] => interest | _ => filter (fun k => memb k interest) sel end in
  fold_left (fun acc k => if memb k keep then acc else adel k acc)
    (map fst (data_vars d)) d.

(** * xarray *)

Definition castable : list (string * sch) :=
  flat_map (fun e => match snd e with Some s => if s_cast s then [(fst e, s)] else [] | None => [] end)
    input_schema.

(** datasets = set(datasets) & keys, or every key for None/[] (inputs.py
    253-255, 297-299).  A set's order is arbitrary; the schema's is used. *)
Definition chosen (sel : list string) : list (string * sch) :=
  match sel with [] => castable | _ => filter (fun e => memb (fst e) sel) castable end.

Fixpoint shape_eqb (a b : list nat) : bool :=
  match a, b with
  | [], [] => true
  | x :: a', y :: b' => Nat.eqb x y && shape_eqb a' b'
  | _, _ => false
  end.

Fixpoint mapM {A B} (f : A -> res B) (l : list A) : res (list B) :=
  match l with [] => Ok [] | x :: r => do y <- f x ; do ys <- mapM f r ; Ok (y :: ys) end.

(** cast_to_xarray, inputs.py 290-349, for data in cpu memory.  Coordinates
    run from 1 to the dimension's size; xarray rejects (ValueError) data whose
    shape is not the shape of the coordinates. *)
Definition to_xr_one (d : data) (e : string * sch) : res data :=
  let '(x, s) := e in
  match aget x d with
  | Some (VArr a) =>
    match a_kind a with
    | Xr _ => Ok d
    | _ =>
      do ns <- mapM (dim_of (dims_of d)) (s_dims s) ;
      if shape_eqb ns (a_shape a)
      then Ok (aset x (VArr (mkarr (Xr (combine (s_dims s) (map (fun n => seq 1 n) ns)))
                               (a_dtype a) (a_shape a) (a_vals a))) d)
      else Raise EValue
    end
  | _ => Ok d
  end.
Definition cast_to_xarray (sel : list string) (d : data) : res data :=
  foldM to_xr_one (chosen sel) d.

(** cast_from_xarray, inputs.py 246-288: tensors are kept, anything but a
    DataArray raises CastingException, a missing dataset raises MissingData,
    and the values are stored with dtype int32. *)
Definition from_xr_one (d : data) (e : string * sch) : res data :=
  let '(x, _) := e in
  match aget x d with
  | Some (VArr a) =>
    match a_kind a with
    | Torch => Ok d
    | Np => Raise EExn
    | Xr _ => Ok (aset x (VArr (cast_arr Torch TInt a)) d)
    end
  | _ => Raise EExn
  end.
Definition cast_from_xarray (sel : list string) (d : data) : res data :=
  foldM from_xr_one (chosen sel) d.

(** * Device *)

Record inputs := mkinputs {
  i_data : data; i_on_device : bool; i_params : list (string * (bool * Q)) }.

Definition is_kind (k : kind) (a : arr) : bool :=
  match k, a_kind a with Np, Np => true | Torch, Torch => true | _, _ => false end.

(** torch.from_numpy(x).to(dtype) reshaped to its dims, inputs.py 353-380. *)
Definition pass_one (d : data) (e : string * option sch) : res data :=
  let '(x, osch) := e in
  if memb x ["dims"; "grand_total"; "margins"; "true_parameters"] then Ok d else
  match aget x d with
  | Some (VArr a) =>
    match osch with
    | None => Raise EKey
    | Some s =>
      if is_kind Np a then
        if has_dims s then
          do ns <- mapM (dim_of (dims_of d)) (s_dims s) ;
          if Nat.eqb (size ns) (List.length (a_vals a))
          then Ok (aset x (VArr (mkarr Torch (s_dtype s) ns (map (to_dtype (s_dtype s)) (a_vals a)))) d)
          else Raise EExn
        else Ok (aset x (VArr (cast_arr Torch (s_dtype s) a)) d)
      else Raise EType
    end
  | _ => Ok d
  end.

(** inputs.py 381-382: torch.squeeze *)
Definition squeeze_lda (d : data) : res data :=
  match aget "log_destination_attraction" d with
  | Some (VArr a) =>
    if is_kind Torch a then
      Ok (aset "log_destination_attraction"
        (VArr (mkarr Torch (a_dtype a) (filter (fun n => negb (Nat.eqb n 1)) (a_shape a)) (a_vals a))) d)
    else Raise EType
  | _ => Ok d
  end.

(** inputs.py 383-386 *)
Definition pass_grand (d : data) : data :=
  match aget "grand_total" d with
  | Some (VArr a) => aset "grand_total" (VArr (cast_arr Torch TFloat a)) d
  | _ => d
  end.
Definition pass_margins (d : data) : data :=
  match aget "margins" d with
  | Some (VMargins m) =>
    aset "margins" (VMargins (map (fun ka => (fst ka, cast_arr Torch TInt (snd ka))) m)) d
  | _ => d
  end.

(** pass_to_device, inputs.py 350-389. *)
Definition pass_to_device (i : inputs) : res inputs :=
  if i_on_device i then Ok (mkinputs (i_data i) true (i_params i)) else
  do d1 <- foldM pass_one train_schema (i_data i) ;
  do d2 <- squeeze_lda d1 ;
  let d3 := pass_margins (pass_grand d2) in
  Ok (mkinputs d3 true (map (fun kv => (fst kv, (true, snd (snd kv)))) (i_params i))).

(** x.cpu().detach().numpy(), only tensors have it. *)
Definition recv (d : data) (x : string) : res data :=
  match aget x d with
  | Some (VArr a) =>
    if is_kind Torch a
    then Ok (aset x (VArr (mkarr Np (a_dtype a) (a_shape a) (a_vals a))) d)
    else Raise EAttr
  | _ => Ok d
  end.
(** ... followed by reshape(unpack_dims(data,time_dims=False)). *)
Fixpoint somes (l : list (option nat)) : option (list nat) :=
  match l with
  | [] => Some []
  | Some n :: r => option_map (cons n) (somes r)
  | None :: _ => None
  end.
Definition recv_reshaped (d : data) (x : string) : res data :=
  match aget x d with
  | Some (VArr a) =>
    if is_kind Torch a then
      match somes (unpack_dims (dims_of d)) with
      | None => Raise EType
      | Some sh =>
        if Nat.eqb (size sh) (List.length (a_vals a))
        then Ok (aset x (VArr (mkarr Np (a_dtype a) sh (a_vals a))) d)
        else Raise EValue
      end
    else Raise EAttr
  | _ => Ok d
  end.
Definition recv_margins (d : data) : res data :=
  match aget "margins" d with
  | Some (VMargins m) =>
    do m' <- mapM (fun ka : list Z * arr => if is_kind Torch (snd ka)
                     then Ok (fst ka, mkarr Np (a_dtype (snd ka)) (a_shape (snd ka)) (a_vals (snd ka)))
                     else Raise EAttr) m ;
    Ok (aset "margins" (VMargins m') d)
  | _ => Ok d
  end.

(** receive_from_device, inputs.py 464-490. *)
Definition receive_from_device (i : inputs) : res inputs :=
  if i_on_device i then
    do d1 <- foldM recv ["origin_demand"; "destination_attraction_ts"; "log_destination_attraction";
                         "origin_attraction_ts"] (i_data i) ;
    do d2 <- recv_reshaped d1 "cost_matrix" ;
    do d3 <- recv d2 "grand_total" ;
    do d4 <- recv_margins d3 ;
    do d5 <- recv d4 "total_cost_by_origin" ;
    do d6 <- recv_reshaped d5 "ground_truth_table" ;
    do ps <- mapM (fun kv : string * (bool * Q) => if fst (snd kv) then Ok (fst kv, (false, snd (snd kv)))
                                else Raise EAttr) (i_params i) ;
    Ok (mkinputs d6 false ps)
  else Ok (mkinputs (i_data i) false (i_params i)).
