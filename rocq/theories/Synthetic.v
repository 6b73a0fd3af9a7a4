(** Synthetic: generating a synthetic dataset and storing it, gensit/inputs.py
    614-852 (generate_synthetic_data, sde_solver_in_sequence,
    sde_potential_in_sequence), utils/probability_utils.py 302-345
    (random_vector), utils/misc_utils.py 730-741 (set_seed),
    experiments.py 853-873 (DataGeneration).
    float32 rounding, logging, [to_learn] (taken empty) and a single
    destination (for which the time series loses an axis) are not modelled. *)
From Coq Require Import List String ZArith Reals Bool Arith Lia Lra.
From Verif Require Import Base RealBase PyMonad ProbUtils SIM Inputs StartUp.
Import ListNotations.
Open Scope string_scope.
Open Scope nat_scope.
Open Scope R_scope.
Open Scope list_scope.

(** * Configuration *)

(** inputs.data.<dataset>: how it is to be drawn, probability_utils.py 303-345. *)
Inductive dist := Uniform (l u : R) | Normal (m s : R) | Poisson (lam : R) | OtherDist.
(** A value of inputs.data: the description of a distribution, the dimensions,
    or anything else. *)
Inductive entry := EDist (d : dist) | EDims (d : list (string * nat)) | EOther.
Inductive method := SdeSolver | SdePotential | OtherMethod.

(** The settings read by the generation, inputs.py 62-64, 627-631, 673-689, 814-816. *)
Record cfg := mkcfg {
  c_data : list (string * entry);          (* inputs.data, in file order *)
  c_seed : option Z;                       (* inputs.data.data_generation_seed *)
  c_method : method; c_samples : nat;      (* synthesis_method, synthesis_n_samples *)
  c_steps : nat;                           (* training.num_steps *)
  c_production : bool;                     (* ProductionConstrained or TotallyConstrained *)
  c_alpha : option R; c_beta : option R; c_bmax : option R;
  c_delta : option R; c_kappa : option R; c_epsilon : option R; c_sigma : option R;
  c_dt : option R;                         (* harris_wilson_model.dt *)
  c_total : option nat;                    (* spatial_interaction_model.grand_total *)
  c_overwrite : bool }.                    (* experiments[0].overwrite *)

(** An array: shape and row-major entries. *)
Record farr := FA { f_shape : list nat; f_val : vec }.

(** The parameters of the generating model, true_parameters. *)
Record params := mkpar { p_alpha : R; p_beta : R; p_hw : hw }.

(** * Sources of randomness: numpy's and torch's global generators, and the
      optimiser (torch_optimize, which is not modelled). *)
Record source := mksource {
  np : Type; th : Type;
  np_seed : Z -> np; th_seed : Z -> th;                   (* np.random.seed, torch.random.manual_seed *)
  np_normal : R -> R -> nat -> np -> vec * np;            (* np.random.normal(loc, scale, size) *)
  np_poisson : R -> nat -> np -> vec * np;
  th_normal : nat -> th -> vec * th;                      (* torch.normal(0,1,size=(n,1)) *)
  th_multinomial : nat -> nat -> vec -> th -> (nat -> nat) * th;  (* Multinomial(total, probs).sample() *)
  minimum : nat -> nat -> mat -> params -> vec }.         (* argmin of the potential, inputs.py 832-852 *)

(** set_seed, misc_utils.py 730-741: None leaves both generators alone. *)
Definition set_seed (G : source) (s : option Z) (st : np G * th G) : np G * th G :=
  match s with Some z => (np_seed G z, th_seed G z) | None => st end.

(** random_vector, probability_utils.py 302-345: np.random.uniform has no
    keyword dtype, so that branch raises. *)
Definition random_vector (G : source) (d : dist) (n : nat) (s : np G) : res (vec * np G) :=
  match d with
  | Uniform l u => if Rltb u l then Raise EValue else Raise EType
  | Normal m sd => Ok (np_normal G m sd n s)
  | Poisson lam => Ok (np_poisson G lam n s)
  | OtherDist => Raise EValue
  end.

(** [self.data.dims[name] for name in TRAIN_SCHEMA[key]["dims"]], inputs.py 639 and 750. *)
Definition dim (dims : list (string * nat)) (n : string) : res nat :=
  match aget n dims with Some v => Ok v | None => Raise EKey end.
Definition shape_of (dims : list (string * nat)) (key : string) : res (list nat) :=
  match aget key train_schema with
  | Some (Some s) => if has_dims s then mapM (dim dims) (s_dims s) else Raise EKey
  | _ => Raise EKey
  end.

(** data = np.abs(...); data /= np.sum(data), inputs.py 636-644.  A zero sum
    gives nan in numpy and zero here. *)
Definition normalised (n : nat) (v : vec) : vec := fun k => Rabs (v k) / rsum n (fun i => Rabs (v i)).

(** One pass of the loop of inputs.py 633-646. *)
Definition is_train (k : string) : bool :=
  memb k (map fst train_schema) && negb (memb k ["cost_matrix"; "dims"]).
Definition draw_one (G : source) (dims : list (string * nat))
    (st : list (string * farr) * np G) (e : string * entry) : res (list (string * farr) * np G) :=
  if is_train (fst e) then
    match snd e with
    | EDist d =>
        do sh <- shape_of dims (fst e) ;
        do vs <- random_vector G d (size sh) (snd st) ;
        Ok (aset (fst e) (FA sh (normalised (size sh) (fst vs))) (fst st), snd vs)
    | _ => Raise EType
    end
  else Ok st.

(** The cost matrix, inputs.py 648-665: rows origins, columns destinations. *)
Definition raw_cost (I J : nat) (v : vec) : mat :=
  fun i j => if Nat.eqb I J then Rabs (v (i * J + j)%nat) + Rabs (v (j * J + i)%nat)
             else Rabs (v (i * J + j)%nat).
Definition cost_max (I J : nat) (c : mat) : R := rmax (I * J) (flat2 J c).
Definition scaled_cost (I J : nat) (c : mat) : mat := fun i j => c i j / cost_max I J c.
(** total_cost_by_origin, inputs.py 658 and 666 (before the costs are scaled). *)
Definition origin_share (I J : nat) (c : mat) : vec := fun i => rsum J (c i) / rsum2 I J c.

(** true_parameters, inputs.py 668-682, PARAMETER_DEFAULTS global_variables.py
    23-33.  harris_wilson_model.dt is not among the parameters read, so dt is
    the default 0.001 whatever the configuration says. *)
Definition orD {A} (o : option A) (d : A) : A := match o with Some x => x | None => d end.
Definition rmin (n : nat) (f : vec) : R := - rmax n (fun k => - f k).
Definition true_parameters (c : cfg) (J : nat) (w : vec) (flow : R) : params :=
  let dk := update_delta_and_kappa (orD (c_delta c) (-1)) (orD (c_kappa c) (-1)) J (rmin J w) (rsum J w) flow in
  mkpar (orD (c_alpha c) (1 / 2)) (orD (c_beta c) (1 / 2) * orD (c_bmax c) 1)
        (HW (snd dk) (fst dk) (orD (c_epsilon c) 1) (orD (c_sigma c) 0) (1 / 1000)).

(** What is written back to the configuration: missing alpha, beta, bmax by the
    intensity model (spatial_interaction_models/__init__.py 99-107), then
    every parameter that the configuration holds by update_hyperparameters
    (HarrisWilsonModel.py 108-146) with the value of true_parameters. *)
Definition over {A} (o : option A) (v : A) : option A := match o with Some _ => Some v | None => None end.
Definition stored_cfg (c : cfg) (p : params) : cfg :=
  mkcfg (c_data c) (c_seed c) (c_method c) (c_samples c) (c_steps c) (c_production c)
    (Some (p_alpha p)) (Some (p_beta p)) (Some (orD (c_bmax c) 1))
    (over (c_delta c) (delta (p_hw p))) (over (c_kappa c) (kappa (p_hw p)))
    (over (c_epsilon c) (epsilon (p_hw p))) (over (c_sigma c) (sigma (p_hw p)))
    (over (c_dt c) (dt (p_hw p))) (c_total c) (c_overwrite c).

(** The model's flows at total one (log_intensity). *)
Definition log_flow (production : bool) (I J : nat) (O : vec) (c : mat) (p : params) (x : vec) : mat :=
  if production then pc_log_flow I J O c 1 x (p_alpha p) (p_beta p)
  else tc_log_flow I J c 1 x (p_alpha p) (p_beta p).

(** The normal draws of one run: one vector per step (HarrisWilsonModel.py 400). *)
Fixpoint noise (G : source) (steps J : nat) (s : th G) : list vec * th G :=
  match steps with
  | O => ([], s)
  | S k => let (x, s1) := th_normal G J s in let (r, s2) := noise G k J s1 in (x :: r, s2)
  end.

(** One run of the solver with seed=instance (inputs.py 789-805): the generators
    are re-seeded with the number of the instance (HarrisWilsonModel.py 435-436). *)
Definition one_run (G : source) (I J steps : nat) (h : hw) (lf : vec -> mat) (w0 : vec) (k : nat) : list vec :=
  run_states I h lf (fst (noise G steps J (th_seed G (Z.of_nat k)))) w0.
(** sde_solver_in_sequence, inputs.py 782-808: mean over the instances of the
    state at step t. *)
Definition mean_state (G : source) (I J steps n : nat) (h : hw) (lf : vec -> mat) (w0 : vec) (t : nat) : vec :=
  fun j => rsum n (fun k => nth t (one_run G I J steps h lf w0 k) (fun _ => 0) j) / INR n.

(** What the two methods return: the time series (one row per state) or, for
    sde_potential (inputs.py 810-852), a single vector of attractions.  With no
    step the series is squeezed to a vector as well. *)
Inductive series := Rows (last : vec) | Flat (w : vec).
Definition simulate (G : source) (c : cfg) (I J time : nat) (cost : mat) (p : params)
    (lf : vec -> mat) (w0 : vec) (st : np G * th G) : res (series * (np G * th G)) :=
  match c_method c with
  | SdeSolver =>
      match c_samples c with
      | O => Raise EExn                                   (* torch.stack of nothing *)
      | S n =>
          if negb (Nat.eqb time 1) && negb (Nat.eqb (c_steps c) 0) then Raise EExn (* run_single reshapes to (J,time) *)
          else
            let w := mean_state G I J (c_steps c) (S n) (p_hw p) lf w0 (c_steps c) in
            Ok (if Nat.eqb (c_steps c) 0 then Flat w else Rows w,
                (np_seed G (Z.of_nat n), snd (noise G (c_steps c) J (th_seed G (Z.of_nat n)))))
      end
  | SdePotential => Ok (Flat (minimum G I J cost p), st)
  | OtherMethod => Raise EExn
  end.

(** destination_attraction_ts[-data_time_steps:].T, inputs.py 713-716. *)
Definition stored_attraction (J time : nat) (s : series) : farr :=
  match s with
  | Rows w => FA [J; 1%nat] w
  | Flat w => FA [Nat.min time J] (fun k => w (J - Nat.min time J + k)%nat)
  end.

(** The probabilities of the cells, inputs.py 719-729.  For a vector, [-1:] is
    the attraction of the last destination alone: with I <> J it does not fit
    the model, with I = J it is repeated for all destinations. *)
Definition cell_probs (I J : nat) (cost : mat) (lf : vec -> mat) (s : series) : res mat :=
  if negb (Nat.eqb I J) then
    match s with
    | Rows w => Ok (fun i j => exp (lf (fun j => ln (w j)) i j))
    | Flat _ => Raise EExn
    end
  else
    let w := match s with Rows w => w | Flat w => fun _ => w (J - 1)%nat end in
    let li := fun i j => ln (w j / cost i j) in
    Ok (fun i j => exp (li i j - lse2 I J li)).

(** unpack_dims, misc_utils.py 1124-1135 *)
Definition unpack (dims : list (string * nat)) (time : bool) : list nat :=
  map snd (filter (fun d => negb (String.eqb (fst d) "time") || time) dims).
Definition flatten (J : nat) (m : mat) : vec := flat2 J m.

(** adjacency_matrix is a boolean on the device, pass_to_device inputs.py 350-389. *)
Definition device_cast (e : string * farr) : string * farr :=
  if String.eqb (fst e) "adjacency_matrix"
  then (fst e, FA (f_shape (snd e)) (fun k => if Req_EM_T (f_val (snd e) k) 0 then 0 else 1))
  else e.

Record out (G : source) := mkout {
  o_dims : list (string * nat);
  o_data : list (string * farr);       (* vars(self.data) without dims and grand_total *)
  o_probs : mat;                       (* the probabilities the table is drawn with *)
  o_cfg : cfg;                         (* the configuration as written to config.json *)
  o_state : np G * th G }.
Arguments mkout {G}. Arguments o_dims {G}. Arguments o_data {G}. Arguments o_probs {G}.
Arguments o_cfg {G}. Arguments o_state {G}.

Definition the_dims (c : cfg) : res (list (string * nat)) :=
  match aget "dims" (c_data c) with Some (EDims d) => Ok d | Some _ => Raise EType | None => Raise EKey end.
Definition the_cost (c : cfg) : res dist :=
  match aget "cost_matrix" (c_data c) with Some (EDist d) => Ok d | Some _ => Raise EType | None => Raise EKey end.

(** generate_synthetic_data up to the files, inputs.py 614-746. *)
Definition generate (G : source) (c : cfg) (st : np G * th G) : res (out G) :=
  let st0 := set_seed G (c_seed c) st in
  do dims <- the_dims c ;
  do dn <- foldM (draw_one G dims) (c_data c) ([], fst st0) ;
  do d <- the_cost c ;
  do no <- dim dims "origin" ;
  do nd <- dim dims "destination" ;
  do cs <- random_vector G d (no * nd) (snd dn) ;
  let raw := raw_cost no nd (fst cs) in
  let cost := scaled_cost no nd raw in
  let d1 := aset "total_cost_by_origin" (FA [no] (origin_share no nd raw))
              (aset "cost_matrix" (FA [no; nd] (flatten nd cost)) (fst dn)) in
  match aget "destination_attraction_ts" d1 with
  | None => Raise EAttr
  | Some w0 =>
      let flow := match aget "origin_demand" d1 with Some o => rsum no (f_val o) | None => 1 end in
      let p := true_parameters c nd (f_val w0) flow in
      do od <- match aget "origin_demand" d1 with
              | Some o => Ok (f_val o)
              | None => if c_production c then Raise EExn else Ok (fun _ => 0)
              end ;
      do time <- dim dims "time" ;
      let lf := log_flow (c_production c) no nd od cost p in
      do ss <- simulate G c no nd time cost p lf (f_val w0) (snd cs, snd st0) ;
      do pr <- cell_probs no nd cost lf (fst ss) ;
      if negb (Nat.eqb (size (unpack dims true)) (no * nd)) then Raise EExn else
      if negb (Nat.eqb (size (unpack dims false)) (no * nd)) then Raise EExn else
      let ts := th_multinomial G (orD (c_total c) 1%nat) (no * nd) (flatten nd pr) (snd (snd ss)) in
      let table := FA (unpack dims false) (fun k => INR (fst ts k)) in
      let d2 := map device_cast (aset "destination_attraction_ts" (stored_attraction nd time (fst ss)) d1) in
      let d3 := aset "ground_truth_table" table
                  (aset "cost_matrix" (FA (unpack dims false) (flatten nd cost)) d2) in
      Ok (mkout dims d3 pr (stored_cfg c p) (fst (snd ss), snd ts))
  end.

(** * Files *)

Inductive content := FNum (a : farr) | FCfg (c : cfg).
Record fs := mkfs { fs_dirs : list string; fs_files : list (string * content) }.

(** The name of the dataset, inputs.py 748-750: [key] is the variable of the
    loop of line 633, that is the last key of inputs.data. *)
Fixpoint xjoin (l : list string) : string :=
  match l with [] => "" | [x] => x | x :: r => (x ++ "x" ++ xjoin r)%string end.
Definition last_key (c : cfg) : option string :=
  match rev (map fst (c_data c)) with [] => None | k :: _ => Some k end.
Definition dataset_name (c : cfg) (dims : list (string * nat)) : res string :=
  match last_key c with
  | None => Raise EUnbound
  | Some k =>
      do sh <- shape_of dims k ;
      Ok ("./data/inputs/synthetic/synthetic_" ++ xjoin (map decimal sh) ++ "_total_" ++
          decimal (orD (c_total c) 1%nat))%string
  end.

(** inputs.py 753-781: an existing directory is only warned about. *)
Definition publish {G : source} (f : fs) (o : out G) : res fs :=
  do name <- dataset_name (o_cfg o) (o_dims o) ;
  let dirs := if memb name (fs_dirs f) && negb (c_overwrite (o_cfg o)) then fs_dirs f
              else if memb name (fs_dirs f) then fs_dirs f else name :: fs_dirs f in
  let f0 := aset (name ++ "/config.json")%string (FCfg (o_cfg o)) (fs_files f) in
  Ok (mkfs dirs (fold_left (fun acc (e : string * farr) =>
        let acc1 := aset (name ++ "/" ++ fst e ++ ".txt")%string (FNum (snd e)) acc in
        if String.eqb (fst e) "cost_matrix"
        then aset (name ++ "/cost_matrix_max_normalised.txt")%string (FNum (snd e)) acc1
        else acc1) (o_data o) f0)).

(** DataGeneration.run, experiments.py 866-873. *)
Definition data_generation (G : source) (c : cfg) (w : fs * (np G * th G)) : res (out G * fs) :=
  do o <- generate G c (snd w) ;
  do f <- publish (fst w) o ;
  Ok (o, f).
