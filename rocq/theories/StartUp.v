(** StartUp: what an experiment reads and fixes before its first sample: the
    stored stopping times, the constants of the Harris-Wilson model, the way
    1/Z is estimated, the initial sample and its validation, the scaling of
    beta, and the stored Markov basis. *)
From Coq Require Import List String ZArith QArith Bool Arith Reals DecimalString.
From Verif Require Import Base PyMonad RealBase ProbUtils Tables MarkovBasis ConfigTree Learning Inputs.
Import ListNotations.
Open Scope string_scope.
Open Scope nat_scope.
Open Scope list_scope.

(** * Stopping times *)

(** The decimal text of a number, str(N). *)
Definition decimal (n : nat) : string := NilZero.string_of_uint (Nat.to_uint n).

(** The settings load_stopping_times reads: training.N, the optional
    mcmc.parameters.theta_steps (absent: 1; null: no factor), the optional
    inputs.data.stopping_times, and the seed. *)
Record st_settings := mkst {
  st_N : nat; st_theta_steps : option (option nat); st_file : option string; st_seed : option Z }.

(** HarrisWilsonModel_MCMC.py 73-75. *)
Definition st_count (c : st_settings) : nat :=
  st_N c * match st_theta_steps c with Some (Some m) => m | _ => 1 end.

(** The path below in_directory, HarrisWilsonModel_MCMC.py 96. *)
Definition st_path (c : st_settings) : string :=
  "stopping_times/" ++ match st_file c with
                      | Some f => f
                      | None => "stopping_times_N_" ++ decimal (st_count c) ++ ".txt"
                      end.

(** The files below in_directory; each holds the numbers of a text file, one
    per line. *)
Definition store := list (string * list nat).

(** import_stopping_times, HarrisWilsonModel_MCMC.py 91-109: [None] means
    "not read".  np.loadtxt of a single number is an array without dimensions,
    whose [len] raises. *)
Definition import_times (c : st_settings) (fs : store) : res (option (list nat)) :=
  match aget (st_path c) fs with
  | None => Ok None
  | Some l =>
      if Nat.eqb (List.length l) 1 then Raise EType
      else if Nat.eqb (List.length l) (st_count c) then Ok (Some l) else Ok None
  end.

(** load_stopping_times, HarrisWilsonModel_MCMC.py 71-89; [gen n seed] is
    generate_stopping_times with k_power 1.1.  The maximum of an empty tensor
    (line 89) raises. *)
Definition load_times (gen : nat -> option Z -> list nat) (c : st_settings) (fs : store)
  : res (list nat * store) :=
  do o <- import_times c fs ;
  let r := match o with
           | Some l => (l, fs)
           | None => let l := gen (st_count c) (st_seed c) in (l, aset (st_path c) l fs)
           end in
  let l := firstn (st_count c) (fst r) in
  if Nat.eqb (List.length l) 0 then Raise EExn else Ok (l, snd r).

(** * The estimator of 1/Z *)

Inductive regime := Low | High | Variable_ | Sweeped.
Inductive estimator := Biased | Unbiased.
(** build, HarrisWilsonModel_MCMC.py 136-141. *)
Definition choose_estimator (r : regime) : estimator :=
  match r with Low => Biased | _ => Unbiased end.

(** unbiased_z_inverse, HarrisWilsonModel_MCMC.py 543-602: [weights i] is the
    i-th annealed importance sampling value, None when not finite.  The parallel
    branch evaluates [self.n_workers], which no method sets. *)
Definition unbiased_z_inverse (workers : nat) (times : nat -> nat) (index : nat)
    (weights : nat -> option R) (k : R) : res (R * R) :=
  let N := times index in
  if Nat.ltb 1 (Nat.min workers (N + 1)) then Raise EAttr
  else if forallb (fun i => match weights i with Some _ => true | None => false end) (seq 0 (N + 1))
  then truncated_series N (fun i => match weights i with Some w => w | None => 0%R end) k
  else Raise EExn.

(** Which stopping time the j-th theta step of iteration i uses: z_inverse is
    called with the iteration number, experiments.py 1679-1707 and
    HarrisWilsonModel_MCMC.py 651-663, 733-752. *)
Definition time_index (i j : nat) : nat := i.

(** * Constants of the Harris-Wilson model *)

(** A constant: a tensor, or a plain number (which has no [.to]). *)
Inductive pval := PTensor (x : Q) | PFloat (x : Q).
Definition pnum (v : pval) : Q := match v with PTensor x | PFloat x => x end.

Definition learnable : list string :=
  ["alpha"; "beta"; "kappa"; "sigma"; "delta"; "epsilon"; "bmax"].
Definition parameter_names : list string := map fst parameter_defaults.
Definition trial_names : list string := ["epsilon"; "noise_percentage"; "dt"].

(** The arguments of HarrisWilson(...): true_parameters (a name may hold None),
    the names to learn, and the values an optuna trial suggests. *)
Record hw_call := mkhw {
  hw_given : list (string * option pval);
  hw_learn : list string;
  hw_trial : option (string -> Q) }.

(** kwargs.get(pname), HarrisWilsonModel.py 56, 124. *)
Definition given_value (c : hw_call) (p : string) : option pval :=
  match aget p (hw_given c) with Some (Some v) => Some v | _ => None end.

(** The trial's value for a name, HarrisWilsonModel.py 100-108, 115-116. *)
Definition suggested (c : hw_call) (p : string) : option Q :=
  match hw_trial c with
  | Some f => if memb p trial_names then Some (f p) else None
  | None => None
  end.

(** Writing a constant back at the first place its name is found in the
    configuration, HarrisWilsonModel.py 118-123, 139-144. *)
Definition write_back (s : node) (p : string) (v : node) : res node :=
  match path_find (KS p) s with
  | (k :: q) :: _ => do r <- path_set false s v (k :: q) ; Ok (fst r)
  | _ => Ok s
  end.

(** One turn of the loop of update_hyperparameters, HarrisWilsonModel.py
    110-147; [enc] is how the configuration tree holds a number.  Reading the
    configuration (line 130) calls [self.path_get], which the class does not
    have; a default (line 137) is a plain number, which has no [.to]. *)
Definition hyper_step (enc : Q -> node) (c : hw_call) (st : list (string * pval) * node) (p : string)
  : res (list (string * pval) * node) :=
  let '(hyper, s) := st in
  if memb p (hw_learn c) then Ok (hyper, s)
  else
    match suggested c p with
    | Some x => Ok (aset p (PFloat x) hyper, s)
    | None =>
        match given_value c p with
        | Some v =>
            do s' <- write_back s p (enc (pnum v)) ;
            match v with
            | PTensor x => Ok (aset p (PTensor x) hyper, s')
            | PFloat _ => Raise EAttr
            end
        | None => Raise EAttr
        end
    end.

(** The noise regime, HarrisWilsonModel.py 83-93 (a list-valued sigma is not
    modelled: [true_parameters] holds single numbers). *)
Definition noise_regime (c : hw_call) (hyper : list (string * pval)) : regime :=
  if memb "sigma" (hw_learn c) then Variable_
  else match aget "sigma" hyper with
       | None => Variable_
       | Some v => if Qle_bool (1 # 10) (pnum v) then High else Low
       end.

(** HarrisWilson.__init__, HarrisWilsonModel.py 53-94: the learned names with
    their positions, the constants, the settings and the noise regime.  The
    entry settings['noise_regime'] (line 94) and the variance of line 80 are not
    kept. *)
Record hw_model := mkmodel {
  m_learned : list (string * nat); m_hyper : list (string * pval);
  m_settings : node; m_regime : regime }.

Definition hw_init (enc : Q -> node) (c : hw_call) (s : node) : res hw_model :=
  if forallb (fun p => memb p learnable) (hw_learn c) then
    do r <- foldM (hyper_step enc c) parameter_names ([], s) ;
    Ok (mkmodel
          (fold_left (fun acc ip => aset (snd ip) (fst ip) acc)
                     (combine (seq 0 (List.length (hw_learn c))) (hw_learn c)) [])
          (fst r) (snd r) (noise_regime c (fst r)))
  else Raise EExn.

(** * Initial values and validation *)

(** initialise_parameters, experiments.py 463-520: theta from the defaults, in
    the order of the learned names; the attraction uniform; the sign 1. *)
Definition init_theta (learn : list string) : list (option Q) :=
  map (fun p => aget p parameter_defaults) learn.
Definition init_log_attraction (J : nat) : nat -> R := fun _ => ln (1 / INR J).
Definition init_sign : Z := 1%Z.

(** The sample validate_samples looks at; a part that is not an output is None. *)
Record sample := mksample {
  s_r2 : bool; s_attr : option (nat -> R); s_sign : option Z; s_table : option table }.

(** validate_samples, experiments.py 812-850, as called (without an index) at
    lines 2433 and 2708: r2 needs kwargs['index'], in the handler as well. *)
Definition validate_samples (J : nat) (c : ct) (x : sample) : res unit :=
  if s_r2 x then Raise EKey
  else
    do _ <- match s_attr x with
            | Some w => if Rleb (Rabs (rsum J (fun j => exp (w j)) - 1)) (1 / 1000) then Ok tt else Raise EExn
            | None => Ok tt
            end ;
    do _ <- match s_sign x with
            | Some g => if Z.eqb g 0 || Z.eqb g 1 then Ok tt else Raise EExn
            | None => Ok tt
            end ;
    match s_table x with
    | Some t => if table_admissible c t then Ok tt else Raise EExn
    | None => Ok tt
    end.

(** * Scaling of beta *)

(** theta[1] *= bmax on a copy, experiments.py 1403-1404, 1636-1637,
    HarrisWilsonModel_MCMC.py 655, 742, 848, 984: by position. *)
Definition scale_second (bmax : R) (theta : list R) : res (list R) :=
  match theta with
  | a :: b :: r => Ok (a :: (b * bmax)%R :: r)
  | _ => Raise EIndex
  end.

(** dict(zip(params_to_learn, theta)). *)
Definition named (learn : list string) (theta : list R) : list (string * R) :=
  fold_left (fun acc pv => aset (fst pv) (snd pv) acc) (combine learn theta) [].

(** The parameters the samplers pass to the intensity (experiments.py
    1412-1417, 1655-1660; HarrisWilsonModel_MCMC.py 655-668). *)
Definition run_parameters (learn : list string) (bmax : R) (theta : list R) : res (list (string * R)) :=
  do t <- scale_second bmax theta ; Ok (named learn t).

(** The parameters of the intensity a joint run draws its tables from
    (experiments.py 1741-1745) and of the neural network runs (2305-2425):
    unscaled. *)
Definition table_parameters (learn : list string) (theta : list R) : list (string * R) :=
  named learn theta.

(** The parameters of an intensity recomputed from a stored run: every stored
    name as written, beta times bmax; get_sample, outputs.py 1578-1580. *)
Definition stored_parameters (learn : list string) (bmax : R) (theta : list R) : list (string * R) :=
  map (fun pv => (fst pv, if String.eqb (fst pv) "beta" then (snd pv * bmax)%R else snd pv))
      (named learn theta).

(** * The stored Markov basis *)

(** The name of the file, MarkovBasis.py 547-553, 571-585: the dimensions and
    the constrained axes. *)
Definition ax_text (a : ax) : string :=
  match a with A0 => "(0,)" | A1 => "(1,)" | A01 => "(0,1)" end.
Fixpoint join_text (sep : string) (l : list string) : string :=
  match l with [] => "" | [x] => x | x :: r => x ++ sep ++ join_text sep r end.
Definition basis_name (c : ct) : string :=
  "table_" ++ decimal (nI (ct_shape c)) ++ "x" ++ decimal (nJ (ct_shape c)) ++ "_axes_" ++
  join_text "_" (map ax_text (filter (fun a => ax_in a (ct_caxes c)) all_axes)) ++
  "_preserved_markov_basis.gzip.json".

(** str.replace(" ",""). *)
Fixpoint strip_spaces (s : string) : string :=
  match s with
  | EmptyString => EmptyString
  | String a r => if Ascii.eqb a (Ascii.ascii_of_nat 32) then strip_spaces r else String a (strip_spaces r)
  end.

(** os.path.join(out_directory, 'markov_basis/'), MarkovBasis.py 542-545,
    572-575, for a directory that does not end in a slash. *)
Definition basis_dir (out : string) : string := out ++ "/markov_basis/".

(** The file system: existing directories and stored bases.  Compression and
    the literal syntax (misc_utils.py 298-308) are taken to read back what was
    written. *)
Record bstore := mkbstore { b_dirs : list string; b_files : list (string * list basis_fn) }.

(** export_markov_basis, MarkovBasis.py 565-597. *)
Definition export_basis (out : string) (c : ct) (fs : list basis_fn) (d : bstore) : res bstore :=
  if String.eqb out "" then Ok d
  else
    let dir := basis_dir out in
    let file := strip_spaces (dir ++ basis_name c) in
    let dirs := if memb dir (b_dirs d) then b_dirs d else dir :: b_dirs d in
    match aget file (b_files d) with
    | Some _ => Ok (mkbstore dirs (b_files d))
    | None =>
        if memb (strip_spaces dir) dirs then Ok (mkbstore dirs (aset file fs (b_files d)))
        else Raise EExn
    end.

(** import_markov_basis, MarkovBasis.py 526-563: None means "not imported". *)
Definition import_basis (out : string) (c : ct) (d : bstore) : option (list basis_fn) :=
  if String.eqb out "" then None
  else
    let dir := basis_dir out in
    match aget (dir ++ basis_name c) (b_files d), memb dir (b_dirs d) with
    | Some fs, true =>
        Some (if Nat.ltb 0 (List.length (ct_fixed c)) then update_markov_basis c fs else fs)
    | _, _ => None
    end.
