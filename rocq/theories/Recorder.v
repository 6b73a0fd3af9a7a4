(** Model of the recording of samples during a run and of the learning step:
    experiments.py 424-431, 518-650, 653-751, the writing loops of the samplers
    (1424-1505, 1666-1785, 1930-1961) and of the neural network experiments
    (2104-2170, 2352-2430, 2620-2705), global_variables.py 475-492. *)
From Coq Require Import List ZArith Lia Bool Arith String.
From Verif Require Import Base PyMonad.
Import ListNotations.
Local Open Scope string_scope.
Local Open Scope Z_scope.

(** A sample passed to the writer: an opaque scalar (a table, a vector of
    attractions, a number, ... are all one dataset row; modelled by an integer
    token), or the vector of parameters, whose components go to separate
    datasets. *)
Inductive sample := One (v : Z) | Vec (l : list Z).
Definition kwargs := list (string * sample).

Definition mem_s (x : string) (l : list string) : bool := existsb (String.eqb x) l.
Fixpoint kw_get (k : kwargs) (x : string) : option sample :=
  match k with
  | [] => None
  | (y, v) :: k' => if String.eqb x y then Some v else kw_get k' x
  end.

(** What the writer consults: config['experiments'][0]['export_samples'],
    config['outputs']['write_start'|'write_every'], the output names of the
    experiment class, the parameters to learn and the loss functions. *)
Record rec_settings := mkRec {
  export_samples : bool;
  write_start : Z;
  write_every : Z;
  output_names : list string;
  to_learn : list string;
  loss_names : list string
}.

(** The HDF5 group: the rows of every dataset.  A dataset that does not exist
    has no rows (initialise_data_structures, experiments.py 518-650, creates
    exactly the datasets written below, empty unless an experiment is loaded). *)
Definition store := string -> list Z.
Definition empty_store : store := fun _ => [].
Definition set_rows (st : store) (x : string) (r : list Z) : store :=
  fun y => if String.eqb y x then r else st y.

(** [dset.resize(dset.shape[0] + n_samples, axis = 0); dset[index] = v]: new rows
    are zero; negative indices count from the end; an index outside raises. *)
Definition push_row (index : Z) (n_samples : nat) (v : Z) (rows : list Z) : res (list Z) :=
  let r := (rows ++ repeat 0 n_samples)%list in
  let n := Z.of_nat (List.length r) in
  if (- n <=? index) && (index <? n)
  then Ok (upd_nth (Z.to_nat (if index <? 0 then index + n else index)) (fun _ => v) r)
  else Raise EIndex.

Definition push (index : Z) (n_samples : nat) (x : string) (v : Z) (st : store) : res store :=
  do r <- push_row index n_samples v (st x) ; Ok (set_rows st x r).

(** experiments.py 715-721: losses; a loss that is not given is None, and
    storing None raises. *)
Fixpoint write_losses (index : Z) (n : nat) (kw : kwargs) (names : list string) (st : store) : res store :=
  match names with
  | [] => Ok st
  | x :: names' =>
    match kw_get kw x with
    | Some (One v) => do st' <- push index n x v st ; write_losses index n kw names' st'
    | _ => Raise EType
    end
  end.

(** experiments.py 723-729: the components of theta. *)
Fixpoint write_theta (index : Z) (n : nat) (names : list string) (vs : list Z) (st : store) : res store :=
  match names with
  | [] => Ok st
  | x :: names' =>
    match vs with
    | [] => Raise EIndex
    | v :: vs' => do st' <- push index n x v st ; write_theta index n names' vs' st'
    end
  end.

(** experiments.py 737-751. *)
Definition row_names : list string :=
  ["log_destination_attraction"; "sign"; "table"; "intensity";
   "theta_acc"; "log_destination_attraction_acc"; "table_acc";
   "compute_time"; "table_compute_time"; "intensity_compute_time"].
Fixpoint write_rows (index : Z) (n : nat) (outs : list string) (kw : kwargs) (names : list string) (st : store)
  : res store :=
  match names with
  | [] => Ok st
  | x :: names' =>
    match (if mem_s x outs then kw_get kw x else None) with
    | Some (One v) => do st' <- push index n x v st ; write_rows index n outs kw names' st'
    | Some (Vec _) => Raise EType
    | None => write_rows index n outs kw names' st
    end
  end.

(** Is a step at time [t] recorded?  experiments.py 712-714. *)
Definition recorded (c : rec_settings) (t : Z) : res bool :=
  if export_samples c then
    if write_start c <=? t then
      if write_every c =? 0 then Raise EZeroDiv else Ok (t mod write_every c =? 0)
    else Ok false
  else Ok false.

(** write_data, experiments.py 703-751.  Not modelled: the grid datasets 'r2' and
    'log_posterior_approximation' (731-735). *)
Definition write_data (c : rec_settings) (time index : Z) (n : nat) (kw : kwargs) (st : store) : res store :=
  do r <- recorded c time ;
  if r then
    do st <- (if mem_s "loss" (output_names c) && (match kw_get kw "loss" with Some _ => true | None => false end)
              then write_losses index n kw (loss_names c ++ ["total_loss"])%list st else Ok st) ;
    do st <- (if mem_s "theta" (output_names c)
              then match kw_get kw "theta" with
                   | Some (Vec vs) => write_theta index n (to_learn c) vs st
                   | Some (One _) => Raise EType
                   | None => Ok st
                   end
              else Ok st) ;
    write_rows index n (output_names c) kw row_names st
  else Ok st.
(** The defaults index = -1, n_samples = 1 (710-711), used by all the loops below. *)
Definition write_default (c : rec_settings) (time : Z) (kw : kwargs) (st : store) : res store :=
  write_data c time (-1) 1 kw st.

(** global_variables.py 475-492.  In "SIM_MCMC" a comma is missing between
    "compute_time" and "theta_acc": the two literals are one string. *)
Definition sim_mcmc_outputs : list string :=
  ["log_destination_attraction"; "theta"; "sign"; "log_target"; "compute_timetheta_acc";
   "log_destination_attraction_acc"].
Definition joint_mcmc_outputs : list string :=
  ["log_destination_attraction"; "theta"; "sign"; "table"; "log_target"; "compute_time";
   "table_compute_time"; "intensity_compute_time"; "theta_acc"; "log_destination_attraction_acc"; "table_acc"].
Definition table_mcmc_outputs : list string := ["table"; "compute_time"].
Definition sim_nn_outputs : list string := ["log_destination_attraction"; "theta"; "loss"; "compute_time"].
Definition joint_nn_outputs : list string :=
  ["log_destination_attraction"; "theta"; "loss"; "table"; "compute_time"; "table_compute_time"; "intensity_compute_time"].

(** * Table_MCMC.run, experiments.py 1930-1961: [_time] is raised once before the
    loop; every iteration writes a table, its acceptance and the time. *)
Fixpoint write_seq (c : rec_settings) (time : Z) (kws : list kwargs) (st : store) : res store :=
  match kws with
  | [] => Ok st
  | kw :: kws' => do st' <- write_default c time kw st ; write_seq c time kws' st'
  end.
Definition table_step_kw (s : Z * Z * Z) : kwargs :=
  let '(table, accepted, ct) := s in
  [("table", One table); ("table_acceptance", One accepted); ("compute_time", One ct)].
Definition table_mcmc_run (c : rec_settings) (samples : list (Z * Z * Z)) (st : store) : res store :=
  write_seq c 1 (map table_step_kw samples) st.

(** * SIM_MCMC.run 1424-1505 and JointTableSIM_MCMC.run 1666-1785: one iteration
    holds the parameter samples, the attraction samples, (for the joint sampler)
    the table samples, and the time spent; [_time] is 1 before the loop and is
    raised at the end of every iteration. *)
Record iteration := mkIter {
  it_theta : list (list Z * Z * Z);      (* theta, theta_acc, sign *)
  it_lda : list (Z * Z);                 (* log destination attraction, acceptance *)
  it_table : list (Z * Z);               (* table, acceptance *)
  it_time : Z
}.
Definition theta_kw (s : list Z * Z * Z) : kwargs :=
  let '(th, acc, sg) := s in [("theta", Vec th); ("theta_acc", One acc); ("sign", One sg)].
Definition lda_kw (s : Z * Z) : kwargs :=
  let '(x, acc) := s in [("log_destination_attraction", One x); ("log_destination_attraction_acc", One acc)].
Definition table_kw (s : Z * Z) : kwargs :=
  let '(t, acc) := s in [("table", One t); ("table_acc", One acc)].
Definition iteration_kws (with_table : bool) (it : iteration) : list kwargs :=
  (map theta_kw (it_theta it) ++ map lda_kw (it_lda it) ++
   (if with_table then map table_kw (it_table it) else []) ++ [[("compute_time", One (it_time it))]])%list.
Fixpoint mcmc_loop (with_table : bool) (c : rec_settings) (time : Z) (its : list iteration) (st : store)
  : res store :=
  match its with
  | [] => Ok st
  | it :: its' =>
    do st' <- write_seq c time (iteration_kws with_table it) st ;
    mcmc_loop with_table c (time + 1) its' st'
  end.
Definition sim_mcmc_run (c : rec_settings) (its : list iteration) (st : store) : res store :=
  mcmc_loop false c 1 its st.
Definition joint_mcmc_run (c : rec_settings) (its : list iteration) (st : store) : res store :=
  mcmc_loop true c 1 its st.

(** * Learning, experiments.py 653-701 *)

(** Losses by name.  Values are integers standing for the real losses (only sums
    are formed). *)
Definition losses := list (string * Z).
Definition sum_losses (l : losses) : Z := fold_right (fun p s => snd p + s) 0 l.

(** HarrisWilsonModel_NeuralNet.update_loss 437-542: the (Monte Carlo averaged)
    value of the step is added to the previous loss of that name.  A loss name
    without a value in [vals] is left alone. *)
Definition add_losses (vals : losses) (prev : losses) : losses :=
  map (fun p => (fst p, snd p + match find (fun q => String.eqb (fst p) (fst q)) vals with
                                | Some q => snd q | None => 0 end)) prev.

Record learner := mkLearner {
  l_time : Z;
  l_store : store;
  l_loss : losses;              (* loss dictionary carried by the loop *)
  l_updates : list Z            (* total loss used by each optimiser step, in order *)
}.

Definition zero_losses (names : list string) : losses := map (fun x => (x, 0)) names.
Definition losses_kw (l : losses) : kwargs := map (fun p => (fst p, One (snd p))) l.

(** model_update_and_export.  [kw] are the remaining keyword arguments.
    Simplifications: 'n_processed_steps' is not the name of a loss (so the
    averaging of 681-686, which looks for it among the losses, does nothing), and
    no loss shares its name with another keyword. *)
Definition update_and_export (c : rec_settings) (batch data_size t : Z) (kw : kwargs) (s : learner) : res learner :=
  if batch =? 0 then Raise EZeroDiv else
  if (t mod batch =? 0) || (t =? data_size - 1) then
    let time := l_time s + 1 in
    let loss := l_loss s in
    let total := sum_losses loss in
    let updates := match loss with [] => l_updates s | _ => (l_updates s ++ [total])%list end in
    let loss' := match loss with [] => [] | _ => (loss ++ [("total_loss", total)])%list end in
    do st <- write_default c time (kw ++ losses_kw loss')%list (l_store s) ;
    Ok (mkLearner time st (zero_losses (loss_names c)) updates)
  else
    Ok (mkLearner (l_time s) (l_store s) (zero_losses (loss_names c)) (l_updates s)).

(** One pass over the training set, e.g. 2107-2170: every step adds its losses,
    then calls model_update_and_export with t = 0, 1, 2, ... *)
Fixpoint epoch (c : rec_settings) (batch data_size t : Z) (steps : list (losses * kwargs)) (s : learner)
  : res learner :=
  match steps with
  | [] => Ok s
  | (vals, kw) :: steps' =>
    do s' <- update_and_export c batch data_size t kw
               (mkLearner (l_time s) (l_store s) (add_losses vals (l_loss s)) (l_updates s)) ;
    epoch c batch data_size (t + 1) steps' s'
  end.
Fixpoint epochs (c : rec_settings) (batch data_size : Z) (es : list (list (losses * kwargs))) (s : learner)
  : res learner :=
  match es with
  | [] => Ok s
  | e :: es' => do s' <- epoch c batch data_size 0 e s ; epochs c batch data_size es' s'
  end.
(** Start of training (2089-2101): time 0, zero losses. *)
Definition learner0 (c : rec_settings) (st : store) : learner :=
  mkLearner 0 st (zero_losses (loss_names c)) [].
(** SIM_NN.run, NonJointTableSIM_NN.run, JointTableSIM_NN.run iterate over
    [torch.unsqueeze(destination_attraction_ts, 0)] (2107, 2353, 2621): one step per
    epoch, the whole series at once. *)
Definition nn_run (c : rec_settings) (batch data_size : Z) (steps : list (losses * kwargs)) (st : store)
  : res learner :=
  epochs c batch data_size (map (fun s => [s]) steps) (learner0 c st).

(** * Batch sizes, experiments.py 424-431 *)

(** numpy.repeat(value, repeats): a floating point count is refused (it cannot be
    cast safely to an integer); [numpy.floor] returns a float. *)
Inductive npnum := NpInt (z : Z) | NpFloat (z : Z).
Definition np_repeat (v : Z) (repeats : npnum) : res (list Z) :=
  match repeats with
  | NpInt n => if n <? 0 then Raise EValue else Ok (repeat v (Z.to_nat n))
  | NpFloat _ => Raise EType
  end.
Fixpoint cumsum_from (acc : Z) (l : list Z) : list Z :=
  match l with [] => [] | x :: l' => (acc + x) :: cumsum_from (acc + x) l' end.
(** [store_progress] is the fraction a/b. *)
Definition batches_with (count : npnum) (N a b : Z) : res (list Z) :=
  do sizes <- np_repeat (a * N / b) count ;
  let sizes := if lsum sizes <? N then (sizes ++ [N - lsum sizes])%list else sizes in
  Ok (cumsum_from 0 sizes).
Definition define_sample_batch_sizes (N a b : Z) : res (list Z) :=
  batches_with (NpFloat (b / a)) N a b.
