(** Real-valued parts of the learning models: feature scaling, loss estimates,
    the graph network's loss and its task weights.
    experiments.py 2839-2842, HarrisWilsonModel_NeuralNet.py 421-542,
    GraphAttentionNetwork.py 150-164, 191-247. *)
From Coq Require Import List ZArith Lia Bool Arith String Reals Lra.
From Verif Require Import Base PyMonad RealBase CommandLine.
Import ListNotations.
Local Open Scope string_scope.
Local Open Scope R_scope.
Local Open Scope list_scope.

(** * Feature scaling *)

(** Largest and smallest of a non-empty column. *)
Definition col_max (x : R) (l : list R) : R := fold_left Rmax l x.
Definition col_min (x : R) (l : list R) : R := fold_left Rmin l x.

(** experiments.py 2840-2842, one column: (x - min) * 2 / (max - min) - 1; None
    is NaN (a constant column divides 0 by 0).  Taking the maximum of an empty
    column raises. *)
Definition scale_features (col : list R) : res (list (option R)) :=
  match col with
  | [] => Raise EIndex
  | x :: l =>
    let hi := col_max x l in let lo := col_min x l in
    Ok (map (fun v => if Req_EM_T hi lo then None else Some ((v - lo) * 2 / (hi - lo) - 1)) col)
  end.

(** * Loss estimates *)

(** Mean of a non-empty list. *)
Definition list_rsum (l : list R) : R := fold_right Rplus 0 l.

Section UpdateLoss.
  (** Data sets: [D] is one array. *)
  Context {D : Type}.

  (** The data a loss needs: LOSS_DATA_REQUIREMENTS, global_variables.py
      83-110, and the loss itself, as a function of the validation data sets
      and one sample of its first prediction data set. *)
  Record loss_spec := {
    predicts : list string;
    validates : list string;
    loss_of : list (string * D) -> D -> R }.

  (** prediction_data.get(name): several samples of one data set. *)
  Fixpoint prediction_sizes (preds : list (string * list D)) (names : list string) : res (list nat) :=
    match names with
    | [] => Ok []
    | n :: rest =>
      match sget n preds with
      | None => Raise EExn
      | Some l => do r <- prediction_sizes preds rest ; Ok (List.length l :: r)
      end
    end.

  (** Validation data, filled in from the auxiliary inputs
      (HarrisWilsonModel_NeuralNet.py 457-466). *)
  Fixpoint fill_validation (valid aux : list (string * D)) (names : list string) : res (list (string * D)) :=
    match names with
    | [] => Ok valid
    | n :: rest =>
      match sget n valid with
      | Some _ => fill_validation valid aux rest
      | None => match sget n aux with
                | Some d => fill_validation (sset n d valid) aux rest
                | None => Raise EExn
                end
      end
    end.

  (** len(set(sizes)) == 1, HarrisWilsonModel_NeuralNet.py 453-456. *)
  Definition one_size (sizes : list nat) : bool :=
    match sizes with [] => false | n :: rest => forallb (Nat.eqb n) rest end.

  (** One loss of update_loss, HarrisWilsonModel_NeuralNet.py 434-541.  The
      state is (previous losses, processed steps, validation data). *)
  Definition update_one (specs : list (string * loss_spec)) (preds : list (string * list D)) (aux : list (string * D))
      (st : list (string * R) * list (string * Z) * list (string * D)) (name : string)
      : res (list (string * R) * list (string * Z) * list (string * D)) :=
    let '(prev, steps, valid) := st in
    match sget name specs with
    | None => Raise EKey
    | Some sp =>
      do sizes <- prediction_sizes preds (predicts sp) ;
      if negb (one_size sizes) then Raise EExn else
      do valid' <- fill_validation valid aux (validates sp) ;
      match predicts sp with
      | [] => Raise EIndex
      | p :: _ =>
        match sget p preds with
        | None => Raise EExn
        | Some samples =>
          match sget name prev with
          | None => Raise EKey
          | Some old =>
            if Nat.eqb (List.length samples) 0 then Raise EZeroDiv else
            match sget name steps with
            | None => Raise EKey
            | Some k =>
              Ok (sset name (old + list_rsum (map (loss_of sp valid') samples) / INR (List.length samples)) prev,
                  sset name (k + 1)%Z steps, valid')
            end
          end
        end
      end
    end.

  Fixpoint update_losses (specs : list (string * loss_spec)) (preds : list (string * list D)) (aux : list (string * D))
      (names : list string) (st : list (string * R) * list (string * Z) * list (string * D))
      : res (list (string * R) * list (string * Z) * list (string * D)) :=
    match names with
    | [] => Ok st
    | n :: rest => do st' <- update_one specs preds aux st n ; update_losses specs preds aux rest st'
    end.
End UpdateLoss.

(** The share of each origin in the total cost, HarrisWilsonModel_NeuralNet.py
    485-491: row sums of table times cost, divided by their sum. *)
Definition cost_shares (I J : nat) (table cost : nat -> nat -> R) (i : nat) : R :=
  rsum J (fun j => table i j * cost i j) / rsum I (fun i => rsum J (fun j => table i j * cost i j)).

(** * The graph network's loss *)

(** MSE, GraphAttentionNetwork.py 234-247, with its limit as a parameter.  The
    prediction is a column (n,1) and the target a vector (n,): the difference
    is broadcast to n x n. *)
Definition pair_sum (yhat y : list R) : R :=
  list_rsum (map (fun a => list_rsum (map (fun b => (a - b) * (a - b)) y)) yhat).
Fixpoint blocks (fuel k : nat) (yhat y : list R) : R :=
  match fuel with
  | O => 0
  | S f => match yhat with
           | [] => 0
           | _ => pair_sum (firstn k yhat) (firstn k y) + blocks f k (skipn k yhat) (skipn k y)
           end
  end.
Definition mse_vector (limit : nat) (yhat y : list R) : R :=
  let n := List.length yhat in
  if Nat.ltb n limit then pair_sum yhat y / (INR n * INR (List.length y))
  else blocks n limit yhat y / INR n.

(** The same function on a target with two columns (index, flow), which is what
    experiments.py 3500-3507 passes for in- and out-flows: (n,1) - (n,2). *)
Definition mse_rows (yhat : list R) (rows : list (R * R)) : R :=
  list_rsum (map (fun p => (fst p - fst (snd p)) * (fst p - fst (snd p)) + (fst p - snd (snd p)) * (fst p - snd (snd p)))
               (combine yhat rows)) / (2 * INR (List.length yhat)).

(** Rows selected and scaled: torch.sqrt(flows[nodes]), GraphAttentionNetwork.py
    209-210. *)
Definition scaled_rows (flow : nat -> R) (nodes : list nat) : list (R * R) :=
  map (fun v => (sqrt (INR v), sqrt (flow v))) nodes.

(** get_loss, GraphAttentionNetwork.py 191-232, for batches below the limit. *)
Definition gat_loss (limit : nat) (w0 w1 w2 reg reg_loss : R) (edge_hat edge : list R)
    (in_hat : list R) (inflow : nat -> R) (in_nodes : list nat)
    (out_hat : list R) (outflow : nat -> R) (out_nodes : list nat) : R :=
  w0 * mse_vector limit edge_hat edge + w1 * mse_rows in_hat (scaled_rows inflow in_nodes)
  + w2 * mse_rows out_hat (scaled_rows outflow out_nodes) + reg * reg_loss.

(** * Task weights *)

(** GraphAttentionNetwork.py 150-159: w_i = - log u_i, p_i = w_i / sum w, for
    u_i in (0,1]; a draw of exactly 0 (infinite weight) is left out. *)
Definition task_weights (us : list R) : list R :=
  let w := map (fun u => - ln u) us in map (fun x => x / list_rsum w) w.
