(** Supervised comparison experiments: cell masks, prediction tables, feature
    scaling, hyper-parameters, network layers, mini-batches and graphs.
    misc_utils.py 1559-1635, experiments.py 2776-3590, learning_models/. *)
From Coq Require Import List ZArith Lia Bool Arith String.
From Verif Require Import Base PyMonad ConfigTree TextCodec Executor CommandLine.
Import ListNotations.
Local Open Scope string_scope.
Local Open Scope nat_scope.
Local Open Scope list_scope.

(** * Cell masks *)

(** A numpy index into an axis of length [n]: negative indices count from the
    end, everything else raises IndexError. *)
Definition np_index (n : nat) (i : Z) : res nat :=
  if (0 <=? i)%Z && (i <? Z.of_nat n)%Z then Ok (Z.to_nat i)
  else if (- Z.of_nat n <=? i)%Z && (i <? 0)%Z then Ok (Z.to_nat (Z.of_nat n + i))
  else Raise EIndex.

Definition grid (V : Type) := nat -> nat -> V.
Definition put {V} (a b : nat) (v : V) (g : grid V) : grid V :=
  fun i j => if Nat.eqb i a && Nat.eqb j b then v else g i j.

(** create_mask, utils/misc_utils.py 1614-1619: zeros(shape,bool), then
    mask[tuple(cell)] = True for every cell. *)
Fixpoint mask_cells (I J : nat) (cells : list (Z * Z)) (m : grid bool) : res (grid bool) :=
  match cells with
  | [] => Ok m
  | (i, j) :: rest =>
    do a <- np_index I i ; do b <- np_index J j ; mask_cells I J rest (put a b true m)
  end.
Definition create_mask (I J : nat) (cells : list (Z * Z)) : res (grid bool) :=
  mask_cells I J cells (fun _ _ => false).

(** * Prediction tables *)

(** np.ravel_multi_index with its default mode 'raise', used at
    utils/misc_utils.py 1626: every coordinate must be in range and
    non-negative. *)
Definition ravel (I J : nat) (c : Z * Z) : res nat :=
  let '(i, j) := c in
  if (0 <=? i)%Z && (i <? Z.of_nat I)%Z && (0 <=? j)%Z && (j <? Z.of_nat J)%Z
  then Ok (Z.to_nat i * J + Z.to_nat j) else Raise EValue.
Fixpoint ravel_all (I J : nat) (cs : list (Z * Z)) : res (list nat) :=
  match cs with
  | [] => Ok []
  | c :: rest => do k <- ravel I J c ; do r <- ravel_all I J rest ; Ok (k :: r)
  end.

(** np.unravel_index, utils/misc_utils.py 1629. *)
Definition unravel (J : nat) (k : nat) : nat * nat := (k / J, k mod J).

Fixpoint write_all {V} (pos : list (nat * nat)) (vals : list V) (g : grid V) : grid V :=
  match pos, vals with
  | (i, j) :: pos', v :: vals' => write_all pos' vals' (put i j v g)
  | _, _ => g
  end.

(** populate_array, utils/misc_utils.py 1621-1635: zeros, then one value per
    index; a single value is broadcast to every index, any other length
    mismatch raises ValueError. *)
Definition populate_array {V} (zero : V) (I J : nat) (index : list (Z * Z)) (vals : list V) : res (grid V) :=
  do flat <- ravel_all I J index ;
  let pos := map (unravel J) flat in
  let n := List.length pos in
  if Nat.eqb (List.length vals) n then Ok (write_all pos vals (fun _ _ => zero))
  else match vals with
       | [v] => Ok (write_all pos (repeat v n) (fun _ _ => zero))
       | _ => Raise EValue
       end.

(** xr.where(mask, a, b) on equally labelled tables. *)
Definition where_ {V} (m : grid bool) (a b : grid V) : grid V := fun i j => if m i j then a i j else b i j.

(** The training loop of the comparison experiments, experiments.py 2863-2925
    (gradient boosting: 3280-3345, random forest 3070-3140, graph network
    3515-3570): the table written at each iteration.  [start] is the fill
    (NaN or 0) and [preds] the predictions of the iterations. *)
Fixpoint prediction_loop {V} (zero : V) (I J : nat) (emask : grid bool) (eindex : list (Z * Z))
    (preds : list (list V)) (cur : grid V) : res (list (grid V)) :=
  match preds with
  | [] => Ok []
  | p :: rest =>
    do a <- populate_array zero I J eindex p ;
    let cur' := where_ emask a cur in
    do r <- prediction_loop zero I J emask eindex rest cur' ;
    Ok (cur' :: r)
  end.
Definition comparison_run {V} (zero fill : V) (I J : nat) (truth : grid V)
    (train eval : list (Z * Z)) (preds : list (list V)) : res (list (grid V)) :=
  do tmask <- create_mask I J train ;
  do emask <- create_mask I J eval ;
  prediction_loop zero I J emask eval preds (where_ tmask truth (fun _ _ => fill)).

(** * Hyper-parameters *)

(** The attributes of a Python dictionary that getattr finds (names with
    underscores left out: no hyper-parameter has one at both ends). *)
Definition dict_attributes : list string :=
  ["clear"; "copy"; "fromkeys"; "get"; "items"; "keys"; "pop"; "popitem"; "setdefault"; "update"; "values"].
Definition is_dict_attribute (n : string) : bool := existsb (String.eqb n) dict_attributes.

Section Hyper.
  Context {V : Type}.

  (** One turn of the loop of update_hyperparameters, RandomForest.py 70-81
      (same code: XGB.py 76-87, GBRT.py 68-79, HarrisWilsonModel_NeuralNet.py
      279-290, GraphAttentionNetwork.py 146-173).  [trial] holds the suggested
      values of an optuna trial, [config] the hyper-parameter dictionary of the
      configuration; getattr on that dictionary finds methods, not entries. *)
  Definition hyper_step (prefix : string) (trial : option (list (string * V)))
      (st : list (string * V) * option (list (string * V))) (d : string * V)
      : res (list (string * V) * option (list (string * V))) :=
    let '(pname, dflt) := d in
    let '(h, config) := st in
    let suggested := match trial with Some t => sget pname t | None => None end in
    do h' <-
      match suggested with
      | Some v => Ok (sset pname v h)
      | None =>
        match config with
        | None => Ok (sset pname dflt h)
        | Some c =>
          if negb (is_dict_attribute pname) then Ok (sset pname dflt h)
          else match sget (prefix ++ pname) c with
               | Some v => Ok (sset pname v h)
               | None => Raise EKey
               end
        end
      end ;
    match config with
    | None => Ok (h', None)
    | Some c =>
      if negb (is_dict_attribute pname)
      then match sget pname h' with
           | Some v => Ok (h', Some (sset (prefix ++ pname) v c))
           | None => Raise EKey
           end
      else Ok (h', Some c)
    end.

  Fixpoint hyper_loop (prefix : string) (trial : option (list (string * V))) (defaults : list (string * V))
      (st : list (string * V) * option (list (string * V)))
      : res (list (string * V) * option (list (string * V))) :=
    match defaults with
    | [] => Ok st
    | d :: rest => do st' <- hyper_step prefix trial st d ; hyper_loop prefix trial rest st'
    end.

  (** [start] is what is set before the loop (n_estimators, RandomForest.py 69). *)
  Definition update_hyperparameters (prefix : string) (trial : option (list (string * V)))
      (defaults start : list (string * V)) (config : option (list (string * V)))
      : res (list (string * V) * option (list (string * V))) :=
    hyper_loop prefix trial defaults (start, config).
End Hyper.

(** DEFAULT_HYPERPARAMS of the five models: RandomForest.py 12-17, XGB.py
    18-29, GBRT.py 16-20, GraphAttentionNetwork.py 19-29,
    HarrisWilsonModel_NeuralNet.py 19-37 (names only). *)
Definition hyper_names : list (list string) :=
  [["max_depth"; "min_samples_split"; "min_samples_leaf"; "oob_score"];
   ["max_depth"; "learning_rate"; "eval_metric"; "tree_method"; "max_delta_step"; "min_child_weight"];
   ["max_depth"; "min_samples_split"; "min_samples_leaf"];
   ["nodes_per_layer"; "num_hidden_layers"; "dropout"; "reg_param"; "negative_sampling_rate"; "grad_norm";
    "optimizer"; "learning_rate"; "multitask_weights"];
   ["nodes_per_layer"; "num_hidden_layers"; "optimizer"; "learning_rate"; "biases"; "activation_funcs"]].

(** * Layers of the neural network *)

(** A layer number of the configuration: an integer, or a text (JSON and TOML
    keys are texts). *)
Inductive layer_id := LId (z : Z) | LText (s : string).

(** Python [l[k] = v] on a list. *)
Definition list_set {A} (l : list A) (k : Z) (v : A) : res (list A) :=
  do n <- np_index (List.length l) k ; Ok (upd_nth n (fun _ => v) l).

Fixpoint set_layers {A} (conv : layer_id -> res Z) (sp : list (layer_id * A)) (l : list A) : res (list A) :=
  match sp with
  | [] => Ok l
  | (k, v) :: rest => do z <- conv k ; do l' <- list_set l z v ; set_layers conv rest l'
  end.

(** A text cannot index a list. *)
Definition as_index (k : layer_id) : res Z := match k with LId z => Ok z | LText _ => Raise EType end.
(** int(layer_id), HarrisWilsonModel_NeuralNet.py 108. *)
Definition as_int (k : layer_id) : res Z := match k with LId z => Ok z | LText s => py_int s end.

(** get_architecture, HarrisWilsonModel_NeuralNet.py 39-51. *)
Definition get_architecture {A} (input output : A) (n : nat) (dflt : A) (sp : list (layer_id * A)) : res (list A) :=
  do l <- set_layers as_index sp (repeat dflt n) ; Ok (input :: l ++ [output]).

(** An activation entry: a name, a dictionary, or nothing. *)
Inductive act_cfg := ActName (s : string) | ActDict | ActNone.

(** _single_layer_func, HarrisWilsonModel_NeuralNet.py 74-101: a known name
    gives its function (None for "linear"), a dictionary fails because
    dictionaries have no lower(), an empty entry gives None.  [known] is the
    table ACTIVATION_FUNCS with names already in lower case; the result is the
    name of the function applied. *)
Definition single_layer_func (known : list (string * option string)) (c : act_cfg) : res (option string) :=
  match c with
  | ActName s => match sget s known with Some f => Ok f | None => Raise EKey end
  | ActDict => Raise EAttr
  | ActNone => Ok None
  end.

Fixpoint act_funcs (known : list (string * option string)) (sp : list (layer_id * act_cfg)) (l : list (option string))
    : res (list (option string)) :=
  match sp with
  | [] => Ok l
  | (k, c) :: rest =>
    do f <- single_layer_func known c ; do z <- as_int k ; do l' <- list_set l z f ; act_funcs known rest l'
  end.

(** get_activation_funcs, HarrisWilsonModel_NeuralNet.py 54-111. *)
Definition get_activation_funcs (known : list (string * option string)) (n : nat) (dflt : act_cfg)
    (sp : list (layer_id * act_cfg)) : res (list (option string)) :=
  do d <- single_layer_func known dflt ; act_funcs known sp (repeat d (S n)).

(** get_bias, HarrisWilsonModel_NeuralNet.py 114-136. *)
Definition get_bias {A} (n : nat) (dflt : A) (sp : list (layer_id * A)) : res (list A) :=
  set_layers as_index sp (repeat dflt (S n)).

(** The linear layers, HarrisWilsonModel_NeuralNet.py 213-232: input width,
    output width and bias of layer i, for i < len(architecture) - 1. *)
Definition layers {B} (arch : list nat) (bias : list B) : list (nat * nat * B) :=
  combine (combine (removelast arch) (tl arch)) bias.

(** * Mini-batches *)

(** generate_mini_batches, GraphAttentionNetwork.py 268-286, with the shuffled
    samples given; negative samples are None for rate 0, and for any other rate
    negative_sampling (288-322) reads self.num_regions, which GAT_Model never
    sets: AttributeError. *)
Definition negative_sampling {A} (rate : Z) : res (option (list A)) :=
  if (rate =? 0)%Z then Ok None else Raise EAttr.
Definition generate_mini_batches {A} (rate : Z) (shuffle : list A -> list A) (batch_size : Z) (train : list A)
    : res (list (list A)) :=
  do neg <- negative_sampling rate ;
  let samples := match neg with Some l => train ++ l | None => train end in
  divide_chunks (shuffle samples) batch_size.

(** * Graph *)

(** experiments.py 3451-3455: cost where adjacent, 0 elsewhere;
    build_graph_from_matrix, utils/misc_utils.py 1572-1602: one edge per
    non-zero entry, in row-major order, with the entry as weight. *)
Definition weighted_adjacency (adj : grid bool) (cost : grid Z) : grid Z :=
  fun i j => if adj i j then cost i j else 0%Z.
Definition graph_edges (n : nat) (w : grid Z) : list (nat * nat * Z) :=
  flat_map (fun i => flat_map (fun j => if (w i j =? 0)%Z then [] else [(i, j, w i j)]) (seq 0 n)) (seq 0 n).
