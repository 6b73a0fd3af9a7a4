(** GraphAttention: the graph attention network of
    gensit/learning_models/GraphAttentionNetwork.py: its layers (lines 500-647),
    their composition (GAT, 393-450), and the prediction of a pair of regions
    (predict_edge 247-257, predict 330-344).

    A graph is the list of its edges (source, target, edge feature 'd').  Node
    features are functions region -> coordinate -> R.  Numbers are exact reals;
    dgl's apply_edges / update_all are modelled by what they are documented to
    do: a region's mailbox holds the messages of the edges into it, and a region
    without such edges gets the default feature, zero. *)
From Coq Require Import List Reals Bool Arith.
From Verif Require Import Base RealBase Kernels.
Import ListNotations.
Open Scope R_scope.

Record edge := mkedge { e_src : nat; e_dst : nat; e_feat : R }.
Definition features := nat -> nat -> R.

(** F.relu and F.leaky_relu (negative slope 1/100). *)
Definition relu (x : R) : R := if Rltb 0 x then x else 0.
Definition leaky_relu (x : R) : R := if Rltb 0 x then x else (1 / 100) * x.

(** The parameters of one layer, GATLayer.__init__ / GATInputLayer.__init__ 502-528, 575-605: fc0 (one
    number: edge features have one coordinate), fc1, fc2, the row of attn_fc cut
    in its three parts, and [weights], the two numbers meant for the convex
    combination. *)
Record layer := mklayer {
  l_in : nat; l_out : nat;
  l_fc0 : R; l_fc1 : nat -> nat -> R; l_fc2 : nat -> nat -> R;
  l_attn_src : nat -> R; l_attn_dst : nat -> R; l_attn_edge : R;
  l_weights : R * R }.

(** nn.Linear without bias, applied to one region. *)
Definition linear (n : nat) (W : nat -> nat -> R) (x : nat -> R) (k : nat) : R :=
  rsum n (fun m => W k m * x m).

(** forward, lines 559-571 and 636-647: the message features z and z_i. *)
Definition z_of (l : layer) (h : features) (v k : nat) : R := linear (l_in l) (l_fc1 l) (h v) k.
Definition zi_of (l : layer) (h : features) (v k : nat) : R := linear (l_in l) (l_fc2 l) (h v) k.

(** edge_feat_func and edge_attention, lines 530-540 and 607-617. *)
Definition attention (l : layer) (h : features) (e : edge) : R :=
  leaky_relu (rsum (l_out l) (fun k => l_attn_src l k * z_of l h (e_src e) k)
              + rsum (l_out l) (fun k => l_attn_dst l k * z_of l h (e_dst e) k)
              + l_attn_edge l * (l_fc0 l * e_feat e)).

(** The edges into a region. *)
Definition mailbox (g : list edge) (v : nat) : list edge := filter (fun e => Nat.eqb (e_dst e) v) g.

(** alpha = softmax over the mailbox, lines 549 and 626. *)
Definition alpha (l : layer) (g : list edge) (h : features) (e : edge) : R :=
  exp (attention l h e) / lsumf (fun e' => exp (attention l h e')) (mailbox g (e_dst e)).

(** reduce_func, lines 546-557 and 623-634 ([lambda_], computed from the
    weights, is not used). *)
Definition run_layer (l : layer) (g : list edge) (h : features) : features :=
  fun v k => match mailbox g v with
             | [] => 0
             | es => relu (zi_of l h v k + lsumf (fun e => alpha l g h e * z_of l h (e_src e) k) es)
             end.

(** GAT.forward, lines 446-450: the input layer followed by the hidden ones. *)
Fixpoint embed (ls : list layer) (g : list edge) (h : features) : features :=
  match ls with [] => h | l :: r => embed r g (run_layer l g h) end.

(** The trained model: one network for origins and one for destinations, on the
    same graph, and the bilinear regressor with its bias. *)
Record model := mkmodel {
  m_origin : list layer; m_dest : list layer; m_width : nat;
  m_bil : nat -> nat -> R; m_bias : R }.

(** predict_edge for one pair, lines 247-257. *)
Definition predict_edge (m : model) (g : list edge) (h : features) (o d : nat) : R :=
  rsum (m_width m) (fun a => rsum (m_width m) (fun b =>
    embed (m_origin m) g h o a * m_bil m a b * embed (m_dest m) g h d b)) + m_bias m.

(** predict, lines 330-344: squared back to the scale of the flows. *)
Definition predict (m : model) (g : list edge) (h : features) (cells : list (nat * nat)) : list R :=
  map (fun c => (predict_edge m g h (fst c) (snd c)) ^ 2) cells.
