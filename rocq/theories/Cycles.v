(** The Markov basis made of cycles: generate_both_margin_preserving_grobner_
    markov_basis, find_all_cycles, _dfs_find_cycles and _add_unique_cycle,
    gensit/contingency_table/MarkovBasis.py 324-497.

    Nodes carry their Python text (o1, d1, ...).  Python sets are iterated in an
    unspecified order: the parameter [iter] stands for it and theorems hold for
    every [iter] that permutes its argument.  Progress bars are dropped. *)
From Coq Require Import List ZArith Lia Bool Arith String Ascii NArith.
From Verif Require Import Base PyMonad Tables MarkovBasis Schema SchemaProps TextCodec.
Import ListNotations.
Local Open Scope string_scope.
Local Open Scope nat_scope.
Local Open Scope list_scope.

(** Origin i (text "o" followed by i+1) and destination j, lines 333-336. *)
Inductive node := Orig (i : nat) | Dest (j : nat).

Definition label (n : node) : string :=
  match n with
  | Orig i => String "o" (decimal_text (Z.of_nat i + 1))
  | Dest j => String "d" (decimal_text (Z.of_nat j + 1))
  end.

Definition node_eqb (a b : node) : bool :=
  match a, b with
  | Orig i, Orig j | Dest i, Dest j => Nat.eqb i j
  | _, _ => false
  end.

Definition node_in (n : node) (l : list node) : bool := existsb (node_eqb n) l.

(** Python's set.add on a set kept as a list. *)
Definition nset_add (n : node) (l : list node) : list node := if node_in n l then l else l ++ [n].

(** The bipartite graph of the free cells, lines 329-337: neighbours of a node,
    and the set of origins. *)
Definition neighbours (free : list cell) (n : node) : list node :=
  fold_left (fun acc k =>
    match n with
    | Orig i => if Nat.eqb i (fst k) then nset_add (Dest (snd k)) acc else acc
    | Dest j => if Nat.eqb j (snd k) then nset_add (Orig (fst k)) acc else acc
    end) free [].

Definition origins (free : list cell) : list node :=
  fold_left (fun acc k => nset_add (Orig (fst k)) acc) free [].

(** _dfs_find_cycles, lines 388-453: the cycles found, each as its distinct nodes
    in order.  [fuel] bounds the depth of the recursion, which the length test
    of line 433 keeps below [maxlen]. *)
Fixpoint dfs (iter : list node -> list node) (nbrs : node -> list node) (maxlen : nat) (start : node)
    (fuel : nat) (path : list node) : list (list node) :=
  match fuel with
  | O => []
  | S f =>
    flat_map (fun n =>
      if node_eqb n start && (3 <=? List.length path)
      then (if List.length path <=? maxlen then [path] else [])
      else if node_in n path then []
      else if maxlen <? List.length path + 1 then []
      else dfs iter nbrs maxlen start f (path ++ [n]))
    (iter (nbrs (last path start)))
  end.

(** Python's comparison of sequences. *)
Fixpoint lex {A} (cmp : A -> A -> comparison) (l1 l2 : list A) : comparison :=
  match l1, l2 with
  | [], [] => Eq
  | [], _ => Lt
  | _, [] => Gt
  | x :: l1', y :: l2' => match cmp x y with Eq => lex cmp l1' l2' | c => c end
  end.

(** Comparison of two nodes: of their texts, by character codes. *)
Definition codes (n : node) : list N := map N_of_ascii (list_ascii_of_string (label n)).
Definition node_cmp (a b : node) : comparison := lex N.compare (codes a) (codes b).
Definition path_cmp : list node -> list node -> comparison := lex node_cmp.

Definition is_lt (c : comparison) : bool := match c with Lt => true | _ => false end.

(** min(nodes_in_cycle), line 467. *)
Definition min_node (x : node) (l : list node) : node :=
  fold_left (fun m y => if is_lt (node_cmp y m) then y else m) l x.

(** deque.rotate(-k) *)
Definition rotate {A} (k : nat) (l : list A) : list A := skipn k l ++ firstn k l.

(** list.index *)
Fixpoint index_of (n : node) (l : list node) : nat :=
  match l with
  | [] => 0
  | x :: l' => if node_eqb n x then 0 else S (index_of n l')
  end.

(** [[i for i, node in enumerate(l) if node == m]], line 470. *)
Definition indices_of (m : node) (l : list node) : list nat :=
  filter (fun i => match nth_error l i with Some x => node_eqb m x | None => false end) (seq 0 (List.length l)).

(** _add_unique_cycle, lines 455-496: the canonical form, as a tuple of nodes;
    None for an empty cycle. *)
Definition canonical (cycle : list node) : option (list node) :=
  match cycle with
  | [] => None
  | x :: l =>
    let m := min_node x l in
    fold_left (fun best i =>
      let forward := rotate i cycle in
      let r := rev cycle in
      let backward := rotate (index_of m r) r in
      let cand := match path_cmp forward backward with Gt => backward | _ => forward end in
      match best with
      | None => Some cand
      | Some b => if is_lt (path_cmp cand b) then Some cand else Some b
      end) (indices_of m cycle) None
  end.

Definition path_eqb (a b : list node) : bool := match path_cmp a b with Eq => true | _ => false end.

(** self.unique_cycles.add(canonical_form) *)
Definition add_cycle (acc : list (list node)) (cycle : list node) : list (list node) :=
  match canonical cycle with
  | Some (x :: l) => if existsb (path_eqb (x :: l)) acc then acc else acc ++ [x :: l]
  | _ => acc
  end.

(** find_all_cycles, lines 361-386. *)
Definition find_all_cycles (iter : list node -> list node) (free : list cell) (maxlen : nat) : list (list node) :=
  fold_left add_cycle
    (flat_map (fun o => dfs iter (neighbours free) maxlen o (S maxlen) [o]) (iter (origins free))) [].

(** str.replace(c,'') *)
Fixpoint remove_char (c : ascii) (s : string) : string :=
  match s with
  | EmptyString => EmptyString
  | String a s' => if Ascii.eqb a c then remove_char c s' else String a (remove_char c s')
  end.

Definition has_char (c : ascii) (s : string) : bool := existsb (Ascii.eqb c) (list_ascii_of_string s).

(** The cell of two consecutive nodes, lines 348-349. *)
Definition cell_of_labels (p1 p2 : string) : res (Z * Z) :=
  do o <- py_int (if has_char "o" p1 then remove_char "o" p1 else remove_char "o" p2) ;
  do d <- py_int (if has_char "d" p2 then remove_char "d" p2 else remove_char "d" p1) ;
  Ok (o - 1, d - 1)%Z.

(** mb_move[(origin,destination)] = v on a dictionary. *)
Fixpoint move_set (k : Z * Z) (v : Z) (f : list ((Z * Z) * Z)) : list ((Z * Z) * Z) :=
  match f with
  | [] => [(k, v)]
  | (k', v') :: f' =>
    if (fst k =? fst k')%Z && (snd k =? snd k')%Z then (k, v) :: f' else (k', v') :: move_set k v f'
  end.

(** The loop over zip(cycle_complete, cycle_complete[1:]), lines 347-352. *)
Fixpoint move_loop (counter : nat) (l : list node) (f : list ((Z * Z) * Z)) : res (list ((Z * Z) * Z)) :=
  match l with
  | p1 :: ((p2 :: _) as r) =>
    do k <- cell_of_labels (label p1) (label p2) ;
    move_loop (S counter) r (move_set k (if Nat.even counter then 1 else -1)%Z f)
  | _ => Ok f
  end.

Definition cycle_move (cycle : list node) : res (list ((Z * Z) * Z)) :=
  match cycle with
  | [] => Raise EIndex
  | x :: _ => move_loop 0 (cycle ++ [x]) []
  end.

(** Cells with natural coordinates, as the rest of the model writes them. *)
Definition as_basis_fn (f : list ((Z * Z) * Z)) : basis_fn :=
  map (fun e => ((Z.to_nat (fst (fst e)), Z.to_nat (snd (fst e))), snd e)) f.

Fixpoint all_moves (cycles : list (list node)) : res (list basis_fn) :=
  match cycles with
  | [] => Ok []
  | c :: cs => do f <- cycle_move c ; do r <- all_moves cs ; Ok (as_basis_fn f :: r)
  end.

(** generate_both_margin_preserving_grobner_markov_basis, lines 324-354;
    [iterc] is the order in which the set of cycles is listed. *)
Definition grobner_basis (iter : list node -> list node) (iterc : list (list node) -> list (list node))
    (c : ct) (maxlen : nat) : res (list basis_fn) :=
  all_moves (iterc (find_all_cycles iter (ct_free c) maxlen)).
