(** What a contingency table takes from data that are incomplete:
    gensit/contingency_table/__init__.py import_tabular_data 346-440, called by
    build 99-105 before the constraints are read.

    Two-way tables with at least two rows and two columns.  Tensors of integers
    carry their shape; floats do not occur (a drawn margin is a tensor of floats
    with integer values, lines 417-421, modelled as integers).  The draws of
    torch.randint and of the multinomial distribution are arguments. *)
From Coq Require Import List ZArith Bool Arith Lia.
From Verif Require Import Base Tables.
Import ListNotations.
Open Scope Z_scope.

(** a tensor: its shape and its entries in row-major order *)
Record tensor := Tensor { t_dims : list nat; t_vals : list Z }.
(** self.data.margins: a dictionary in order of insertion *)
Definition marginals := list (ax * tensor).

(** The data the constructor receives, __init__.py:74-93: the table if there is
    one (with its shape), the sizes of the dimensions if known, the margins. *)
Record given := Given {
  g_table : option (shape * table); g_dims : option shape; g_margins : marginals }.

(** What import leaves behind: sizes, table, margins; [residual_margins] equal
    the margins (lines 431, 698-699). *)
Record imported := Imported { i_shape : shape; i_table : option table; i_margins : marginals }.

(** torch.randint of line 410 and the multinomial sample of line 421 for an
    axis, a total and a number of classes *)
Record draws := Draws { d_total : Z; d_margin : ax -> Z -> nat -> list Z }.

Fixpoint find_margin (a : ax) (l : marginals) : option tensor :=
  match l with
  | [] => None
  | (b, m) :: r => if ax_eqb a b then Some m else find_margin a r
  end.
(** assignment to a key of a dictionary *)
Fixpoint set_margin (a : ax) (m : tensor) (l : marginals) : marginals :=
  match l with
  | [] => [(a, m)]
  | (b, m') :: r => if ax_eqb a b then (b, m) :: r else (b, m') :: set_margin a m r
  end.

(** line 353: [torch.any(table < 0)] *)
Definition incomplete (s : shape) (t : table) : bool := negb (table_nonnegative s t).

(** lines 374-402 for one margin.  The message of the second check (line 390)
    joins integers, which raises a TypeError; a missing grand total is a
    KeyError in the check and again in its message (lines 398, 401). *)
Definition check_margin (s : shape) (ms : marginals) (e : ax * tensor) : res unit :=
  let '(a, m) := e in
  if negb (ax_eqb a A01) && negb (Nat.eqb (List.length (filter (fun d => Nat.leb 1 d) (t_dims m))) 1) then Raise EExn
  else if negb (ax_eqb a A01) && negb (Nat.eqb (fold_left Nat.mul (t_dims m) 1%nat) (axis_len s a)) then Raise EType
  else match find_margin A01 ms with
       | None => Raise EKey
       | Some g => if zlist_eqb [lsum (t_vals m)] (t_vals g) then Ok tt else Raise EExn
       end.
Fixpoint check_margins (s : shape) (ms l : marginals) : res unit :=
  match l with
  | [] => Ok tt
  | e :: r => rbind (check_margin s ms e) (fun _ => check_margins s ms r)
  end.

(** lines 413-423 for one axis: the grand total first, then the columns and the
    rows.  [.item()] of a tensor with several entries raises, as does a negative
    number of draws. *)
Definition fill (dr : draws) (s : shape) (a : ax) (ms : marginals) : res marginals :=
  match find_margin a ms with
  | Some _ => Ok ms
  | None =>
      match a with
      | A01 => Ok (set_margin A01 (Tensor [1%nat] [d_total dr]) ms)
      | _ =>
          match find_margin A01 ms with
          | None => Raise EKey
          | Some g =>
              match t_vals g with
              | [n] => if n <? 0 then Raise EExn
                       else Ok (set_margin a (Tensor [axis_len s a] (d_margin dr a n (axis_len s a))) ms)
              | _ => Raise EValue
              end
          end
      end
  end.

(** update_table_properties_from_table, lines 727-731 and 689-699: the margins
    of a table without negative entries, in the order (0,), (1,), (0,1) *)
Definition table_margins (s : shape) (t : table) (ms : marginals) : marginals :=
  fold_left (fun acc a => set_margin a (Tensor [axis_len s a] (axis_margin s t a)) acc) [A0; A1; A01] ms.

(** lines 346-440.  A table with negative entries gives the sizes (line 356);
    the condition of line 433 replaces a table that was given by minus ones, and
    leaves one that was not given missing. *)
Definition import_tabular_data (dr : draws) (d : given) : res imported :=
  let partial (os : option shape) (tab : option table) :=
    match os with
    | None => Raise EExn
    | Some s =>
        rbind (check_margins s (g_margins d) (g_margins d)) (fun _ =>
        rbind (fill dr s A01 (g_margins d)) (fun m1 =>
        rbind (fill dr s A0 m1) (fun m2 =>
        rbind (fill dr s A1 m2) (fun m3 =>
        Ok (Imported s (match tab with Some _ => Some (fun _ _ => -1) | None => None end) m3)))))
    end in
  match g_table d with
  | None => partial (g_dims d) None
  | Some (s, t) =>
      if incomplete s t then partial (Some s) (Some t)
      else Ok (Imported s (Some t) (table_margins s t (g_margins d)))
  end.

(** the entries of a margin, as read by the code that uses the table *)
Definition margin_values (o : imported) : margins := fun a =>
  match find_margin a (i_margins o) with Some m => t_vals m | None => [] end.
(** build, lines 112-128, after the import: constraints and fixed cells *)
Definition constrained_table (o : imported) (axes : list ax) (fixed : list cell) : res ct :=
  match i_table o with
  | Some t => build_ct (i_shape o) t (margin_values o) axes fixed
  | None => match fixed with
            | [] => build_ct (i_shape o) (fun _ _ => 0) (margin_values o) axes []
            | _ => Raise EType
            end
  end.
