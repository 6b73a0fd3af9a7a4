(** Text forms of cells and tables, and tables as functions on cells:
    misc_utils.py 361-366, 876-923. *)
From Coq Require Import List ZArith Lia Bool Arith String Ascii Decimal DecimalString.
From Verif Require Import Base PyMonad Schema SchemaProps.
Import ListNotations.
Local Open Scope string_scope.
Local Open Scope Z_scope.

(** Python's [int(s)]: an optional minus sign and digits.  Surrounding spaces, a
    plus sign and underscores, which Python also accepts, are refused here. *)
Definition py_int (s : string) : res Z :=
  match NilZero.int_of_string s with
  | Some d => Ok (Z.of_int d)
  | None => Raise EValue
  end.

(** [sep.join(l)] *)
Fixpoint join (sep : string) (l : list string) : string :=
  match l with
  | [] => ""
  | [x] => x
  | x :: l' => x ++ sep ++ join sep l'
  end.

(** [str(t).replace(' ','')] for a tuple of integers (misc_utils.py 361-362); the
    text of an integer is [decimal_text]. *)
Definition tuple_to_str (t : list Z) : string :=
  match t with
  | [x] => "(" ++ decimal_text x ++ ",)"
  | _ => "(" ++ join "," (map decimal_text t) ++ ")"
  end.

(** Indexing a list of pieces. *)
Definition piece (n : nat) (l : list string) : res string :=
  match nth_error l n with Some s => Ok s | None => Raise EIndex end.

(** misc_utils.py 365-366. *)
Definition str_to_tuple (s : string) : res (Z * Z) :=
  do a <- piece 1 (split_on "(" s) ;
  do a <- piece 0 (split_on "," a) ;
  do i <- py_int a ;
  do b <- piece 1 (split_on "," s) ;
  do b <- piece 0 (split_on ")" b) ;
  do j <- py_int b ;
  Ok (i, j).

(** misc_utils.py 916-917. *)
Definition table_to_str (t : list (list Z)) : string := join "," (map decimal_text (List.concat t)).

Fixpoint all_ints (l : list string) : res (list Z) :=
  match l with
  | [] => Ok []
  | s :: l' => do z <- py_int s ; do r <- all_ints l' ; Ok (z :: r)
  end.

(** [[data[i:i + w] for i in range(0, len(data), w)]]. *)
Fixpoint chunks (fuel w : nat) (l : list Z) : list (list Z) :=
  match fuel with
  | O => []
  | S f => match l with [] => [] | _ => firstn w l :: chunks f w (skipn w l) end
  end.

(** misc_utils.py 919-923, for two dimensions. *)
Definition str_to_table (s : string) (m n : nat) : res (list (list Z)) :=
  do data <- all_ints (split_on "," s) ;
  if (List.length data =? m * n)%nat then
    if (n =? 0)%nat then Raise EValue else Ok (chunks (List.length data) n data)
  else Raise EAssert.

(** * Tables as functions on cells *)

(** array_to_f, misc_utils.py 903-909, for a two-dimensional array: the cells in
    row-major order with their values. *)
Definition array_to_f (a : list (list Z)) : list ((nat * nat) * Z) :=
  List.concat (map (fun p => map (fun q => ((fst p, fst q), snd q)) (combine (seq 0 (List.length (snd p))) (snd p)))
             (combine (seq 0 (List.length a)) a)).

Definition maxl (l : list nat) : nat := fold_right Nat.max 0%nat l.
Definition zeros (m n : nat) : list (list Z) := repeat (repeat 0 n) m.
Definition set_cell (i j : nat) (v : Z) (a : list (list Z)) : list (list Z) :=
  upd_nth i (upd_nth j (fun _ => v)) a.
Definition in_shape (m n : nat) (c : nat * nat) : bool := (fst c <? m)%nat && (snd c <? n)%nat.

(** [arr[rows, cols] = vals]: every index is checked first, then the values are
    stored in order. *)
Definition scatter (m n : nat) (f : list ((nat * nat) * Z)) : res (list (list Z)) :=
  if forallb (fun p => in_shape m n (fst p)) f
  then Ok (fold_left (fun a p => set_cell (fst (fst p)) (snd (fst p)) (snd p) a) f (zeros m n))
  else Raise EIndex.

(** f_to_array, misc_utils.py 876-899.  The three branches differ in the default
    shape; [arr[0, cols]] and [arr[rows, 0]] are [arr[rows, cols]] when all rows
    (columns) are 0.  The cast to 32-bit integers is not modelled. *)
Definition f_to_array (f : list ((nat * nat) * Z)) (shape : option (nat * nat)) : res (list (list Z)) :=
  match f with
  | [] => Raise EValue
  | _ =>
    let rows := map (fun p => fst (fst p)) f in
    let cols := map (fun p => snd (fst p)) f in
    if (maxl rows =? 0)%nat then
      let '(m, n) := match shape with None => (1, S (maxl cols))%nat | Some s => s end in
      scatter m n (map (fun p => ((0%nat, snd (fst p)), snd p)) f)
    else if (maxl cols =? 0)%nat then
      let '(m, n) := match shape with None => (S (maxl rows), 1)%nat | Some s => s end in
      scatter m n (map (fun p => ((fst (fst p), 0%nat), snd p)) f)
    else
      let '(m, n) := match shape with None => (S (maxl rows), S (maxl cols)) | Some s => s end in
      scatter m n f
  end.
