(** Option parsers of the command line: click_parsers.py 5-33, 83-151,
    misc_utils.py 641-670. *)
From Coq Require Import List ZArith Lia Bool Arith String Ascii.
From Verif Require Import Base PyMonad Schema.
Import ListNotations.
Local Open Scope string_scope.

(** Dictionaries with text keys, in insertion order. *)
Fixpoint sget {A} (k : string) (l : list (string * A)) : option A :=
  match l with
  | [] => None
  | (k', v) :: l' => if String.eqb k k' then Some v else sget k l'
  end.
Fixpoint sset {A} (k : string) (v : A) (l : list (string * A)) : list (string * A) :=
  match l with
  | [] => [(k, v)]
  | (k', v') :: l' => if String.eqb k k' then (k', v) :: l' else (k', v') :: sset k v l'
  end.

(** * parse_slice_by, misc_utils.py 641-670 *)
Section Slices.
  (** Parsed values; [parse] (misc_utils.py 338-354) turns a text into a value. *)
  Context {T : Type}.
  Variable teqb : T -> T -> bool.
  Variable parse : string -> T.

  Inductive slice_value := VText (s : string) | VOther (t : T).

  (** The characters of a text ([map] over a Python string). *)
  Fixpoint chars (s : string) : list string :=
    match s with EmptyString => [] | String c s' => String c "" :: chars s' end.

  (** Sets, kept as lists in some order. *)
  Definition set_add (t : T) (l : list T) : list T := if existsb (teqb t) l then l else (l ++ [t])%list.
  Definition to_set (l : list T) : list T := fold_left (fun s t => set_add t s) l [].

  (** Lines 649-654: a text is split at "_" when it has one; the values are then
      parsed one by one - also when the text was not split. *)
  Definition text_values (s : string) : list T :=
    map parse (if (0 <? count_char "_" s)%nat then split_on "_" s else chars s).

  (** Lines 656-666.  The result of [union] at 658 is discarded. *)
  Definition slice_one (slices : list (string * list T)) (kv : string * slice_value)
    : list (string * list T) :=
    let '(k, v) := kv in
    match sget k slices with
    | Some old =>
      match v with
      | VText s => slices
      | VOther t => sset k (set_add t old) slices
      end
    | None =>
      match v with
      | VText s => sset k (to_set (text_values s)) slices
      | VOther t => sset k [t] slices
      end
    end.
  Definition parse_slice_by (l : list (string * slice_value)) : list (string * list T) :=
    fold_left slice_one l [].
End Slices.
Arguments VText {T} _.
Arguments VOther {T} _.

(** * dims_to_list, click_parsers.py 118-131 *)

(** One option: its name and the following values ([None] or a text).  The
    accumulator [tup] is reset for every value, and survives from one option to
    the next when an option has no values. *)
Definition dims_values (tup : option (list (list string))) (vs : list (option string))
  : option (list (list string)) :=
  fold_left (fun tup v => match v with
                          | None => Some []
                          | Some "" => Some []
                          | Some s => Some [split_on "&" s]
                          end) vs tup.
Fixpoint dims_items (tup : option (list (list string))) (l : list (string * list (option string)))
  : res (list (string * list (list string))) :=
  match l with
  | [] => Ok []
  | (name, vs) :: l' =>
    match dims_values tup vs with
    | None => Raise EUnbound
    | Some t => do r <- dims_items (Some t) l' ; Ok ((name, t) :: r)
    end
  end.
Definition dims_to_list (l : list (string * list (option string))) := dims_items None l.

(** * unpack_statistics, click_parsers.py 138-180 *)

(** A pair of a statistic and the dimensions it is taken over. *)
Definition stat_dims := (string * option (list string))%type.
(** An entry of a metric's list: a list of such pairs, or - when the metric was
    given before - a whole list of entries appended as one element. *)
Inductive entry := Sub (l : list stat_dims) | Nested (l : list (list stat_dims)).

Definition unpack_dim (d : string) : option (list string) :=
  match d with "" => None | _ => Some (split_on "+" d) end.
Definition substatistics (stat dim : string) : list stat_dims :=
  combine (split_on "|" stat) (map unpack_dim (split_on "|" dim)).

(** The callback receives three texts per option (main.py 575).  Splitting at "&"
    only when it occurs is splitting at "&". *)
Definition unpack_one (st : list (string * list entry)) (opt : string * string * string)
  : res (list (string * list entry)) :=
  let '(metric, stat, dim) := opt in
  let ss := split_on "&" stat in
  let ds := split_on "&" dim in
  if (List.length ss =? List.length ds)%nat then
    let subs := map (fun p => substatistics (fst p) (snd p)) (combine ss ds) in
    match sget metric st with
    | Some old => Ok (sset metric (old ++ [Nested subs])%list st)
    | None => Ok (sset metric (map Sub subs) st)
    end
  else Raise EAssert.
Fixpoint unpack_all (st : list (string * list entry)) (l : list (string * string * string))
  : res (list (string * list entry)) :=
  match l with
  | [] => Ok st
  | o :: l' => do st' <- unpack_one st o ; unpack_all st' l'
  end.
Definition unpack_statistics (l : list (string * string * string)) := unpack_all [] l.

(** * evaluate_kwargs_callback, click_parsers.py 32-44 *)

(** [s.strip(' ')]. *)
Fixpoint lstrip (s : string) : string :=
  match s with String " " s' => lstrip s' | _ => s end.
Fixpoint rstrip (s : string) : string :=
  match s with
  | EmptyString => ""
  | String c s' => match rstrip s' with
                   | EmptyString => if Ascii.eqb c " " then "" else String c ""
                   | r => String c r
                   end
  end.
Definition strip (s : string) : string := lstrip (rstrip s).

(** [s.split('=',1)]. *)
Fixpoint split_first (c : ascii) (s : string) : option (string * string) :=
  match s with
  | EmptyString => None
  | String a s' =>
    if Ascii.eqb a c then Some ("", s')
    else match split_first c s' with Some (x, y) => Some (String a x, y) | None => None end
  end.
Definition kwarg_of (s : string) : string * string :=
  match split_first "=" s with
  | Some (k, v) => (strip k, strip v)
  | None => (strip s, strip s)
  end.
Definition evaluate_kwargs_callback (l : list string) : list (string * string) := map kwarg_of l.
