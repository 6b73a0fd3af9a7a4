(** Axes of a figure: gensit/plot.py, `get_discrete_ticks` (270-401),
    `get_axes_limits` (178-268), `map_groups_to_axes` (404-427) and the parts of
    `plot_simple` (514-960) that use them; `hash_major_minor_var`
    (gensit/utils/misc_utils.py 1014-1029). *)
From Coq Require Import List String Ascii ZArith QArith Qminmax Qround Bool Arith Lia.
From Verif Require Import Base PyMonad Inputs.
Import ListNotations.
Open Scope string_scope.
Open Scope Z_scope.
Open Scope Q_scope.
Open Scope nat_scope.
Open Scope list_scope.

(** * Discrete ticks *)

(** The tick settings of an axis.  [NoVar]: no setting is named (the groups of
    subplots, plot.py 531-534).  [Given l]: the list of `--x_tick_locations`,
    each a start and a step; main.py 629-630 makes [None] (one null) of a call
    without the option. *)
Inductive locator := NoVar | Given (l : list (option (Q * Q))).
(** `if self.settings.get(tick_locator_var,None)`: an empty list counts as none. *)
Definition loc_list (lc : locator) : option (list (option (Q * Q))) :=
  match lc with NoVar => None | Given [] => None | Given l => Some l end.

Section Ticks.
  (** A row is the tuple of values of one point on one level (major or minor);
      [leb] is Python's comparison of the sort keys and [text] the label
      (`stringify`); a row without values has no label.  Simplified: the keys of
      all rows are comparable (otherwise Python raises and the program exits),
      and all rows of a level have the same number of values. *)
  Context {R : Type} (leb : R -> R -> bool) (text : R -> option string).

  (** sorted(data, key = ...), plot.py 303. *)
  Fixpoint insert_row (x : R) (l : list R) : list R :=
    match l with
    | [] => [x]
    | y :: r => if leb x y then x :: l else y :: insert_row x r
    end.
  Definition sort_rows (l : list R) : list R := fold_right insert_row [] l.

  (** The labels in order of first appearance, plot.py 304-318. *)
  Fixpoint firsts (seen : list string) (l : list string) : list string :=
    match l with
    | [] => []
    | s :: r => if memb s seen then firsts seen r else s :: firsts (s :: seen) r
    end.
  Definition labels_of (rows : list R) : list string :=
    firsts [] (flat_map (fun x => match text x with Some s => [s] | None => [] end) (sort_rows rows)).

  (** One level of ticks: its different labels, the labels drawn and where. *)
  Record level := mklevel { l_unique : list (option string); l_labels : list string; l_locs : list Q }.
  Definition no_level : level := mklevel [None] [] [].

  (** numpy.arange(start, start + n*step, step)[:n], plot.py 329-337. *)
  Definition places (start step : Q) (n : nat) : list Q :=
    map (fun k => (start + inject_Z (Z.of_nat k) * step)%Q) (seq 0 n).

  (** The body of the loop over levels, plot.py 288-348; [i] is 0 for major and 1
      for minor, [reps] the number of labels of the minor level.  A missing
      component or an empty level is caught (IndexError, AssertionError), and so is
      a missing second pair of the setting; every other exception ends the
      program. *)
  Definition level_of (lc : locator) (i reps : nat) (rows : option (list R)) : res level :=
    match rows with
    | None => Ok no_level
    | Some rs =>
        match labels_of rs with
        | [] => Ok no_level
        | u =>
            let labels := List.concat (repeat u reps) in
            match loc_list lc with
            | None => Ok (mklevel (map Some u) labels [])
            | Some l =>
                match nth_error l i with
                | None => Ok (mklevel [None] labels [])
                | Some None => Raise EExn
                | Some (Some (a, s)) =>
                    if Qeq_bool s 0 then Raise EExn
                    else Ok (mklevel (map Some u) labels (places a s (List.length labels)))
                end
            end
        end
    end.

  (** A point on a discrete axis: its major and its minor row; the second may be
      absent. *)
  Definition tick_point := (R * option R)%type.
  Definition minors (ps : list tick_point) : option (list R) :=
    fold_right (fun p acc => match snd p, acc with Some x, Some l => Some (x :: l) | _, _ => None end) (Some []) ps.

  (** stringify of a label, misc_utils.py 702-705. *)
  Definition show (o : option string) : string := match o with Some s => s | None => "none" end.

  (** The place of the i-th major and j-th minor label, plot.py 352-395. *)
  Definition place (lc : locator) (i : nat) (j : option nat) : option Q :=
    match loc_list lc with
    | None => match j with None => Some (inject_Z (Z.of_nat i)) | Some _ => None end
    | Some (Some (a, s) :: r) =>
        match j with
        | None => Some (inject_Z (Z.of_nat i) * s + a)%Q
        | Some j => match r with
                    | Some (_, m) :: _ => Some (inject_Z (Z.of_nat j) * m + inject_Z (Z.of_nat i) * s + a)%Q
                    | _ => None
                    end
        end
    | _ => None
    end.
  Definition entry_key (ma mi : option string) : string :=
    match mi with Some t => (show ma ++ "," ++ t)%string | None => show ma end.
  Definition numbered {A} (l : list A) : list (nat * A) := combine (seq 0 (List.length l)) l.
  (** product(ticks[0]['unique'], ticks[1]['unique']), with the indices. *)
  Definition pairs (ma mi : list (option string)) : list ((nat * option string) * (nat * option string)) :=
    list_prod (numbered ma) (numbered mi).
  Definition put (lc : locator) (h : list (string * Q)) (e : (nat * option string) * (nat * option string))
      : list (string * Q) :=
    let '((i, m), (j, t)) := e in
    match place lc i (match t with Some _ => Some j | None => None end) with
    | Some q => aset (entry_key m t) q h
    | None => h
    end.
  Definition hashmap (lc : locator) (ma mi : list (option string)) : list (string * Q) :=
    fold_left (put lc) (pairs ma mi) [].

  (** get_discrete_ticks, plot.py 270-401: the major level, the minor level if
      there is one, and the place of every label. *)
  Definition discrete_ticks (lc : locator) (ps : list tick_point) : res (level * level * list (string * Q)) :=
    do mi <- level_of lc 1 1 (minors ps) ;
    do ma <- level_of lc 0 (List.length (l_unique mi)) (Some (map fst ps)) ;
    Ok (ma, mi, hashmap lc (l_unique ma) (l_unique mi)).

  (** hash_major_minor_var, misc_utils.py 1014-1029: a point without a second
      component raises IndexError. *)
  Definition position (h : list (string * Q)) (p : tick_point) : res (option Q) :=
    match snd p with
    | None => Raise EIndex
    | Some mi => Ok (aget (entry_key (text (fst p)) (text mi)) h)
    end.
  (** The places the points of a discrete axis are drawn at, plot.py 548-583. *)
  Definition discrete_positions (lc : locator) (ps : list tick_point) : res (list (option Q)) :=
    do t <- discrete_ticks lc ps ;
    mapM (position (snd t)) ps.
End Ticks.

(** * Axis limits *)

(** One axis of one subplot, `get_axes_limits` plot.py 178-268 for one variable:
    [set] is the pair of the settings, [cur] the limits kept from earlier points
    of the same subplot, [data] the values of this call with NaNs dropped, and
    [ticks] the places of the labels when the axis is discrete.  Simplified:
    exact rational numbers; data without any number raises. *)
Definition omin (a : option Q) (b : Q) : Q := match a with Some x => Qmin b x | None => b end.
Definition omax (a : option Q) (b : Q) : Q := match a with Some x => Qmax b x | None => b end.
Definition qmin_list (x : Q) (l : list Q) : Q := fold_left Qmin l x.
Definition qmax_list (x : Q) (l : list Q) : Q := fold_left Qmax l x.
(** astype('int32'): the fraction is dropped. *)
Definition truncate (q : Q) : Q := inject_Z (Z.quot (Qnum q) (Zpos (Qden q))).
Definition limits := (option Q * option Q)%type.
Definition has_none (l : limits) : bool :=
  match l with (Some _, Some _) => false | _ => true end.
Definition axis_limits (set : limits) (cur : option limits) (ticks : option (list Q)) (data : list Q) : res limits :=
  let c := match cur with Some c => c | None => set end in
  if has_none set || has_none c
  then match ticks with
       | Some [] => Raise EValue
       | Some (x :: l) => Ok (Some (truncate (qmin_list x l)), Some (truncate (qmax_list x l)))
       | None => match data with
                 | [] => Raise EValue
                 | x :: l => Ok (Some (omin (fst c) (qmin_list x l)), Some (omax (snd c) (qmax_list x l)))
                 end
       end
  else match c, ticks with
       | (Some lo, Some hi), Some (x :: l) =>
           Ok (Some (Qmin 0 lo), Some (Qmax (truncate (qmax_list x l) + 1) hi))
       | _, Some [] => Raise EValue
       | _, None => Ok c
       | _, _ => Ok c
       end.
(** The limits of a subplot after all of its points, plot.py 733-843. *)
Fixpoint subplot_limits (set : limits) (cur : option limits) (points : list (list Q)) : res (option limits) :=
  match points with
  | [] => Ok cur
  | d :: r => do c <- axis_limits set cur None d ; subplot_limits set (Some c) r
  end.

(** * Subplots *)

(** The groups of one axis, plot.py 520-535 and 1442-1454: empty groups are
    removed from the list, then the labels are numbered.  A group is the list of
    the texts of its variables; groups are ordered by [leb]. *)
Definition kept_groups (gs : list (list string)) : list (list string) :=
  filter (fun g => negb (match g with [] => true | _ => false end)) gs.
Definition group_point (g : list string) : string * option string :=
  match g with [] => ("", None) | [a] => (a, None) | a :: b :: _ => (a, Some b) end.
(** ','.join of the components, misc_utils.py 687-690. *)
Fixpoint commas (l : list string) : string :=
  match l with [] => "none" | [a] => a | a :: r => (a ++ "," ++ commas r)%string end.
Definition group_map (leb : string -> string -> bool) (gs : list (list string)) : res (list (string * Q)) :=
  match kept_groups gs with
  | [] => Ok []
  | ks => do t <- discrete_ticks leb (fun s => Some s) NoVar (map group_point ks) ; Ok (snd t)
  end.
(** map_groups_to_axes for one variable, plot.py 404-427. *)
Definition group_index (h : list (string * Q)) (ks : list (list string)) (i : nat) : Q :=
  match h with
  | [] => 0%Q
  | _ => match nth_error ks i with
         | None => 0%Q
         | Some g => match aget (commas g) h with Some q => q | None => 0%Q end
         end
  end.
Definition cells (ny nx : nat) : list (nat * nat) :=
  flat_map (fun r => map (fun c => (r, c)) (seq 0 (Nat.max nx 1))) (seq 0 (Nat.max ny 1)).
(** plot_simple, plot.py 733-848: the subplot of every point, then the limits of
    every subplot of the grid are read; one without a point raises KeyError.
    Simplified: only the subplots are kept. *)
Definition subplots (leb : string -> string -> bool) (ygs xgs : list (list string)) (n : nat)
    : res (list (Q * Q)) :=
  do hx <- group_map leb xgs ;
  do hy <- group_map leb ygs ;
  let used := map (fun i => (group_index hy (kept_groups ygs) i, group_index hx (kept_groups xgs) i)) (seq 0 n) in
  if forallb (fun rc => existsb (fun u => Qeq_bool (fst u) (inject_Z (Z.of_nat (fst rc)))
                                    && Qeq_bool (snd u) (inject_Z (Z.of_nat (snd rc)))) used)
             (cells (List.length hy) (List.length hx))
  then Ok used else Raise EKey.
