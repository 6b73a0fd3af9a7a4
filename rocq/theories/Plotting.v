(** The data behind a figure: gensit/plot.py, `data_plot`, `extract_plot_variable`
    (labels and drawing order), `merge_plot_settings`, and the label helpers of
    gensit/utils/misc_utils.py. *)
From Coq Require Import List String Ascii ZArith Bool Arith Lia.
From Verif Require Import Base PyMonad Inputs.
Import ListNotations.
Open Scope string_scope.
Open Scope Z_scope.
Open Scope nat_scope.
Open Scope list_scope.

(** PLOT_VARIABLES, static/plot_variables.py 1-26. *)
Definition plot_variables : list string :=
  ["x"; "y"; "z"; "x_group"; "y_group"; "z_group";
   "marker_size"; "line_width"; "line_style"; "colour"; "opacity"; "hatch_opacity";
   "zorder"; "annotate"; "label"; "marker"; "hatch"].

(** * The points of a figure *)

Section Points.
  Context {V : Type}.

  (** plot_sett.update(extracted), plot.py 1687-1692. *)
  Definition update (d e : list (string * V)) : list (string * V) :=
    fold_left (fun a kv => aset (fst kv) (snd kv) a) e d.

  (** One output folder, plot.py 1667-1700 and 1733-1736: the dictionary
      `plot_sett` starts with the outputs and is updated with what was extracted
      from every metadata entry; a copy is appended to the points.  An exception
      ends the folder (`except: ... continue`) and keeps the points appended so
      far.  Simplified: an entry is given by what [extract_plot_settings] (1346-1385)
      returned for it, or by the exception it raised.  Also returned: the
      dictionary at the end of the loop, or the exception. *)
  Fixpoint folder_points (cur : list (string * V)) (entries : list (res (list (string * V))))
      (acc : list (list (string * V))) : list (list (string * V)) * res (list (string * V)) :=
    match entries with
    | [] => (acc, Ok cur)
    | Raise e :: _ => (acc, Raise e)
    | Ok x :: r => let cur' := update cur x in folder_points cur' r (acc ++ [cur'])
    end.

  (** One folder: its outputs object and its entries. *)
  Definition folder := (V * list (res (list (string * V))))%type.
  Definition start (f : folder) : list (string * V) := [("outputs", fst f)].

  (** All folders, plot.py 1665-1736 when the figure is not by experiment. *)
  Definition all_points (fs : list folder) : list (list (string * V)) :=
    fold_left (fun acc f => fst (folder_points (start f) (snd f) acc)) fs [].

  (** A merged column: a list with one value for each point that has the key, or
      the first value met. *)
  Inductive column := Many (vs : list V) | One (v : V).

  (** The body of the merging loop, plot.py 1392-1414.  Simplified: no value is
      None (extract_plot_settings drops those, 1357-1361), and values are not
      inspected. *)
  Definition merge_one (acc : list (string * column)) (kv : string * V) : list (string * column) :=
    let (k, v) := kv in
    if memb k plot_variables
    then match aget k acc with
         | Some (Many vs) => aset k (Many (vs ++ [v])) acc
         | _ => aset k (Many [v]) acc
         end
    else match aget k acc with
         | None => aset k (One v) acc
         | Some _ => acc
         end.
  Definition merge (points : list (list (string * V))) : list (string * column) :=
    fold_left (fun acc d => fold_left merge_one d acc) points [].

  (** The figure over all folders, plot.py 1742-1751 (drawing order apart). *)
  Definition figure (fs : list folder) : list (string * column) := merge (all_points fs).

  (** unpack_data(column, i), misc_utils.py 1507-1514, plot.py 750-763: the value
      a point is drawn with. *)
  Definition drawn (c : column) (i : nat) : option V :=
    match c with
    | Many [v] => Some v
    | Many vs => nth_error vs i
    | One v => Some v
    end.

  (** By experiment, plot.py 1702-1732: [merge_plot_settings] is given the
      dictionary of the loop and not the list of points, and returns it as it is
      (1387-1418).  One figure per folder; a folder that failed has none. *)
  Definition figures_by_experiment (fs : list folder) : list (list (string * V)) :=
    flat_map (fun f => match snd (folder_points (start f) (snd f) []) with
                       | Ok d => [d] | Raise _ => [] end) fs.
End Points.

(** * The drawing order *)

(** Insertion in a list sorted by [key], before the first element that is not
    smaller; the stable sort numpy.lexsort applies once per key. *)
Fixpoint ins (key : nat -> Z) (i : nat) (l : list nat) : list nat :=
  match l with
  | [] => [i]
  | j :: r => if (key i <=? key j)%Z then i :: l else j :: ins key i r
  end.
Definition stable_sort (key : nat -> Z) (l : list nat) : list nat := fold_right (ins key) [] l.
(** numpy.lexsort(keys): the points sorted by each key in turn, plot.py 1430. *)
Definition lexsort (n : nat) (keys : list (nat -> Z)) : list nat :=
  fold_left (fun l k => stable_sort k l) keys (seq 0 n).

(** The loop of plot.py 1437-1438: the point at place i gets n - i. *)
Fixpoint fill (n i : nat) (l : list nat) (zs : list Z) : list Z :=
  match l with
  | [] => zs
  | j :: r => fill n (S i) r (upd_nth j (fun _ => Z.of_nat (n - i)) zs)
  end.

(** plot.py 1419-1440, for the list of points of a figure: an array of one row
    for each point.  numpy refuses rows of different lengths, and lexsort an
    empty list of keys.  Simplified: the values are integers; only their order
    and sign matter to the code. *)
Definition zorders (values : list (list Z)) : res (list Z) :=
  let n := List.length values in
  match values with
  | [] => Ok []
  | row :: _ =>
      let d := List.length row in
      if forallb (fun r => Nat.eqb (List.length r) d) values
      then if Nat.eqb d 0 then Raise EType
           else Ok (fill n 0 (lexsort n (map (fun i j => nth i (nth j values []) 0%Z) (seq 0 d)))
                      (repeat 0%Z n))
      else Raise EValue
  end.

(** One `--zorder` option: ascending or not, and the variable; main.py 682-685. *)
Record criterion := mkcrit { ascending : bool; by_var : string }.

(** The order tuple of a point, plot.py 1249-1272: a missing value counts as 1,
    an ascending criterion changes the sign. *)
Definition order_value (p : list (string * Z)) (c : criterion) : Z :=
  let v := match aget (by_var c) p with Some v => v | None => 1%Z end in
  if ascending c then (- v)%Z else v.
Definition order_tuple (cs : list criterion) (p : list (string * Z)) : list Z :=
  map (order_value p) cs.
(** The zorder of every point of the figure. *)
Definition drawing_order (cs : list criterion) (points : list (list (string * Z))) : res (list Z) :=
  zorders (map (order_tuple cs) points).

(** * Labels *)

(** RAW_EXPRESSIONS, static/plot_variables.py 118-148. *)
Definition raw_expressions : list (string * string) :=
  [
   ("SIM_MCMC", "\ellamframeworktag");
   ("JointTableSIM_MCMC", "\zachosframeworktag");
   ("SIM_NN", "\gaskinframeworktag");
   ("JointTableSIM_NN", "\frameworktag (Joint)");
   ("NonJointTableSIM_NN", "\frameworktag (Disjoint)");
   ("_unconstrained", "$\emptyset$");
   ("_total_constrained", "$\mytabletotal$");
   ("_total_intensity_row_table_constrained", "$\myintensitytotal,\mytablerowsums$");
   ("_row_constrained", "$\mytablerowsums$");
   ("_doubly_constrained", "$\mytablerowsums,\mytablecolsums$");
   ("_doubly_10#%_cell_constrained", "$\mytablerowsums,\mytablecolsums,\mytablecells{_1}$");
   ("_doubly_20#%_cell_constrained", "$\mytablerowsums,\mytablecolsums,\mytablecells{_2}$");
   ("_doubly_10%_cell_constrained", "$\mytablerowsums,\mytablecolsums,\mytablecells{_1}$");
   ("_doubly_20%_cell_constrained", "$\mytablerowsums,\mytablecolsums,\mytablecells{_2}$");
   ("TotallyConstrained", "$\myintensitytotal$");
   ("ProductionConstrained", "$\myintensityrowsums$");
   ("dest_attraction_ts_likelihood_loss", "$\lossoperator\left(\mylogdestattr \; ; \; \obsdata, \boldsymbol{\nu} \right)$");
   ("dest_attraction_ts_likelihood_loss,table_likelihood_loss", "$\lossoperator\left(\mylogdestattr, \mytable, \myintensity \; ; \; \obsdata, \boldsymbol{\nu} \right)$");
   ("dest_attraction_ts_likelihood_loss,total_intensity_distance_likelihood_loss,table_likelihood_loss", "$\lossoperator\left(\mylogdestattr,\mytable,\myintensity \; ; \; \obsdata^{\myintensityoned}, \boldsymbol{\nu} \right)$");
   ("dest_attraction_ts_likelihood_loss,total_intensity_distance_likelihood_loss", "$\lossoperator\left(\mylogdestattr, \myintensity \; ; \; \obsdata^{\myintensityoned}, \boldsymbol{\nu} \right)$");
   ("dest_attraction_ts_likelihood_loss,total_table_distance_likelihood_loss,table_likelihood_loss", "$\lossoperator\left(\mylogdestattr,\mytable,\myintensity \; ; \; \obsdata^{\mytableoned}, \boldsymbol{\nu} \right)$");
   ("dest_attraction_ts_likelihood_loss,total_table_distance_likelihood_loss", "$\lossoperator\left(\mylogdestattr, \mytable \; ; \; \obsdata^{\mytableoned}, \boldsymbol{\nu} \right)$");
   ("table_likelihood_loss", "$\lossoperator\left(\mytable, \myintensity \right)$");
   ("total_intensity_distance_likelihood_loss,table_likelihood_loss", "$\lossoperator\left(\mytable,\myintensity \; ; \; \obsdata^{\myintensityoned}, \boldsymbol{\nu} \right)$");
   ("total_intensity_distance_likelihood_loss", "$\lossoperator\left( \myintensity \; ; \; \obsdata^{\myintensityoned}, \boldsymbol{\nu} \right)$");
   ("total_intensity_distance_loss", "$\lossoperator\left( \myintensity \; ; \; \obsdata^{\myintensityoned} \right)$");
   ("total_table_distance_likelihood_loss,table_likelihood_loss", "$\lossoperator\left(\mytable,\myintensity \; ; \; \obsdata^{\mytableoned}, \boldsymbol{\nu} \right)$");
   ("total_table_distance_likelihood_loss", "$\lossoperator\left(\mytable \; ; \; \obsdata^{\mytableoned}, \boldsymbol{\nu} \right)$");
   ("total_table_distance_loss", "$\lossoperator\left(\mytable \; ; \; \obsdata^{\mytableoned} \right)$")].

(** A metadata value used in a label: text or a number (its Python str). *)
Inductive mval := MText (s : string) | MNum (s : string).
Definition mtext (v : mval) : string := match v with MText s => s | MNum s => s end.

(** tidy_label, misc_utils.py 1215-1222: underscores to spaces, commas to
    underscores, pairs of spaces to one space. *)
Fixpoint replace1 (a b : ascii) (s : string) : string :=
  match s with
  | EmptyString => EmptyString
  | String c r => String (if Ascii.eqb c a then b else c) (replace1 a b r)
  end.
Fixpoint squeeze (s : string) : string :=
  match s with
  | String " " (String " " r) => String " " (squeeze r)
  | String c r => String c (squeeze r)
  | EmptyString => EmptyString
  end.
Definition tidy_label (s : string) : string := squeeze (replace1 "," "_" (replace1 "_" " " s)).

(** latex_it, misc_utils.py 1227-1236.  The third case tidies `str()`, the empty
    text, and not the value.  Simplified: in the case of sigma the parsed value is
    the text of the value. *)
Definition latex_it (key : string) (v : mval) : mval :=
  match aget (mtext v) raw_expressions with
  | Some e => MText e
  | None => if String.eqb key "sigma" then MText ("$\sigma = " ++ mtext v ++ "$")%string
            else match v with
                 | MText _ => MText (tidy_label "")
                 | MNum s => MNum s
                 end
  end.

(** ', '.join(label_strs), plot.py 1247: a number is not text. *)
Fixpoint join_labels (l : list mval) : res string :=
  match l with
  | [] => Ok ""
  | [MText s] => Ok s
  | MText s :: r => do t <- join_labels r ; Ok (s ++ ", " ++ t)%string
  | MNum _ :: _ => Raise EType
  end.
(** The label of a point, plot.py 1235-1247: the keys asked for, empty ones
    skipped; a key the entry does not have raises KeyError. *)
Definition label_text (keys : list string) (meta : list (string * mval)) : res string :=
  do parts <- mapM (fun k => match aget k meta with
                             | Some v => Ok (latex_it k v)
                             | None => Raise EKey end)
                   (filter (fun k => negb (String.eqb k "")) keys) ;
  join_labels parts.
