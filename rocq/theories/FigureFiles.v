(** Files of a figure: its name and directory (plot.py 1512-1562), the exported
    data (misc_utils.py 152-194), the figure itself (misc_utils.py 127-149) and
    redrawing it from exported data (plot.py 1564-1640, 1765-1804; features of a
    point: plot.py 575-606, 750-763).

    Drawing is not modelled; a value is what survives JSON unchanged (texts,
    numbers, null, lists). *)
From Coq Require Import String List ZArith Lia Bool Arith.
From Verif Require Import Base PyMonad Inputs.
Import ListNotations.
Local Open Scope string_scope.
Local Open Scope nat_scope.
Local Open Scope list_scope.

(** * Names *)

(** A setting: not set, a text, a list of texts. *)
Inductive sval := SNull | SText (s : string) | STexts (l : list string).
Fixpoint texts_eqb (a b : list string) : bool :=
  match a, b with
  | [], [] => true
  | x :: a', y :: b' => String.eqb x y && texts_eqb a' b'
  | _, _ => false
  end.
Definition sval_eqb (a b : sval) : bool :=
  match a, b with
  | SNull, SNull => true
  | SText x, SText y => String.eqb x y
  | STexts x, STexts y => texts_eqb x y
  | _, _ => false
  end.
(** Text of a value inside an f-string; lists do not occur there. *)
Definition stext (v : sval) : string :=
  match v with SNull => "None" | SText s => s | STexts l => String.concat ", " l end.

Definition setting (k : string) (default : sval) (s : list (string * sval)) : sval :=
  match aget k s with Some v => v | None => default end.

(** if self.settings.get(key, default) != default: filename += [prefix value],
    plot.py 1525-1541. *)
Definition option_part (s : list (string * sval)) (o : (string * string) * string) : string :=
  let '((key, default), prefix) := o in
  let v := setting key (SText default) s in
  if sval_eqb v (SText default) then "" else (prefix ++ stext v)%string.
Definition named_options : list ((string * string) * string) :=
  [(("marker", "."), "marker_"); (("marker_size", ""), "markersize_"); (("line_style", "-"), "linestyle_");
   (("line_width", ""), "linewidth_"); (("hatch", ""), "hatch_"); (("colour", ""), "colour_");
   (("opacity", ""), "opacity_"); (("hatch_opacity", ""), "hatchopacity_")].

(** plot.py 1523-1524. *)
Definition label_part (s : list (string * sval)) : string :=
  let v := setting "label" (STexts [""]) s in
  if sval_eqb v (STexts [""]) then ""
  else ("label_" ++ match v with STexts l => String.concat "&" l | _ => stext v end)%string.

(** A slice: variable, burn-in, thinning, trimming. *)
Notation slice := (string * (string * string * string))%type.
Definition slice_part (sl : slice) : string :=
  let '(var, (b, th, tr)) := sl in
  ("(" ++ var ++ ",burnin" ++ b ++ ",thinning" ++ th ++ ",trimming" ++ tr ++ ")")%string.

(** '_'.join([f for f in filename if f]), plot.py 1544. *)
Definition joined (parts : list string) : string :=
  String.concat "_" (filter (fun p => negb (String.eqb p "")) parts).

(** plot.py 1514-1544; [name] is settings['figure_title'] (1708, 1746, 1796). *)
Definition plot_filename (slices : list slice) (s : list (string * sval)) : string :=
  joined ((match setting "figure_title" (SText "NONAME") s with SNull => "" | v => stext v end)
          :: String.concat "_" (map slice_part slices)
          :: label_part s
          :: map (option_part s) named_options).

(** The outputs a figure is drawn from: components of its path, the directory of
    all outputs of its configuration. *)
Record source := { outputs_path : list string; out_directory : list string }.
Definition contains (sub s : string) : bool := match String.index 0 sub s with Some _ => true | None => false end.

(** plot.py 1546-1562.  [None]: a list was passed instead of a dictionary (1793),
    so that plot_setting['outputs'] raises TypeError. *)
Definition plot_directory (data_dirs : list (list string)) (by_experiment : bool) (o : option source)
  : res (list string) :=
  match data_dirs with
  | [d] => Ok d
  | _ =>
    match o with
    | None => Raise EType
    | Some src =>
      if by_experiment then Ok (outputs_path src ++ ["figures"])
      else if existsb (contains "synthetic") (outputs_path src)
           then Ok (out_directory src ++ ["paper_figures"])
           else Ok (removelast (outputs_path src) ++ ["paper_figures"])
    end
  end.

Definition filepath (dir : list string) (name : string) : string := String.concat "/" (dir ++ [name]).

(** * Exported data *)

(** A value of a plot setting; [PObj c]: the Outputs object whose
    config.settings are [c]. *)
Inductive pv := PNull | PText (s : string) | PNum (z : Z) | PList (l : list pv)
  | PDict (l : list (string * pv)) | PObj (config : list (string * pv)).

Inductive content :=
| CData (d : list (string * pv))
| CTable (columns : list (string * pv))
| CSettings (s : list (string * sval))
| CFigure (points : list (string * pv)).
Notation files := (list (string * content)).

(** PLOT_COORDINATES_AND_CORE_FEATURES + ['outputs'], static/plot_variables.py
    1-26, plot.py 1720, 1758. *)
Definition figure_keys : list string :=
  ["x"; "y"; "z"; "x_group"; "y_group"; "z_group"; "marker_size"; "line_width"; "line_style"; "colour"; "opacity";
   "hatch_opacity"; "zorder"; "annotate"; "label"; "marker"; "hatch"; "outputs"].

Definition get (k : string) (d : list (string * pv)) : pv := match aget k d with Some v => v | None => PNull end.

(** pd.DataFrame.from_dict: lists of one length, single values repeated. *)
Definition is_list (v : pv) : bool := match v with PList _ => true | _ => false end.
Definition list_length (v : pv) : nat := match v with PList l => List.length l | _ => 0 end.
Definition data_frame (cols : list (string * pv)) : res (list (string * pv)) :=
  match filter (fun c => is_list (snd c)) cols with
  | [] => Raise EValue
  | c :: r => if forallb (fun c' => list_length (snd c') =? list_length (snd c)) r then Ok cols else Raise EValue
  end.

(** write_figure_data for one dictionary, misc_utils.py 152-194 (the list has
    one element, plot.py 1456).  'dat': dtypes is a tuple because of the comma at
    the end of line 162, so dtypes['x'] raises TypeError. *)
Definition write_data (format path : string) (d : list (string * pv)) (fs : files) : res files :=
  if negb (forallb (fun kv => memb (fst kv) figure_keys) d) then Raise EAssert
  else if String.eqb format "dat" then
    match aget "x" d with None => Raise EKey | Some _ => Raise EType end
  else if String.eqb format "json" then
    match get "outputs" d with
    | PObj c =>
      Ok (aset (path ++ "_data.json")%string
            (CData (map (fun k => (k, if String.eqb k "outputs" then PDict c else get k d)) figure_keys)) fs)
    | _ => Raise EAttr
    end
  else if String.eqb format "csv" then
    do t <- data_frame (map (fun k => (k, get k d)) figure_keys) ;
    Ok (aset (path ++ "_data.csv")%string (CTable t) fs)
  else Ok fs.
Definition write_figure_data (format path : string) (s : list (string * sval)) (d : list (string * pv)) (fs : files)
  : res files :=
  do fs1 <- write_data format path d fs ;
  Ok (aset (path ++ "_settings.json")%string (CSettings s) fs1).

(** The command plot for a figure over all folders, plot.py 1742-1764; [d] is the
    merged dictionary; write_figure, misc_utils.py 127-136. *)
Definition plot_figure (data_format figure_format : string) (slices : list slice) (s : list (string * sval))
    (src : source) (d : list (string * pv)) (fs : files) : res files :=
  do dir <- plot_directory [] false (Some src) ;
  let path := filepath dir (plot_filename slices s) in
  do fs1 <- write_figure_data data_format path s d fs ;
  Ok (aset (path ++ "." ++ figure_format)%string (CFigure d) fs1).

(** * Redrawing *)

Section Redraw.
  (** Config(settings) and Outputs(config): may raise. *)
  Variable load : pv -> res pv.

  (** One file, plot.py 1580-1622: [None] when it is skipped. *)
  Definition read_one (c : content) : res (option (list (string * pv))) :=
    match c with
    | CData d =>
      match aget "outputs" d with
      | None => Ok None
      | Some (PDict c) => do o <- load (PDict c) ; Ok (Some (aset "outputs" o d))
      | Some (PText c) => do o <- load (PText c) ; Ok (Some (aset "outputs" o d))
      | Some _ => Ok None
      end
    | _ => Ok None
    end.
  Fixpoint read_all (cs : list content) : res (list (list (string * pv))) :=
    match cs with
    | [] => Ok []
    | c :: r =>
      do x <- read_one c ;
      do xs <- read_all r ;
      Ok (match x with Some d => d :: xs | None => xs end)
    end.

  (** The command with --plot_data_dir: the files *data.json of every directory,
      in the order glob lists them (plot.py 1570-1577); the name of the figure
      (1793-1796); plot_settings[0] is drawn (522).  The result: the directory
      and the data drawn. *)
  Definition redraw (by_experiment : bool) (dirs : list (list string * list content))
    : res (list string * list (string * pv)) :=
    do ps <- read_all (flat_map snd dirs) ;
    do dir <- plot_directory (map fst dirs) by_experiment None ;
    match ps with
    | [] => Raise EIndex
    | d :: _ => Ok (dir, d)
    end.
End Redraw.

(** The features of a point with the value used when the setting is missing,
    plot.py 575-606. *)
Definition feature_defaults : list (string * pv) :=
  [("colour", PText "black"); ("label", PList [PText ""]); ("marker", PList [PText "o"]);
   ("line_style", PList [PText "-"]); ("annotate", PText ""); ("hatch", PText "")].
(** [value] if it is not a text, else a list with it (plot.py 577-606); then
    unpack_data (misc_utils.py 1507-1514). *)
Definition feature (f : string) (default : pv) (d : list (string * pv)) (i : nat) : res pv :=
  let v := match aget f d with Some v => v | None => default end in
  match v with
  | PText s => Ok (PText s)
  | PList [] => Ok (PList [])
  | PList [x] => Ok x
  | PList l => match nth_error l i with Some x => Ok x | None => Raise EIndex end
  | v => Ok v
  end.
