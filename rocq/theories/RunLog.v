(** RunLog: the log of a run: utils/logger_class.py, with open_output_file and
    write_log of outputs.py and the order in which experiments open and close
    their outputs (experiments.py 87-127, 452-457, 3756-3820).

    A message is the text a formatter makes of it.  There is one logger per
    command (main.py 306, 416), handed to everything it creates.  Other
    processes of a concurrent sweep have their own. *)
From Coq Require Import List String Bool Arith.
From Verif Require Import Base Inputs.
Import ListNotations.
Open Scope string_scope.
Open Scope nat_scope.
Open Scope list_scope.

(** The methods of the logger, and the levels they log at: logger_class.py
    15-24 and the constants of the logging module. *)
Inductive kind := Trace | Debug | Remark | Note | Iteration | Progress | Info | Caution
                | Hilight | Warning | Success | Error | Critical | Empty.
Definition level_of (k : kind) : nat :=
  match k with
  | Trace => 5 | Debug => 10 | Remark => 12 | Note => 17 | Iteration => 18 | Progress => 19
  | Info => 20 | Caution => 23 | Hilight => 25 | Warning => 30 | Success => 35 | Error => 40
  | Critical => 50 | Empty => 60
  end.

(** Logger.getEffectiveLevel: an unset level (0) is that of the root logger,
    WARNING. *)
Definition effective (l : nat) : nat := if Nat.eqb l 0 then 30 else l.
Definition enabled (logger_level message_level : nat) : bool := effective logger_level <=? message_level.

(** The level a method of DualLogger asks the console for before logging there,
    logger_class.py 208-318: warning asks for INFO (line 227). *)
Definition asked_of_console (k : kind) : nat :=
  match k with Warning => level_of Info | _ => level_of k end.

Record log := mklog {
  c_level : nat;                          (* console logger and handler *)
  f_level : nat; h_level : nat;           (* file logger, file handler *)
  h_file : string; h_buffer : list string;
  console : list string;                  (* lines shown, oldest first *)
  files : list (string * list string) }.

(** setup_logger, logger_class.py 37-60, 142-176, as main.py calls it; [t] is
    the random name of the temporary file.  logging.FileHandler is constructed
    without delay, so the temporary file is created at once, empty. *)
Definition temp_name (t : string) : string := "logs/temp_" ++ t ++ ".log".
Definition setup (level : nat) (t : string) (fs : list (string * list string)) : log :=
  mklog level 0 10 (temp_name t) [] []
        (match aget (temp_name t) fs with Some _ => fs | None => aset (temp_name t) [] fs end).

(** A call of one of the methods, logger_class.py 208-318; the file handler only
    keeps the line (line 80-81). *)
Definition say (k : kind) (m : string) (s : log) : log :=
  mklog (c_level s) (f_level s) (h_level s) (h_file s)
    (if enabled (f_level s) (level_of k) && (h_level s <=? level_of k) then h_buffer s ++ [m] else h_buffer s)
    (if enabled (c_level s) (asked_of_console k) && (enabled (c_level s) (level_of k) && (c_level s <=? level_of k))
     then console s ++ [m] else console s)
    (files s).

(** setLevels, logger_class.py 191-201. *)
Definition set_levels (c f : option nat) (s : log) : log :=
  mklog (match c with Some l => l | None => c_level s end)
        (match f with Some l => l | None => f_level s end)
        (match f with Some l => l | None => h_level s end)
        (h_file s) (h_buffer s) (console s) (files s).

(** open_output_file gives the handler the run's file, outputs.py 1012-1024; only
    when samples are exported (line 975). *)
Definition open_run (p : string) (s : log) : log :=
  mklog (c_level s) (f_level s) (h_level s) p (h_buffer s) (console s) (files s).

(** _write_to_file, logger_class.py 87-92: appends (mode 'a'). *)
Definition file_of (p : string) (fs : list (string * list string)) : list string :=
  match aget p fs with Some l => l | None => [] end.
Definition write_out (s : log) : log :=
  mklog (c_level s) (f_level s) (h_level s) (h_file s) []
        (console s) (aset (h_file s) (file_of (h_file s) (files s) ++ h_buffer s) (files s)).

Definition is_temp (p : string) : bool := String.prefix "logs/temp_" p.

(** write_log, outputs.py 939-947 (flush writes nothing as delay is set). *)
Definition close_run (s : log) : log := if is_temp (h_file s) then s else write_out s.

(** The interpreter exits: logging.shutdown closes every handler. *)
Definition exit_process (s : log) : log := write_out s.

(** What happens to the logger in the course of a command. *)
Inductive event := Say (k : kind) (m : string) | Levels (c f : option nat) | Open (p : string) | Close.
Definition step (s : log) (e : event) : log :=
  match e with
  | Say k m => say k m s
  | Levels c f => set_levels c f s
  | Open p => open_run p s
  | Close => close_run s
  end.
Definition happen (es : list event) (s : log) : log := fold_left step es s.

(** An experiment: its file, what is logged while it is set up after its file is
    opened, while it runs, and after its outputs are closed ("Experiment
    finished.", "Instance = ... DONE"). *)
Record expt := mkexpt { x_file : string; x_setup : list (kind * string); x_run : list (kind * string); x_after : list (kind * string) }.
Definition says (l : list (kind * string)) : list event := map (fun km => Say (fst km) (snd km)) l.
Definition set_up (x : expt) : list event := Open (x_file x) :: says (x_setup x).
Definition running (x : expt) : list event := says (x_run x) ++ [Close] ++ says (x_after x).

(** A sweep in sequence, experiments.py 3756-3820: each experiment is set up and
    run before the next; prepare_experiment (line 3748) sets the levels each
    time: console HILIGHT, file DEBUG. *)
Definition sweep_events (xs : list expt) : list event :=
  flat_map (fun x => Levels (Some 25) (Some 10) :: set_up x ++ running x) xs.
(** Several experiment types in one command: all are set up (experiments.py
    87-114), then all are run (116-126). *)
Definition batch_events (xs : list expt) : list event := flat_map set_up xs ++ flat_map running xs.
