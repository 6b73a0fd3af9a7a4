(** OutputSearch: how experiment directories are named (gensit/outputs.py
    880-930, gensit/experiments.py 220-229) and found again
    (gensit/outputs.py 2198-2298, utils/misc_utils.py 492-512). *)
From Coq Require Import List String Ascii QArith Bool Arith Lia.
From Verif Require Import Base PyMonad.
Import ListNotations.
Open Scope string_scope.
Open Scope nat_scope.
Open Scope list_scope.

Definition text := list ascii.
Definition tx (s : string) : text := list_ascii_of_string s.

(** * Paths *)

Definition slash : ascii := "/"%char.
Definition us : ascii := "_"%char.

(** os.path.join of two components (posixpath.join). *)
Definition absolute (b : text) : bool := match b with c :: _ => Ascii.eqb c slash | [] => false end.
Definition ends_slash (a : text) : bool := match rev a with c :: _ => Ascii.eqb c slash | [] => false end.
Definition pjoin (a b : text) : text :=
  if absolute b then b
  else match a with
  | [] => b
  | _ => if ends_slash a then a ++ b else a ++ slash :: b
  end.

(** * Naming *)

(** The moment an experiment starts, to the second. *)
Record stamp := mkstamp { day : nat; month : nat; year : nat; hour : nat; minute : nat; second : nat }.

Definition digit (n : nat) : ascii := ascii_of_nat (48 + n mod 10).
Definition pad2 (n : nat) : text := [digit (n / 10); digit n].
Definition pad4 (n : nat) : text := [digit (n / 1000); digit (n / 100); digit (n / 10); digit n].

(** datetime.now().strftime("%d_%m_%Y_%H_%M_%S"), experiments.py 225, 229, 3647
    (for years of four digits). *)
Definition stamp_text (s : stamp) : text :=
  pad2 (day s) ++ us :: pad2 (month s) ++ us :: pad4 (year s) ++ us ::
  pad2 (hour s) ++ us :: pad2 (minute s) ++ us :: pad2 (second s).

(** str.lower on ASCII letters. *)
Definition lower_char (c : ascii) : ascii :=
  let n := nat_of_ascii c in if (65 <=? n) && (n <=? 90) then ascii_of_nat (n + 32) else c.
Definition upper_char (c : ascii) : ascii :=
  let n := nat_of_ascii c in if (97 <=? n) && (n <=? 122) then ascii_of_nat (n - 32) else c.
Definition lower (l : text) : text := map lower_char l.
Definition capitalize (l : text) : text :=
  match l with [] => [] | c :: r => upper_char c :: lower r end.

Fixpoint teqb (a b : text) : bool :=
  match a, b with
  | [], [] => true
  | x :: a', y :: b' => Ascii.eqb x y && teqb a' b'
  | _, _ => false
  end.

(** A sigma entry of the configuration: a sweep dictionary, text, null or a number. *)
Inductive sigma_entry := SSweep | SText (s : text) | SNull | SNum (q : Q).

(** sigma_to_noise_regime, utils/misc_utils.py 1058-1070.  [if sigma:] is
    false for None, 0 and the empty text. *)
Definition sigma_regime (x : sigma_entry) : text :=
  match x with
  | SNull => tx "learned"
  | SText [] => tx "learned"
  | SText s => if teqb s (tx "none") then tx "learned" else s
  | SNum q =>
    if Qeq_bool q 0 then tx "learned"
    else if Qle_bool 10000 (2 / (q * q)) then tx "low"
    else if Qle_bool q 0 then tx "learned" else tx "high"
  | SSweep => tx "learned"
  end.

(** The noise level, outputs.py 882-896.  [regimes] and [sigmas] are the values
    deep_get finds for 'noise_regime' and 'sigma'; [learnt] tells whether
    'sigma' is in training.to_learn. *)
Definition noise_level (regimes : list text) (learnt : bool) (sigmas : list sigma_entry) : text :=
  capitalize
    match regimes with
    | r :: _ => r
    | [] =>
      if learnt then tx "learned"
      else match sigmas with
      | [SSweep] => tx "sweeped"
      | [s] => sigma_regime s
      | _ => tx "unset"
      end
    end.

(** What update_experiment_directory_id reads; a title or proposal that is not
    text (a sweep) is None. *)
Record run := mkrun {
  r_type : text; r_K : text; r_noise : text;
  r_proposal : option text; r_title : option text; r_start : stamp;
  r_out : text; r_dataset : text; r_group : text }.

Definition opt_part (o : option text) : text := match o with Some t => t ++ [us] | None => [] end.

(** update_experiment_directory_id, outputs.py 898-925 (no sweep id given). *)
Definition experiment_id (r : run) : text :=
  let k := lower (r_type r) in
  (if teqb k (tx "tablesummariesmcmcconvergence") || teqb k (tx "table_mcmc_convergence") then
     r_type r ++ tx "_K" ++ r_K r ++ us :: opt_part (r_proposal r)
   else if teqb k (tx "table_mcmc") then
     r_type r ++ us :: opt_part (r_proposal r)
   else
     r_type r ++ us :: r_noise r ++ tx "Noise_")
  ++ opt_part (r_title r) ++ stamp_text (r_start r).

(** outputs_path, outputs.py 112-117. *)
Definition run_path (r : run) : text :=
  pjoin (pjoin (pjoin (r_out r) (r_dataset r)) (r_group r)) (experiment_id r).

(** * Regular expressions

    The part of Python's re module that the patterns of outputs.py 2222-2234
    use: characters, '.', and '*' applied to one of them.  The other
    metacharacters ( [ ] ( ) { } + ? ^ $ | and backslash ) are not modelled:
    statements about patterns assume them absent ([simple]). *)
Inductive atom := Lit (c : ascii) | Any.
Inductive item := One (a : atom) | Star (a : atom).

Definition newline : ascii := "010"%char.
Definition dot : ascii := "."%char.
Definition star : ascii := "*"%char.
Definition amatch (a : atom) (c : ascii) : bool :=
  match a with Lit d => Ascii.eqb c d | Any => negb (Ascii.eqb c newline) end.
Definition atom_of (c : ascii) : atom := if Ascii.eqb c dot then Any else Lit c.

(** re.error ("nothing to repeat", "multiple repeat") for a misplaced '*'. *)
Fixpoint parse (l : text) : res (list item) :=
  match l with
  | [] => Ok []
  | c :: r =>
    if Ascii.eqb c star then Raise EExn else
    match r with
    | c' :: r' =>
      if Ascii.eqb c' star then do p <- parse r' ; Ok (Star (atom_of c) :: p)
      else do p <- parse r ; Ok (One (atom_of c) :: p)
    | [] => Ok [One (atom_of c)]
    end
  end.

Fixpoint star_match (k : text -> bool) (a : atom) (l : text) : bool :=
  k l || match l with c :: l' => amatch a c && star_match k a l' | [] => false end.
Fixpoint pmatch (p : list item) (l : text) : bool :=
  match p with
  | [] => true
  | One a :: p' => match l with c :: l' => amatch a c && pmatch p' l' | [] => false end
  | Star a :: p' => star_match (pmatch p') a l
  end.
(** re.search: a match starting anywhere. *)
Fixpoint search (p : list item) (l : text) : bool :=
  pmatch p l || match l with _ :: l' => search p l' | [] => false end.

(** * The file system *)

Inductive dir := Dir (files : list text) (subs : list (text * dir)).

(** [fs p] is the directory at path [p], None when there is none. *)
Definition fsys := text -> option dir.

Fixpoint has_prefix (p l : text) : bool :=
  match p, l with
  | [], _ => true
  | x :: p', y :: l' => Ascii.eqb x y && has_prefix p' l'
  | _, [] => false
  end.
(** [sub in text] *)
Fixpoint contains (sub l : text) : bool :=
  has_prefix sub l || match l with _ :: l' => contains sub l' | [] => false end.

(** walklevel, misc_utils.py 504-512: the separators below the starting
    directory are its depth; deeper directories than [lvl] are not entered. *)
Fixpoint walk (lvl : nat) (p : text) (d : dir) : list (text * list text) :=
  match d with
  | Dir files subs =>
    (p, files) ::
    match lvl with
    | 0 => []
    | S l => flat_map (fun nd => walk l (pjoin p (fst nd)) (snd nd)) subs
    end
  end.

Fixpoint rstrip (l : text) : text :=
  match l with
  | [] => []
  | c :: r => match rstrip r with [] => if Ascii.eqb c slash then [] else [c] | r' => c :: r' end
  end.

(** get_all_subdirectories, misc_utils.py 492-502. *)
Definition subdirectories (p : text) (d : dir) : list text :=
  map fst (filter (fun e => existsb (contains (tx "config.json")) (snd e)) (walk 2 (rstrip p) d)).

(** * Searching *)

(** The search options (main.py 557-562); click gives every one of them. *)
Record query := mkquery {
  q_out : text; q_group : text; q_datasets : list text; q_directories : list text;
  q_types : list text; q_titles : list text; q_dates : list text; q_exclude : list text }.

Definition ifne (t u : text) : text := match t with [] => [] | _ => u end.

(** One folder pattern, outputs.py 2228-2236. *)
Definition folder_pattern (data group ty title date : text) : text :=
  pjoin (pjoin data group)
    (ifne ty (ty ++ tx ".*") ++ ifne title (us :: title ++ tx ".*") ++ ifne date (date ++ tx "*")).

(** outputs.py 2214-2237 *)
Definition folder_patterns (q : query) : list text :=
  let dates := match q_dates q with [] => [[]] | l => l end in
  flat_map (fun data => flat_map (fun ty => flat_map (fun ti => map (fun dt =>
    folder_pattern data (q_group q) ty ti dt) dates) (q_titles q)) (q_types q)) (q_datasets q).

Fixpoint mapR {A B} (f : A -> res B) (l : list A) : res (list B) :=
  match l with [] => Ok [] | x :: r => do y <- f x ; do ys <- mapR f r ; Ok (y :: ys) end.

(** "(" + ")|(".join(patterns) + ")", outputs.py 2264-2266.  No pattern at all
    gives "()", which matches everywhere. *)
Definition found_by (ps : list (list item)) (l : text) : bool :=
  match ps with [] => true | _ => existsb (fun p => search p l) ps end.

(** str comparison. *)
Fixpoint tleb (a b : text) : bool :=
  match a, b with
  | [], _ => true
  | _ :: _, [] => false
  | x :: a', y :: b' =>
    if nat_of_ascii x <? nat_of_ascii y then true
    else if nat_of_ascii y <? nat_of_ascii x then false else tleb a' b'
  end.

Section Sort.
  Context {A : Type} (le : A -> A -> bool).
  (** sorted: stable. *)
  Fixpoint insert (x : A) (l : list A) : list A :=
    match l with [] => [x] | y :: r => if le x y then x :: l else y :: insert x r end.
  Definition sort (l : list A) : list A := fold_right insert [] l.
End Sort.

(** The date in a path: date_pattern (outputs.py 2273) is
    \d{1,2}_\d{1,2}_\d{2,4}_\d{1,2}_\d{1,2}_\d{1,2}; every group but the last
    is followed by '_', which is not a digit, so the number of digits a group
    takes is determined and no backtracking happens. *)
Definition is_digit (c : ascii) : bool :=
  let n := nat_of_ascii c in (48 <=? n) && (n <=? 57).
Definition dval (c : ascii) : nat := nat_of_ascii c - 48.
Fixpoint span (l : text) : text * text :=
  match l with
  | c :: r => if is_digit c then (let '(a, b) := span r in (c :: a, b)) else ([], l)
  | [] => ([], [])
  end.
Definition number (l : text) : nat := fold_left (fun n c => 10 * n + dval c) l 0.

(** A group of lo to hi digits and the '_' that follows. *)
Definition group (lo hi : nat) (l : text) : option (text * text) :=
  let '(ds, r) := span l in
  if (lo <=? List.length ds) && (List.length ds <=? hi) then
    match r with c :: r' => if Ascii.eqb c us then Some (ds, r') else None | [] => None end
  else None.

Definition obind {A B} (x : option A) (f : A -> option B) : option B :=
  match x with Some a => f a | None => None end.

Definition date_at (l : text) : option (list text) :=
  obind (group 1 2 l) (fun '(d, l1) =>
  obind (group 1 2 l1) (fun '(m, l2) =>
  obind (group 2 4 l2) (fun '(y, l3) =>
  obind (group 1 2 l3) (fun '(h, l4) =>
  obind (group 1 2 l4) (fun '(mi, l5) =>
  match firstn 2 (fst (span l5)) with
  | [] => None
  | s => Some [d; m; y; h; mi; s]
  end))))).

Fixpoint date_search (l : text) : option (list text) :=
  match date_at l with
  | Some x => Some x
  | None => match l with _ :: l' => date_search l' | [] => None end
  end.

Definition leap (y : nat) : bool :=
  (y mod 4 =? 0) && (negb (y mod 100 =? 0) || (y mod 400 =? 0)).
Definition days_in (m y : nat) : nat :=
  if m =? 2 then (if leap y then 29 else 28)
  else if (m =? 4) || (m =? 6) || (m =? 9) || (m =? 11) then 30 else 31.
Definition valid_stamp (s : stamp) : bool :=
  (1 <=? month s) && (month s <=? 12) && (1 <=? day s) && (day s <=? days_in (month s) (year s)) &&
  (1 <=? year s) && (hour s <? 24) && (minute s <? 60) && (second s <? 60).

(** datetime.strptime(..., "%d_%m_%Y_%H_%M_%S"): %Y needs four digits, and a
    date that does not exist is a ValueError. *)
Definition strptime (l : list text) : res stamp :=
  match l with
  | [d; m; y; h; mi; s] =>
    if List.length y =? 4 then
      let st := mkstamp (number d) (number m) (number y) (number h) (number mi) (number s) in
      if valid_stamp st then Ok st else Raise EValue
    else Raise EValue
  | _ => Raise EValue
  end.

(** The sort key, outputs.py 2276-2281: no date at all is None.group. *)
Definition folder_date (p : text) : res stamp :=
  match date_search p with None => Raise EAttr | Some l => strptime l end.

(** Comparison of datetime objects. *)
Definition stamp_fields (s : stamp) : list nat := [year s; month s; day s; hour s; minute s; second s].
Fixpoint lexleb (a b : list nat) : bool :=
  match a, b with
  | x :: a', y :: b' => if x <? y then true else if y <? x then false else lexleb a' b'
  | [], _ => true
  | _, [] => false
  end.
Definition before (s t : stamp) : bool := lexleb (stamp_fields s) (stamp_fields t).

(** sorted(matching_dirs, key = ...) *)
Definition by_date (l : list text) : res (list text) :=
  do ks <- mapR (fun p => do s <- folder_date p ; Ok (s, p)) l ;
  Ok (map snd (sort (fun a b => before (fst a) (fst b)) ks)).

(** find_matching_output_folders, outputs.py 2197-2298.  [not in] with the
    tuple of exclusions on the left is a TypeError as soon as it is evaluated. *)
Definition find_folders (fs : fsys) (exists_path : text -> bool) (q : query) : res (list text) :=
  do matching <-
    match q_directories q with
    | _ :: _ =>
      Ok (filter exists_path
        (flat_map (fun ds => map (fun dr => pjoin (pjoin (q_out q) ds) dr) (q_directories q)) (q_datasets q)))
    | [] =>
      do ps <- mapR parse (folder_patterns q) ;
      let all := flat_map (fun ds =>
          let p := pjoin (pjoin (q_out q) ds) (q_group q) in
          match fs p with Some d => subdirectories p d | None => [] end) (q_datasets q) in
      let hits := filter (found_by ps) (sort tleb all) in
      match q_exclude q, hits with
      | _ :: _, _ :: _ => Raise EType
      | _, _ => by_date hits
      end
    end ;
  match matching with [] => Raise EExn | _ => Ok matching end.
