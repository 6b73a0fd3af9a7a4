(** Collections of outputs: grouping of the arrays of a sweep, loading them with
    or without workers, saving and re-reading a collection, and access to its
    elements.  gensit/outputs.py 233-330, 689-770, 1038-1265, 1322-1400, 1795-2170,
    2361-2378.

    A data array is seen through its name, its dimensions, the labels of its
    coordinates and an identity for its content. *)
From Coq Require Import List ZArith Lia Bool Arith String.
From Verif Require Import Base PyMonad CommandLine.
Import ListNotations.
Local Open Scope string_scope.
Local Open Scope nat_scope.
Local Open Scope list_scope.

Record darr := Darr {
  arr_name : string;                        (* attrs['arr_name'] *)
  arr_dims : list string;                   (* dims *)
  arr_coords : list (string * list string); (* coords *)
  arr_id : Z                                (* the content *)
}.

Definition smem (x : string) (l : list string) : bool := existsb (String.eqb x) l.

(** set(a) == set(b) *)
Definition same_set (a b : list string) : bool :=
  forallb (fun x => smem x b) a && forallb (fun x => smem x a) b.

(** [for x in l: st = f st x], stopping at the first error. *)
Fixpoint rfold {A S} (f : S -> A -> res S) (l : list A) (s : S) : res S :=
  match l with
  | [] => Ok s
  | x :: r => do s' <- f s x ; rfold f r s'
  end.

(** * Grouping *)

(** coordinates_matched, outputs.py 1900-1903; [coords.get(k)] is None for an
    unknown name and None has no [values]. *)
Fixpoint matched (ks : list string) (x d : darr) : res bool :=
  match ks with
  | [] => Ok true
  | k :: r =>
    match sget k (arr_coords x), sget k (arr_coords d) with
    | Some a, Some b => do m <- matched r x d ; Ok (same_set a b && m)
    | _, _ => Raise EAttr
    end
  end.

(** The loop over groups, outputs.py 1896-1917, when some dimension is not shared. *)
Fixpoint place (ks : list string) (d : darr) (gs : list (list darr)) : res (list (list darr)) :=
  match gs with
  | [] => Ok [[d]]
  | [] :: _ => Raise EIndex
  | (x :: g) :: rest =>
    do m <- matched ks x d ;
    if m then Ok (((x :: g) ++ [d]) :: rest)
    else do r <- place ks d rest ; Ok ((x :: g) :: r)
  end.

Definition coll (A : Type) := list (string * list A).

Section Grouping.
  (** ['iter'] for iterable samples followed by the schema's dimensions
      (outputs.py 1868-1869); None for a name that is not in DATA_SCHEMA. *)
  Variable core : string -> option (list string).
  (** TRAIN_SCHEMA.keys(), outputs.py 1873. *)
  Variable train : list string.

  Definition shared_dims (cd group_by : list string) : list string := cd ++ group_by ++ train.

  (** group_sample, outputs.py 1863-1917. *)
  Definition group_sample (group_by : list string) (c : coll (list darr)) (d : darr) : res (coll (list darr)) :=
    match core (arr_name d) with
    | None => Raise EKey
    | Some cd =>
      let shared := shared_dims cd group_by in
      match sget (arr_name d) c with
      | None => Ok (sset (arr_name d) [[d]] c)
      | Some [] => Raise EIndex
      | Some ([] :: _) => Raise EIndex
      | Some (((x :: _) :: _) as gs) =>
        let ks := filter (fun k => smem k shared) (arr_dims x) in
        let non_shared := filter (fun k => negb (smem k shared)) (arr_dims x) in
        do gs' <- (match non_shared with [] => Ok (gs ++ [[d]]) | _ => place ks d gs end) ;
        Ok (sset (arr_name d) gs' c)
      end
    end.

  (** group_samples_sequentially, outputs.py 1920-1931. *)
  Definition group_samples (group_by : list string) (ds : list darr) (c : coll (list darr)) : res (coll (list darr)) :=
    rfold (group_sample group_by) ds c.

  (** DataCollection(data = list), outputs.py 1815-1848: the list is popped from
      its end.  [join] is xr.combine_by_coords of a group of several arrays. *)
  Definition collection_of_list (join : list darr -> darr) (group_by : list string) (ds : list darr) : res (coll darr) :=
    do c <- rfold (group_sample group_by) (rev ds) [] ;
    Ok (map (fun e => (fst e, map (fun g => match g with [x] => x | _ => join g end) (snd e))) c).

  (** * Collecting the outputs of a sweep *)

  (** What reading one run gives: its arrays by sample name (None: removed by
      slicing), files missing or corrupted, or another error. A missing or
      unreadable data.h5 alone is logged and gives no arrays (outputs.py 552-575),
      [Read []]; [MissingRun] comes from the other files of the run. *)
  Inductive outcome := Read (d : list (string * option darr)) | MissingRun | FailedRun.

  (** get_sweep_outputs_sequentially, outputs.py 1322-1345. *)
  Fixpoint collect_sequential (runs : list outcome) : res (list (list (string * option darr))) :=
    match runs with
    | [] => Ok []
    | Read [] :: r => collect_sequential r
    | Read d :: r => do l <- collect_sequential r ; Ok (d :: l)
    | _ :: _ => Raise EExn
    end.

  (** get_sweep_outputs_concurrently, outputs.py 1347-1400, for the runs in the
      order in which they finish.  Missing runs are skipped; other errors are
      raised inside a callback of a future, where concurrent.futures logs and
      ignores them. *)
  Definition collect_concurrent (finished : list outcome) : list (list (string * option darr)) :=
    flat_map (fun o => match o with Read [] => [] | Read d => [d] | _ => [] end) finished.

  (** outputs.py 737-738: the arrays of one sample. *)
  Definition sample_arrays (name : string) (ds : list (list (string * option darr))) : list darr :=
    flat_map (fun d => match sget name d with Some (Some x) => [x] | _ => [] end) ds.
End Grouping.

(** Python's stable sort by key: [sorted(datasets, key = ...)], outputs.py 2029-2036. *)
Fixpoint insert_key {K} (leb : K -> K -> bool) (key : darr -> K) (x : darr) (l : list darr) : list darr :=
  match l with
  | [] => [x]
  | y :: r => if leb (key x) (key y) then x :: l else y :: insert_key leb key x r
  end.
Definition sort_key {K} (leb : K -> K -> bool) (key : darr -> K) (l : list darr) : list darr :=
  fold_right (insert_key leb key) [] l.

(** combine_by_coords_sequentially, outputs.py 1954-1974, 2027-2046: [join] folds
    xr.combine_by_coords over the sorted group. *)
Definition combine_groups {K} (leb : K -> K -> bool) (key : darr -> K) (join : list darr -> darr)
    (gs : list (list darr)) : list darr := map (fun g => join (sort_key leb key g)) gs.

(** The collection of one sample from freshly collected runs, outputs.py 731-765. *)
Definition load_sample {K} (core : string -> option (list string)) (train : list string)
    (leb : K -> K -> bool) (key : darr -> K) (join : list darr -> darr)
    (group_by : list string) (name : string) (datasets : list (list (string * option darr))) : res (list darr) :=
  do c <- group_samples core train group_by (sample_arrays name datasets) [] ;
  Ok (match sget name c with Some gs => combine_groups leb key join gs | None => [] end).

(** * Saving and re-reading *)

(** write_data_collection, outputs.py 1038-1082: element i of sample n is
    written to the file n>i.nc; here the pair (n,i). *)
Definition saved := list ((string * nat) * darr).
Fixpoint index_from {A} (i : nat) (l : list A) : list (nat * A) :=
  match l with [] => [] | x :: r => (i, x) :: index_from (S i) r end.
Definition write_collection (c : coll darr) : saved :=
  flat_map (fun e => map (fun p => ((fst e, fst p), snd p)) (index_from 0 (snd e))) c.

Fixpoint file_get (k : string * nat) (f : saved) : option darr :=
  match f with
  | [] => None
  | (k', x) :: r => if String.eqb (fst k) (fst k') && Nat.eqb (snd k) (snd k') then Some x else file_get k r
  end.

(** The group numbers found for a sample, unique and in numerical order
    (outputs.py 1143-1152: sorted with eval as key). *)
Fixpoint insert_nat (n : nat) (l : list nat) : list nat :=
  match l with
  | [] => [n]
  | m :: r => if Nat.ltb n m then n :: l else if Nat.eqb n m then l else m :: insert_nat n r
  end.
Definition group_numbers (listing : list (string * nat)) (name : string) : list nat :=
  fold_right (fun k acc => if String.eqb (fst k) name then insert_nat (snd k) acc else acc) [] listing.

Fixpoint read_all (f : saved) (ks : list (string * nat)) : res (list darr) :=
  match ks with
  | [] => Ok []
  | k :: r => match file_get k f with
              | Some x => do l <- read_all f r ; Ok (x :: l)
              | None => Raise EExn
              end
  end.

(** read_data_collection, outputs.py 1126-1221, for the sorted sample names:
    the collection read and the samples still to load.  [listing] is the order
    in which os.walk lists the files. *)
Definition read_collection (core : string -> option (list string)) (train : list string) (join : list darr -> darr)
    (group_by : list string) (f : saved) (listing : list (string * nat)) (names : list string)
    : res (coll darr * list string) :=
  match listing with
  | [] => Ok ([], names)
  | _ =>
    let present n := existsb (fun k => String.eqb (fst k) n) listing in
    let to_load := filter present names in
    do arrs <- read_all f (flat_map (fun n => map (fun i => (n, i)) (group_numbers listing n)) to_load) ;
    do c <- collection_of_list core train join group_by arrs ;
    Ok (c, filter (fun n => negb (present n)) names)
  end.

(** * Access to the elements *)

(** A sample of a collection holds arrays; None is the placeholder [] of a new
    sample. *)
Section Access.
  Context {A : Type}.
  (** DATA_SCHEMA membership. *)
  Variable schema : string -> bool.

  Record collection := Coll { c_data : coll (option A); c_len : nat (* data_length *) }.

  (** Python's list index. *)
  Definition pos (n : nat) (i : Z) : res nat :=
    if (0 <=? i)%Z then (if (i <? Z.of_nat n)%Z then Ok (Z.to_nat i) else Raise EIndex)
    else if (0 <=? Z.of_nat n + i)%Z then Ok (Z.to_nat (Z.of_nat n + i)) else Raise EIndex.

  (** [coll[index]], outputs.py 2054-2068: the element of every sample. *)
  Fixpoint get_item (d : coll (option A)) (i : Z) : res (list (string * option A)) :=
    match d with
    | [] => Ok []
    | (n, l) :: r =>
      if (Z.of_nat (List.length l) <=? i)%Z then Raise EKey else
      do k <- pos (List.length l) i ;
      do rest <- get_item r i ;
      Ok ((n, nth k l None) :: rest)
    end.

  (** [coll[index] = new], outputs.py 2070-2099, for the attributes of [new]. *)
  Definition set_one (i : Z) (c : collection) (e : string * A) : res collection :=
    let '(n, x) := e in
    if negb (schema n) then Raise EExn else
    match sget n (c_data c) with
    | Some l =>
      if (Z.of_nat (List.length l) <=? i)%Z then Raise EKey else
      do k <- pos (List.length l) i ;
      Ok (Coll (sset n (upd_nth k (fun _ => Some x) l) (c_data c)) (c_len c))
    | None =>
      let l := repeat None (c_len c) in
      do k <- pos (List.length l) i ;
      Ok (Coll (sset n (upd_nth k (fun _ => Some x) l) (c_data c)) (c_len c))
    end.
  Definition set_item (i : Z) (new : list (string * A)) (c : collection) : res collection := rfold (set_one i) new c.

  (** [del coll[index]], outputs.py 2101-2110: the statement passes no sample
      names and set(None) raises TypeError; [names] are the names when the
      method is called by its own name. *)
  Definition del_item (i : Z) (names : option (list string)) (c : collection) : res collection :=
    match names with
    | None => Raise EType
    | Some ns =>
      do d <- (fix go (d : coll (option A)) : res (coll (option A)) :=
         match d with
         | [] => Ok []
         | (n, l) :: r =>
           if smem n ns then
             if (Z.of_nat (List.length l) <=? i)%Z then Raise EKey else
             do k <- pos (List.length l) i ;
             do r' <- go r ; Ok ((n, firstn k l ++ skipn (S k) l) :: r')
           else do r' <- go r ; Ok ((n, l) :: r')
         end) (c_data c) ;
      Ok (Coll d (c_len c))
    end.

  (** len(coll), outputs.py 2134-2165. *)
  Definition coll_len (c : collection) : res nat :=
    match c_data c with
    | [] => Ok 0
    | (_, l) :: r =>
      if forallb (fun e => Nat.eqb (List.length (snd e)) (List.length l)) r then Ok (List.length l) else Raise EExn
    end.

  (** Outputs.pop, outputs.py 275-288: [self.data[0]] is a copy, and safe_delete
      deletes the name of its own argument (misc_utils.py 633-637). *)
  Definition pop (c : collection) : res (option (list (string * option A)) * collection) :=
    do n <- coll_len c ;
    if Nat.eqb n 0 then Ok (None, c) else
    do x <- get_item (c_data c) 0%Z ; Ok (Some x, c).

  (** get_experiment_metadata_sequentially, outputs.py 2361-2378: the elements
      whose metadata are computed. *)
  Fixpoint pop_times (k : nat) (c : collection) : res (list (option (list (string * option A)))) :=
    match k with
    | O => Ok []
    | S k' => do r <- pop c ; do rest <- pop_times k' (snd r) ; Ok (fst r :: rest)
    end.
  Fixpoint get_each (is : list nat) (c : collection) : res (list (option (list (string * option A)))) :=
    match is with
    | [] => Ok []
    | i :: r => do x <- get_item (c_data c) (Z.of_nat i) ; do rest <- get_each r c ; Ok (Some x :: rest)
    end.
  Definition metadata_elements (use_pop : bool) (c : collection) : res (list (option (list (string * option A)))) :=
    do n <- coll_len c ; if use_pop then pop_times n c else get_each (seq 0 n) c.

  (** strip_data, outputs.py 290-322: the collection part. *)
  Definition keep_ids (ids : list nat) (l : list (option A)) : list (option A) :=
    map snd (filter (fun p => existsb (Nat.eqb (fst p)) ids) (index_from 0 l)).
  Definition strip_data (keep_outputs : list string) (ids : list nat) (c : collection) : collection :=
    match keep_outputs, ids with
    | [], [] => Coll [] 0
    | [], _ => Coll (map (fun e => (fst e, keep_ids ids (snd e))) (c_data c)) (c_len c)
    | _, [] => Coll (filter (fun e => smem (fst e) keep_outputs) (c_data c)) (c_len c)
    | _, _ => Coll (map (fun e => if smem (fst e) keep_outputs then e else (fst e, keep_ids ids (snd e))) (c_data c)) (c_len c)
    end.
End Access.
Arguments collection : clear implicits.
