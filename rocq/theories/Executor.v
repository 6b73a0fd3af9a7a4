(** Model of the bounded process pool (utils/multiprocessor.py), of the
    splitting of sweeps into chunks and of the running of sweeps
    (experiments.py 3755-3862). *)
From Coq Require Import List ZArith Lia Bool Arith.
From Verif Require Import Base PyMonad.
Import ListNotations.
Local Open Scope nat_scope.

(** * Bounded executor *)

(** State: semaphore value and initial value, number of threads between
    [acquire] and [add_done_callback], futures that are not done, futures that
    are done but whose callback has not run yet, number of permits lost to
    failed submissions, future identifiers used so far, and whether a release
    beyond the initial value was attempted (ValueError of BoundedSemaphore). *)
Record pool := {
  limit : nat;
  permits : nat;
  holding : nat;
  unfinished : list nat;
  finished : list nat;
  lost : nat;
  used : list nat;
  over_released : bool
}.

Inductive event :=
| Acquire                 (* submit: semaphore.acquire() returns *)
| Enqueue (i : nat)       (* super().submit returns future i, callback added *)
| EnqueueRaises           (* super().submit raises *)
| Complete (i : nat)      (* future i gets a result, an exception or is cancelled *)
| Callback (i : nat).     (* release runs for future i *)

Definition mem_nat (i : nat) (l : list nat) : bool := existsb (Nat.eqb i) l.
Fixpoint remove_one (i : nat) (l : list nat) : list nat :=
  match l with
  | [] => []
  | x :: l' => if Nat.eqb i x then l' else x :: remove_one i l'
  end.

(** multiprocessor.py 9-16: [release] and [submit].  [None]: the event cannot
    happen in this state (an [Acquire] at value zero blocks). *)
Definition step (s : pool) (e : event) : option pool :=
  match e with
  | Acquire =>
    match permits s with
    | 0 => None
    | S p => Some {| limit := limit s; permits := p; holding := S (holding s);
                     unfinished := unfinished s; finished := finished s; lost := lost s;
                     used := used s; over_released := over_released s |}
    end
  | Enqueue i =>
    match holding s with
    | 0 => None
    | S h => if mem_nat i (used s) then None
             else Some {| limit := limit s; permits := permits s; holding := h;
                          unfinished := i :: unfinished s; finished := finished s; lost := lost s;
                          used := i :: used s; over_released := over_released s |}
    end
  | EnqueueRaises =>
    match holding s with
    | 0 => None
    | S h => Some {| limit := limit s; permits := permits s; holding := h;
                     unfinished := unfinished s; finished := finished s; lost := S (lost s);
                     used := used s; over_released := over_released s |}
    end
  | Complete i =>
    if mem_nat i (unfinished s)
    then Some {| limit := limit s; permits := permits s; holding := holding s;
                 unfinished := remove_one i (unfinished s); finished := i :: finished s; lost := lost s;
                 used := used s; over_released := over_released s |}
    else None
  | Callback i =>
    if mem_nat i (finished s)
    then Some {| limit := limit s;
                 permits := if permits s <? limit s then S (permits s) else permits s;
                 holding := holding s; unfinished := unfinished s;
                 finished := remove_one i (finished s); lost := lost s; used := used s;
                 over_released := over_released s || negb (permits s <? limit s) |}
    else None
  end.

Definition init (n : nat) : pool :=
  {| limit := n; permits := n; holding := 0; unfinished := []; finished := []; lost := 0;
     used := []; over_released := false |}.

Fixpoint run (s : pool) (es : list event) : option pool :=
  match es with
  | [] => Some s
  | e :: es' => match step s e with Some s' => run s' es' | None => None end
  end.

(** multiprocessor.py 19-25: the constructor. *)
Definition create (max_workers : nat) (max_waiting : option Z) : res pool :=
  match max_waiting with
  | None => Ok (init max_workers)
  | Some w => if (w <? 0)%Z then Raise EValue else Ok (init (Z.to_nat w))
  end.

(** * Chunks *)

(** utils/misc_utils.py 1153-1157 [divide_chunks]: range(0,len,n) has no
    element for negative n and raises ValueError for 0. *)
Definition divide_chunks {A} (l : list A) (n : Z) : res (list (list A)) :=
  if (n =? 0)%Z then Raise EValue
  else if (n <? 0)%Z then Ok []
  else let m := Z.to_nat n in
       Ok (map (fun k => firstn m (skipn (k * m) l)) (seq 0 ((List.length l + m - 1) / m))).

(** * Running a sweep *)

(** experiments.py 3820-3850: the submissions of [run_concurrent], in order,
    as (chunk, instance number, configuration). *)
Definition enumerate {A} (l : list A) : list (nat * A) := combine (seq 0 (List.length l)) l.

Definition submissions {A} (confs : list A) (chunk_size : Z) : res (list (nat * nat * A)) :=
  do chunks <- divide_chunks confs chunk_size ;
  Ok (concat (map (fun c => map (fun x => (fst c, fst x, snd x)) (enumerate (snd c))) (enumerate chunks))).

(** experiments.py 3820-3862: every submission is executed; an exception of an
    experiment stays in its future: the callback that reads it raises inside
    the executor, which logs and drops it, so the sweep returns normally. *)
Definition run_concurrent {A} (succeeds : A -> bool) (confs : list A) (chunk_size : Z) : res (list A) :=
  do subs <- submissions confs chunk_size ;
  Ok (map snd subs).

(** experiments.py 3802-3818: one after the other; the first failure is raised
    again.  Returns the configurations started, and the exception if any. *)
Fixpoint run_sequential {A} (succeeds : A -> bool) (confs : list A) : list A * res unit :=
  match confs with
  | [] => ([], Ok tt)
  | c :: cs =>
    if succeeds c
    then let r := run_sequential succeeds cs in (c :: fst r, snd r)
    else ([c], Raise EExn)
  end.

(** * Progress-bar positions *)

(** utils/misc_utils.py 1199-1204 [position_index]. *)
Fixpoint position_index (slots : list bool) : option nat :=
  match slots with
  | [] => None
  | false :: _ => Some 0
  | true :: l => option_map S (position_index l)
  end.

Fixpoint set_slot (i : nat) (b : bool) (l : list bool) : list bool :=
  match l, i with
  | [], _ => []
  | _ :: l', 0 => b :: l'
  | x :: l', S i' => x :: set_slot i' b l'
  end.

(** Running workers with their position, and workers whose run has ended but
    whose position has not been given back, with success flag. *)
Record board := {
  slots : list bool;
  active : list (nat * nat);
  ending : list (nat * nat * bool)
}.

Inductive pevent :=
| Claim (w : nat)               (* experiments.py 3762-3772, taken as one step *)
| End (w : nat) (ok : bool)     (* the experiment returns or raises *)
| Free (w : nat).               (* my_callback, experiments.py 3837-3840 *)

Fixpoint take_active (w : nat) (l : list (nat * nat)) : option (nat * list (nat * nat)) :=
  match l with
  | [] => None
  | (w', p) :: l' => if Nat.eqb w w' then Some (p, l')
                     else match take_active w l' with
                          | Some (p', r) => Some (p', (w', p) :: r)
                          | None => None
                          end
  end.
Fixpoint take_ending (w : nat) (l : list (nat * nat * bool)) : option (nat * bool * list (nat * nat * bool)) :=
  match l with
  | [] => None
  | (w', p, b) :: l' => if Nat.eqb w w' then Some (p, b, l')
                     else match take_ending w l' with
                          | Some (p', b', r) => Some (p', b', (w', p, b) :: r)
                          | None => None
                          end
  end.

(** Position of a claim: the first inactive one, or 0 when there is none
    (indexing with None raises TypeError, caught at 3771). *)
Definition pstep (s : board) (e : pevent) : option board :=
  match e with
  | Claim w =>
    match position_index (slots s) with
    | Some i => Some {| slots := set_slot i true (slots s); active := (w, i) :: active s; ending := ending s |}
    | None => Some {| slots := slots s; active := (w, 0) :: active s; ending := ending s |}
    end
  | End w ok =>
    match take_active w (active s) with
    | Some (p, r) => Some {| slots := slots s; active := r; ending := (w, p, ok) :: ending s |}
    | None => None
    end
  | Free w =>
    match take_ending w (ending s) with
    | Some (p, ok, r) =>
      Some {| slots := if ok then set_slot p false (slots s) else slots s;
              active := active s; ending := r |}
    | None => None
    end
  end.

Definition board0 (n : nat) : board := {| slots := repeat false n; active := []; ending := [] |}.

(** The claim as two steps, as in the code: look (3764) and set (3766). *)
Inductive nevent := Look (w : nat) | Mark (w : nat).
Definition nstep (s : list bool * list (nat * option nat)) (e : nevent) : list bool * list (nat * option nat) :=
  match e with
  | Look w => (fst s, (w, position_index (fst s)) :: snd s)
  | Mark w =>
    match find (fun x => Nat.eqb w (fst x)) (snd s) with
    | Some (_, Some i) => (set_slot i true (fst s), snd s)
    | _ => s
    end
  end.
