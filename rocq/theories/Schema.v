(** Model of the configuration entry checks (utils/config_data_structures.py)
    and of the range texts of custom lists.

    Values are Python values restricted to None, booleans, integers, finite
    floats (as rationals), infinities, NaN, texts and lists. *)
From Coq Require Import List ZArith QArith Qround Lia Bool String Ascii.
From Coq Require Import DecimalString DecimalZ Decimal.
From Verif Require Import Base PyMonad.
Import ListNotations.
Local Open Scope Z_scope.

Inductive pyv :=
| VNone
| VBool (b : bool)
| VInt (z : Z)
| VFloat (q : Q)
| VInf (negative : bool)
| VNan
| VStr (s : string)
| VList (l : list pyv).

(** Finite number denoted by a value (booleans are integers in Python). *)
Definition finite_of (v : pyv) : option Q :=
  match v with
  | VBool b => Some (inject_Z (if b then 1 else 0))
  | VInt z => Some (inject_Z z)
  | VFloat q => Some q
  | _ => None
  end.

Definition Qltb (a b : Q) : bool := Qle_bool a b && negb (Qle_bool b a).

(** utils/misc_utils.py 969-977 [in_range].  numpy.isfinite raises TypeError
    for texts (and lists are taken to raise too); comparing a number with None
    raises TypeError.  The exclusive upper test compares with the lower limit,
    as the code does. *)
Definition in_range (v : pyv) (lo hi : option Q) (allow_nan inclusive : bool) : res bool :=
  match v with
  | VNone | VInf _ | VNan => Ok allow_nan
  | VStr _ | VList _ => Raise EType
  | _ =>
    match finite_of v with
    | None => Raise EType
    | Some q =>
      let w := match lo with
               | None => true
               | Some l => if inclusive then Qle_bool l q else Qltb l q
               end in
      match hi with
      | None => Ok w
      | Some h =>
        if negb w then Ok false
        else if inclusive then Ok (Qle_bool q h)
        else match lo with
             | None => Raise EType
             | Some l => Ok (Qltb q l)
             end
      end
    end
  end.

(** The keys of a primitive schema that the checks read, with [None] for an
    absent key. *)
Record schema := {
  valid_range : option (option Q * option Q);
  inclusive : option bool;
  allow_nan : option bool;
  is_infinite : option bool;
  is_any_of : list pyv;
  contains : list string
}.

Definition opt_or {A} (d : A) (o : option A) : A := match o with Some x => x | None => d end.

(** config_data_structures.py 91-107 [check_range]: any failure of the test,
    exceptions included, becomes InvalidRangeException. *)
Definition check_range (v : pyv) (s : schema) : res unit :=
  match valid_range s with
  | None => Ok tt
  | Some (lo, hi) =>
    match in_range v lo hi (opt_or false (allow_nan s)) (opt_or true (inclusive s)) with
    | Ok true => Ok tt
    | _ => Raise EExn
    end
  end.

(** Python equality of values (numbers compare across types; NaN differs from
    everything - identity is not modelled). *)
Fixpoint py_eq (a b : pyv) {struct a} : bool :=
  match a, b with
  | VNone, VNone => true
  | VStr s, VStr t => String.eqb s t
  | VInf n, VInf m => Bool.eqb n m
  | VList l, VList m =>
    (fix go l m := match l, m with
                   | [], [] => true
                   | x :: l', y :: m' => py_eq x y && go l' m'
                   | _, _ => false
                   end) l m
  | _, _ => match finite_of a, finite_of b with
            | Some p, Some q => Qeq_bool p q
            | _, _ => false
            end
  end.

Fixpoint substring_of (s t : string) : bool :=
  prefix s t || match t with EmptyString => false | String _ t' => substring_of s t' end.

(** config_data_structures.py 109-131 [check_scope]; [substr in data] raises
    TypeError for numbers, which is turned into InvalidScopeException; for
    lists it tests membership. *)
Definition check_scope (v : pyv) (s : schema) : res unit :=
  match is_any_of s with
  | [] => Ok tt
  | l => if existsb (py_eq v) l then Ok tt else Raise EExn
  end ;;
  match contains s with
  | [] => Ok tt
  | l => match v with
         | VStr t => if existsb (fun x => substring_of x t) l then Ok tt else Raise EExn
         | VList vs => if existsb (fun x => existsb (py_eq (VStr x)) vs) l then Ok tt else Raise EExn
         | _ => Raise EExn
         end
  end.

Inductive dtype := TBool | TInt | TFloat | TStr.

(** [isinstance(data, dtype)]; bool is a subclass of int. *)
Definition isinstance (v : pyv) (t : dtype) : bool :=
  match t, v with
  | TBool, VBool _ => true
  | TInt, (VBool _ | VInt _) => true
  | TFloat, (VFloat _ | VInf _ | VNan) => true
  | TStr, VStr _ => true
  | _, _ => false
  end.

(** config_data_structures.py 54-71 [check_type] (the schema has a dtype,
    otherwise instantiation has failed before, 18-23). *)
Definition check_type (v : pyv) (t : dtype) (s : schema) : res unit :=
  if isinstance v t || opt_or false (allow_nan s) then Ok tt else Raise EExn.

(** config_data_structures.py 169-181 [check_finiteness]. *)
Definition check_finiteness (v : pyv) (s : schema) : res unit :=
  if opt_or true (is_infinite s) then Ok tt
  else match finite_of v with Some _ => Ok tt | None => Raise EExn end.

(** [check] of the primitive entries: Int, Float (183-191), Str (220-224) and
    Bool, which inherits the empty [check] of PrimitiveEntry (88-89). *)
Definition check_primitive (v : pyv) (t : dtype) (s : schema) : res unit :=
  match t with
  | TBool => Ok tt
  | TInt | TFloat =>
    check_type v t s ;; check_finiteness v s ;; check_range v s ;; check_scope v s
  | TStr => check_type v t s ;; check_scope v s
  end.

(** The file system and the schema keys read by the path checks. *)
Record path_schema := {
  p_exists : bool;          (* any of path-exists, file-exists, directory-exists, exists *)
  p_extension : option string;
  p_file_extension : option string
}.

(** config_data_structures.py 252-266. [exists_] is os.path.exists below ROOT. *)
Definition check_path_exists (exists_ : string -> bool) (d : string) (s : path_schema) : res unit :=
  if p_exists s then (if exists_ d then Ok tt else Raise EExn) else Ok tt.

Definition ends_with (s suffix : string) : bool :=
  let n := String.length s in let m := String.length suffix in
  Nat.leb m n && String.eqb (substring (n - m) m s) suffix.

(** config_data_structures.py 294-308: [file-extension] is looked up only when
    [extension] is present, and then replaces it. *)
Definition check_extension (d : string) (s : path_schema) : res unit :=
  let ext := match p_extension s with
             | Some _ => p_file_extension s
             | None => None
             end in
  match ext with
  | Some e => if ends_with d (String "." e) then Ok tt else Raise EExn
  | None => Ok tt
  end.

(** config_data_structures.py 281-292, 322-328: the result of os.path.isfile
    is not used. *)
Definition check_file (exists_ is_file : string -> bool) (d : string) (s : path_schema) : res unit :=
  check_path_exists exists_ d s ;;
  (let _ := is_file d in Ok tt) ;;
  check_extension d s.

(** config_data_structures.py 268-279, 339-343: the result of os.path.isdir is
    not used. *)
Definition check_directory (exists_ is_dir : string -> bool) (d : string) (s : path_schema) : res unit :=
  check_path_exists exists_ d s ;; (let _ := is_dir d in Ok tt).

(** * Lists *)

(** Schema keys of list entries: a length (a pair of limits or an exact
    length) and the uniqueness switch. *)
Inductive length_spec := LenRange (lo hi : option Q) | LenExact (n : Z).
Record list_schema := { l_length : option length_spec; l_unique : bool }.

Inductive entry :=
| Prim (v : pyv) (t : dtype) (s : schema)
| EList (s : list_schema) (items : list entry).

(** config_data_structures.py 363-386 [check_length]. *)
Definition check_length (n : nat) (s : list_schema) : res unit :=
  match l_length s with
  | None => Ok tt
  | Some (LenRange lo hi) =>
    match in_range (VInt (Z.of_nat n)) lo hi false true with
    | Ok true => Ok tt
    | _ => Raise EExn
    end
  | Some (LenExact m) => if Z.of_nat n =? m then Ok tt else Raise EExn
  end.

Fixpoint mem (x : string) (l : list string) : bool :=
  match l with [] => false | y :: l' => String.eqb x y || mem x l' end.
Fixpoint has_dup (l : list string) : bool :=
  match l with [] => false | x :: l' => mem x l' || has_dup l' end.

(** config_data_structures.py 388-403 [check_uniqueness]: the values are
    compared as printed texts ([v.value()] is never a PrimitiveEntry). *)
Definition check_uniqueness (show : entry -> string) (items : list entry) (s : list_schema) : res unit :=
  if l_unique s then (if has_dup (map show items) then Raise EExn else Ok tt) else Ok tt.

(** config_data_structures.py 405-415 [check_elements]: nested list entries
    are iterated, their own [check] is not called. *)
Fixpoint check_element (e : entry) : res unit :=
  match e with
  | Prim v t s => check_primitive v t s
  | EList _ items =>
    (fix go l := match l with
                 | [] => Ok tt
                 | x :: l' => check_element x ;; go l'
                 end) items
  end.

(** config_data_structures.py 452-459 [List.check]. *)
Definition check_list (show : entry -> string) (s : list_schema) (items : list entry) : res unit :=
  check_length (List.length items) s ;;
  check_uniqueness show items s ;;
  check_element (EList s items).

(** * Range texts *)

(** Python's [data.split(c)]. *)
Fixpoint split_on (c : ascii) (s : string) : list string :=
  match s with
  | EmptyString => [EmptyString]
  | String a s' =>
    let r := split_on c s' in
    if Ascii.eqb a c then EmptyString :: r
    else match r with
         | [] => [String a EmptyString]
         | x :: r' => String a x :: r'
         end
  end.

Fixpoint count_char (c : ascii) (s : string) : nat :=
  match s with
  | EmptyString => 0%nat
  | String a s' => ((if Ascii.eqb a c then 1 else 0) + count_char c s')%nat
  end.

(** The decimal number a text denotes (optional sign, digits, optional
    fraction).  Exponents, spaces and the special values understood by
    numpy.float32 are not modelled. *)
Definition read_unsigned (s : string) : option Q :=
  match split_on "."%char s with
  | [i] => match NilEmpty.uint_of_string i with
           | Some Nil | None => None
           | Some d => Some (inject_Z (Z.of_uint d))
           end
  | [i; f] =>
    match NilEmpty.uint_of_string i, NilEmpty.uint_of_string f with
    | Some Nil, Some Nil => None
    | Some d, Some e =>
      Some (inject_Z (Z.of_uint d) + Qmake (Z.of_uint e) (Pos.of_nat (Nat.pow 10 (nb_digits e))))%Q
    | _, _ => None
    end
  | _ => None
  end.

Definition read_decimal (s : string) : option Q :=
  match s with
  | String "-" r => option_map Qopp (read_unsigned r)
  | String "+" r => read_unsigned r
  | _ => read_unsigned s
  end.

(** Round half to even. *)
Definition rint (q : Q) : Z :=
  let f := Qfloor q in
  let d := (q - inject_Z f)%Q in
  if Qltb d (1#2) then f
  else if Qltb (1#2) d then f + 1
  else if Z.even f then f else f + 1.

Definition Qpow2 (e : Z) : Q := if 0 <=? e then inject_Z (2 ^ e) else (1 / inject_Z (2 ^ (- e)))%Q.

(** floor(log2 |q|) for q <> 0. *)
Definition qlog2 (q : Q) : Z :=
  let n := Z.abs (Qnum q) in let d := Zpos (Qden q) in
  let k := Z.log2 n - Z.log2 d in
  if Qle_bool (Qpow2 k) (n # Qden q) then k else k - 1.

(** Rounding to single precision: 24 significant bits, smallest exponent -149
    (overflow to infinity is not modelled). *)
Definition f32 (q : Q) : Q :=
  if Qeq_bool q 0 then 0%Q
  else let e := Z.max (-149) (qlog2 q - 23) in
       (inject_Z (rint (q / Qpow2 e)) * Qpow2 e)%Q.

(** utils/misc_utils.py 1053-1056 [string_to_numeric]: through float32, kept
    as an integer when it is one in the int32 range, otherwise rounded to five
    decimals (numpy.round multiplies, rounds and divides in float32). *)
Definition string_to_numeric (s : string) : res Q :=
  match read_decimal s with
  | None => Raise EValue
  | Some q =>
    let f := f32 q in
    if Qeq_bool f (inject_Z (Qfloor f)) && (- 2 ^ 31 <=? Qfloor f) && (Qfloor f <? 2 ^ 31)
    then Ok f
    else Ok (f32 (inject_Z (rint (f32 (f * 100000))) / 100000)%Q)
  end.

(** numpy.arange: start + k*step for k below ceil((stop-start)/step); a zero
    step raises.  Exact arithmetic (no floating-point rounding of the
    elements). *)
Definition arange (start stop step : Q) : res (list Q) :=
  if Qeq_bool step 0 then Raise EZeroDiv
  else Ok (map (fun k => (start + inject_Z (Z.of_nat k) * step)%Q)
             (seq 0 (Z.to_nat (Qceiling ((stop - start) / step))))).

Fixpoint mapr {A B} (f : A -> res B) (l : list A) : res (list B) :=
  match l with
  | [] => Ok []
  | x :: l' => do y <- f x ; do r <- mapr f l' ; Ok (y :: r)
  end.

(** config_data_structures.py 597-630 [CustomList._parse] of a text.  A text
    without a colon and without 'repeat' returns None, which the caller cannot
    unpack (TypeError). *)
Definition parse_text (incl : option bool) (data : string) : res (list Q * bool) :=
  let inc := opt_or true incl in
  if Nat.ltb 0 (count_char ":"%char data) then
    do d <- mapr string_to_numeric (split_on ":"%char data) ;
    match d with
    | [a; b] => do l <- arange a (if inc then b + 1 else b)%Q 1 ; Ok (l, true)
    | [a; b; s] => do l <- arange a (if inc then b + 1 else b)%Q s ; Ok (l, true)
    | _ => Ok ([], false)
    end
  else if substring_of "repeat" data then
    let args := hd EmptyString (split_on ")"%char (last (split_on "("%char data) EmptyString)) in
    match split_on ","%char args with
    | [x; n] =>
      do x' <- string_to_numeric x ;
      do n' <- string_to_numeric n ;
      if Qeq_bool n' (inject_Z (Qfloor n'))
      then if Qle_bool 0 n' then Ok (repeat x' (Z.to_nat (Qfloor n')), true) else Raise EValue
      else Raise EType
    | _ => Raise EValue
    end
  else Raise EType.

(** A datum of a custom list: a number or a text. *)
Inductive datum := DNum (q : Q) | DText (s : string).

(** config_data_structures.py 583-595, 546-553: a failure while parsing ends
    the program ([sys.exit]), modelled as an exception. *)
Definition parse_datum (incl : option bool) (d : datum) : res (list Q * bool) :=
  match d with DNum q => Ok ([q], true) | DText s => parse_text incl s end.

Definition parse_list (incl : option bool) (l : list datum) : res (list Q * bool) :=
  do rs <- mapr (parse_datum incl) l ;
  Ok (List.concat (map fst rs), forallb snd rs).
