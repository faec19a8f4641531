(* Basic Go notions used by the model: outcomes of a call, slice indexing,
   strconv.Itoa / strconv.Atoi and bytes.Split.

   Simplification used everywhere: a Go [int] is an unbounded [Z]; the only
   place where the 64-bit range is visible is [atoi], which rejects values out
   of range as strconv.Atoi does. *)
From Coq Require Export String Ascii List ZArith Lia Bool Arith.
From Coq Require Import DecimalString DecimalZ.
Export ListNotations.
Local Open Scope string_scope.
Local Open Scope Z_scope.

(* Outcome of a Go call: a value, a non-nil error (its message), a run-time
   panic, or a loop that does not end ([Hang]: the explicit fuel of the model
   ran out; theorems exclude it or show that the Go loop really diverges). *)
Inductive res (A : Type) : Type :=
| Ok (a : A)
| Err (e : string)
| Panic
| Hang.
Arguments Ok {A} _.
Arguments Err {A} _.
Arguments Panic {A}.
Arguments Hang {A}.

Definition rbind {A B} (r : res A) (f : A -> res B) : res B :=
  match r with
  | Ok a => f a
  | Err e => Err e
  | Panic => Panic
  | Hang => Hang
  end.

Notation "'rdo' x <- r ;; k" := (rbind r (fun x => k))
  (at level 200, x pattern, r at level 100, k at level 200).

(* Go slice read s[i]: a panic when i is out of bounds. *)
Definition sget {A} (l : list A) (i : Z) : res A :=
  if (i <? 0) then Panic
  else match nth_error l (Z.to_nat i) with
       | Some a => Ok a
       | None => Panic
       end.

Fixpoint list_set {A} (l : list A) (n : nat) (a : A) : list A :=
  match l, n with
  | [], _ => []
  | _ :: r, O => a :: r
  | b :: r, S m => b :: list_set r m a
  end.

(* Go slice write s[i] = a: a panic when i is out of bounds. *)
Definition sset {A} (l : list A) (i : Z) (a : A) : res (list A) :=
  if (i <? 0) then Panic
  else if (Z.to_nat i <? length l)%nat then Ok (list_set l (Z.to_nat i) a)
       else Panic.

(* strconv.Itoa *)
Definition itoa (z : Z) : string := NilZero.string_of_int (Z.to_int z).

Definition digit_of (a : ascii) : option Z :=
  let n := Z.of_nat (nat_of_ascii a) in
  if (48 <=? n) && (n <=? 57) then Some (n - 48) else None.

Fixpoint digits_val (s : string) (acc : Z) : option Z :=
  match s with
  | EmptyString => Some acc
  | String a r =>
      match digit_of a with
      | Some d => digits_val r (10 * acc + d)
      | None => None
      end
  end.

Definition atoi_err (s : string) : string :=
  "strconv.Atoi: parsing " ++ s.

(* strconv.Atoi: an optional sign followed by one or more decimal digits, the
   value within the range of a 64-bit int.  The wording of the error message
   is abbreviated. *)
Definition atoi (s : string) : res Z :=
  let finish (neg : bool) (body : string) :=
    match body with
    | EmptyString => Err (atoi_err s)
    | _ =>
        match digits_val body 0 with
        | None => Err (atoi_err s)
        | Some v =>
            let z := if neg then - v else v in
            if (- 2 ^ 63 <=? z) && (z <=? 2 ^ 63 - 1) then Ok z
            else Err (atoi_err s)
        end
    end in
  match s with
  | String "-"%char r => finish true r
  | String "+"%char r => finish false r
  | _ => finish false s
  end.

(* bytes.Split with a one-byte separator. *)
Fixpoint split_on (c : ascii) (s : string) : list string :=
  match s with
  | EmptyString => [EmptyString]
  | String a r =>
      if Ascii.eqb a c then EmptyString :: split_on c r
      else match split_on c r with
           | [] => [String a EmptyString]
           | h :: t => String a h :: t
           end
  end.

Definition nl : ascii := ascii_of_nat 10.
Definition sp : ascii := ascii_of_nat 32.
(* unit separator, query/scoper.go:60,62 *)
Definition us : ascii := ascii_of_nat 31.
