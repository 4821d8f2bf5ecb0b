(** * CppBase: outcomes, checked arrays, machine integers and loops

    Shared vocabulary of all models. Nothing here comes from /repo; it fixes
    how the C++ constructs used there are read. *)
From Coq Require Import ZArith List Bool Lia.
Import ListNotations.
Local Open Scope Z_scope.

(** ** Outcomes *)

(** The reasons for undefined behaviour that the models distinguish. *)
Inductive ub : Type :=
| OutOfBounds      (* array access outside the array *)
| Uninitialised    (* read of an indeterminate value *)
| NullDeref        (* dereference of a null pointer or use of index -1 as one *)
| BadConversion    (* floating point to integer conversion out of range *)
| SignedOverflow   (* signed integer overflow *)
| DivByZero.       (* integer division by zero *)

(** Result of running a piece of C++: a value, undefined behaviour, a failed
    [assert] (the Makefile of the project does not define NDEBUG), or a loop that
    used up the fuel it was given by the model. *)
Inductive res (A : Type) : Type :=
| Ok (a : A)
| Undef (u : ub)
| Abort
| NoFuel.
Arguments Ok {A} a.
Arguments Undef {A} u.
Arguments Abort {A}.
Arguments NoFuel {A}.

Definition bind {A B} (m : res A) (k : A -> res B) : res B :=
  match m with
  | Ok a => k a
  | Undef u => Undef u
  | Abort => Abort
  | NoFuel => NoFuel
  end.

Notation "'do' x <- m ; k" := (bind m (fun x => k))
  (at level 200, x pattern, m at level 100, k at level 200, right associativity).

(** [assert(b)]. *)
Definition assertb (b : bool) : res unit := if b then Ok tt else Abort.

(** ** Machine integers *)

(** Value of an expression after conversion to [unsigned char], [unsigned int]. *)
Definition u8 (x : Z) : Z := x mod 256.
Definition u32 (x : Z) : Z := x mod 4294967296.

(** Conversion of an [unsigned int] value to [int] (two's complement). *)
Definition to_int (x : Z) : Z :=
  let y := u32 x in if y <? 2147483648 then y else y - 4294967296.

(** Result of a signed [int] operation whose exact value is [x]. *)
Definition sint (x : Z) : res Z :=
  if (-2147483648 <=? x) && (x <=? 2147483647) then Ok x else Undef SignedOverflow.

(** ** Arrays *)

(** Read [l[i]]; out of bounds is undefined. *)
Definition rd {A} (l : list A) (i : Z) : res A :=
  if i <? 0 then Undef OutOfBounds
  else match nth_error l (Z.to_nat i) with
       | Some a => Ok a
       | None => Undef OutOfBounds
       end.

(** Replace the element at position [n] (no effect beyond the end). *)
Fixpoint upd {A} (l : list A) (n : nat) (v : A) : list A :=
  match l, n with
  | [], _ => []
  | _ :: t, O => v :: t
  | x :: t, S n' => x :: upd t n' v
  end.

(** Write [l[i] = v]; out of bounds is undefined. *)
Definition wr {A} (l : list A) (i : Z) (v : A) : res (list A) :=
  if (i <? 0) || (Z.of_nat (length l) <=? i) then Undef OutOfBounds
  else Ok (upd l (Z.to_nat i) v).

(** Read of a cell that may be uninitialised. *)
Definition rdi {A} (l : list (option A)) (i : Z) : res A :=
  do c <- rd l i;
  match c with Some a => Ok a | None => Undef Uninitialised end.

(** ** Loops *)

(** [for(int j = i; j < i + n; ++j) s = body(j, s);] *)
Fixpoint forZ {S : Type} (n : nat) (i : Z) (body : Z -> S -> res S) (s : S) : res S :=
  match n with
  | O => Ok s
  | Datatypes.S n' => do s' <- body i s; forZ n' (i + 1) body s'
  end.

(** [for(int j = i; j < i + n; ++j) { if body(j) returns Some r: return r; }],
    [None] when the loop runs to its end. *)
Fixpoint findZ {R : Type} (n : nat) (i : Z) (body : Z -> res (option R)) : res (option R) :=
  match n with
  | O => Ok None
  | Datatypes.S n' =>
      do r <- body i;
      match r with
      | Some x => Ok (Some x)
      | None => findZ n' (i + 1) body
      end
  end.
