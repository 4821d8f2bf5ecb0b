(** * NumOps: the arithmetic used by the numeric models

    Models of floating point code take a record of operations. [dops] is IEEE
    binary64 (what the compiled code does), [qops] exact rationals and [rops]
    exact reals. A theorem about all records holds for each of them. *)
From Coq Require Import ZArith QArith Qround Reals Bool.
From Flocq Require Import Core BinarySingleNaN.
From Verif Require Import CppBase Dbl.
Local Open Scope Z_scope.

Record ops : Type := {
  num : Type;
  nadd : num -> num -> num;
  nsub : num -> num -> num;
  nmul : num -> num -> num;
  ndiv : num -> num -> num;
  nopp : num -> num;
  nlt : num -> num -> bool;
  nle : num -> num -> bool;
  neq : num -> num -> bool;
  (** conversion of an integer *)
  nofZ : Z -> num;
  (** [floor] *)
  nfloor : num -> num;
  (** conversion to [int], truncating towards zero *)
  n2int : num -> res Z
}.

(** binary64. *)
Definition dops : ops := {|
  num := dbl; nadd := dadd; nsub := dsub; nmul := dmul; ndiv := ddiv; nopp := dopp;
  nlt := dlt; nle := dle; neq := deq; nofZ := dofZ; nfloor := dfloor; n2int := d2int |}.

Definition in_int (z : Z) : res Z :=
  if (-2147483648 <=? z) && (z <=? 2147483647) then Ok z else Undef BadConversion.

(** Exact rationals. Division by zero gives zero here (as in [QArith]); theorems
    about this instance exclude it. *)
Definition Qltb (x y : Q) : bool := negb (Qle_bool y x).
Definition Qtrunc (x : Q) : Z := Z.quot (Qnum x) (Zpos (Qden x)).
Definition qops : ops := {|
  num := Q; nadd := Qplus; nsub := Qminus; nmul := Qmult; ndiv := Qdiv; nopp := Qopp;
  nlt := Qltb; nle := Qle_bool; neq := Qeq_bool; nofZ := inject_Z;
  nfloor := fun x => inject_Z (Qfloor x); n2int := fun x => in_int (Qtrunc x) |}.

(** Exact reals (same remark on division by zero). *)
Definition rops : ops := {|
  num := R; nadd := Rplus; nsub := Rminus; nmul := Rmult; ndiv := Rdiv; nopp := Ropp;
  nlt := Rlt_bool; nle := Rle_bool; neq := Req_bool; nofZ := IZR;
  nfloor := fun x => IZR (Zfloor x); n2int := fun x => in_int (Ztrunc x) |}.
