(** * Dbl: the C++ type [double] as IEEE-754 binary64 (Flocq)

    Round to nearest even, no extended precision, all NaNs identified. *)
From Coq Require Import ZArith Reals Bool.
From Flocq Require Import Core BinarySingleNaN.
From Verif Require Import CppBase.
Local Open Scope Z_scope.

Definition Hprec64 : Prec_gt_0 53 := eq_refl.
Definition Hmax64 : Prec_lt_emax 53 1024 := eq_refl.
#[export] Existing Instance Hprec64.
#[export] Existing Instance Hmax64.

Definition dbl : Type := binary_float 53 1024.

(** Arithmetic operators. *)
Definition dadd (x y : dbl) : dbl := Bplus mode_NE x y.
Definition dsub (x y : dbl) : dbl := Bminus mode_NE x y.
Definition dmul (x y : dbl) : dbl := Bmult mode_NE x y.
Definition ddiv (x y : dbl) : dbl := Bdiv mode_NE x y.
Definition dopp (x : dbl) : dbl := Bopp x.

(** Comparison operators; false on NaN. *)
Definition dlt (x y : dbl) : bool := Bltb x y.
Definition dle (x y : dbl) : bool := Bleb x y.
Definition deq (x y : dbl) : bool := Beqb x y.
Definition dgt (x y : dbl) : bool := Bltb y x.
Definition dge (x y : dbl) : bool := Bleb y x.

(** Conversion of an integer to [double] (rounded; exact below 2^53). *)
Definition dofZ (z : Z) : dbl := binary_normalize 53 1024 Hprec64 Hmax64 mode_NE z 0 false.

(** The double [m * 2^e] (rounded), for literals. *)
Definition dlit (m e : Z) : dbl := binary_normalize 53 1024 Hprec64 Hmax64 mode_NE m e false.

Definition dhalf : dbl := dlit 1 (-1).
Definition done : dbl := dofZ 1.
Definition dzero : dbl := dofZ 0.
Definition dinf : dbl := B754_infinity false.
Definition dninf : dbl := B754_infinity true.
Definition dnan : dbl := B754_nan.

(** [floor] of <cmath>. *)
Definition dfloor (x : dbl) : dbl := Bnearbyint mode_DN x.

(** [static_cast<int>(x)] and [static_cast<unsigned int>(x)]: truncation towards
    zero; undefined when the truncated value is not representable (C++ conv.fpint)
    or the value is not finite. *)
Definition d2int (x : dbl) : res Z :=
  if is_finite x then
    let z := Btrunc x in
    if (-2147483648 <=? z) && (z <=? 2147483647) then Ok z else Undef BadConversion
  else Undef BadConversion.

Definition d2uint (x : dbl) : res Z :=
  if is_finite x then
    let z := Btrunc x in
    if (0 <=? z) && (z <=? 4294967295) then Ok z else Undef BadConversion
  else Undef BadConversion.

(** Random sources: a double in [0,1), respectively in [0,1]. *)
Definition unit_open (r : dbl) : Prop :=
  is_finite r = true /\ (0 <= B2R r < 1)%R.
Definition unit_closed (r : dbl) : Prop :=
  is_finite r = true /\ (0 <= B2R r <= 1)%R.
