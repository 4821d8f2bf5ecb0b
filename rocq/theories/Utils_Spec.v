(** * What the utilities should compute *)
From Coq Require Import ZArith QArith List Bool Reals.
From Flocq Require Import Core BinarySingleNaN.
From Verif Require Import CppBase Dbl Reservoir_Spec.
Import ListNotations.
Local Open Scope Z_scope.

(** All equally likely outcomes of [m] draws from an ideal uniform source. *)
Fixpoint draws (n : positive) (m : nat) : list (list Q) :=
  match m with
  | O => [[]]
  | S m' => flat_map (fun d => map (cons d) (draws n m')) (grid n)
  end.

Fixpoint zfact (n : nat) : Z :=
  match n with
  | O => 1
  | S n' => Z.of_nat n * zfact n'
  end.

(** The two arrays agree nowhere. *)
Definition deranged {A} (a b : list A) : Prop :=
  length a = length b /\ forall p x, nth_error a p = Some x -> nth_error b p <> Some x.

Definition same_array (a b : list Z) : bool :=
  if list_eq_dec Z.eq_dec a b then true else false.

(** Sum of the first [i] weights. *)
Definition partial_sum (w : list R) (i : nat) : R := fold_left Rplus (firstn i w) 0%R.

(** Numbers and infinities, no NaN. *)
Definition not_nan (x : dbl) : Prop := x <> dnan.
