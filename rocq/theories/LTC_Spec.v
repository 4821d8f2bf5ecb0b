(** * What lightweight temporal compression should achieve

    A point is a pair (time, value). *)
From Coq Require Import ZArith List Reals.
Import ListNotations.
Local Open Scope Z_scope.

(** The samples [x t0], [x (t0+1)], ... of a signal taken at every time unit. *)
Fixpoint sampled (x : Z -> Z) (t0 : Z) (n : nat) : list (Z * Z) :=
  match n with
  | O => []
  | S n' => (t0, x t0) :: sampled x (t0 + 1) n'
  end.

(** The straight line through two points. *)
Definition line (a b : Z * Z) (t : Z) : R :=
  (IZR (snd a) + (IZR (snd b) - IZR (snd a)) * (IZR (t - fst a) / IZR (fst b - fst a)))%R.

(** 1/(j+1) + ... + 1/(j+m). *)
Fixpoint harmonic (j : Z) (m : nat) : R :=
  match m with
  | O => 0%R
  | S m' => (harmonic j m' + / IZR (j + Z.of_nat m))%R
  end.
Definition harmonic_from_to (j n : Z) : R := harmonic j (Z.to_nat (n - j)).

(** Successive elements are related. *)
Fixpoint consecutive {A} (R : A -> A -> Prop) (l : list A) : Prop :=
  match l with
  | a :: ((b :: _) as l') => R a b /\ consecutive R l'
  | _ => True
  end.

(** [v] reconstructs the samples of [x] between two points: each is met within [eps]
    plus the given slack at its distance [j] from the start, [n] being the length. *)
Definition segment_ok (x : Z -> Z) (eps : Z) (slack : Z -> Z -> R) (a b : Z * Z) : Prop :=
  fst a < fst b /\
  forall t, fst a <= t <= fst b ->
    (Rabs (line a b t - IZR (x t)) <= IZR eps + slack (t - fst a)%Z (fst b - fst a)%Z)%R.

(** Some straight line through [a] meets all samples after [a] up to time [t] within
    [eps] minus the slack. *)
Definition line_exists (x : Z -> Z) (eps : Z) (slack : Z -> Z -> R) (a : Z * Z) (t : Z) : Prop :=
  exists s : R, forall u, fst a < u <= t ->
    (Rabs (IZR (snd a) + s * IZR (u - fst a) - IZR (x u)) <= IZR eps - slack (u - fst a)%Z (t - fst a)%Z)%R.

Definition no_slack (j n : Z) : R := 0%R.
(** j * (1/(j+1) + ... + 1/n). *)
Definition rounding_slack (j n : Z) : R := (IZR j * harmonic_from_to j n)%R.
