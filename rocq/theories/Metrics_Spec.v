(** * What the metrics should compute *)
From Coq Require Import ZArith List Bool Reals.
From Verif Require Import CppBase Metrics_Model Reservoir_Spec.
Import ListNotations.
Local Open Scope Z_scope.

(** The observations (true label, prediction) since the last reset; [increase_error c]
    counts as [c] observations of true label 0 predicted as 1. *)
Definition observe (acc : list (Z * Z)) (o : mcall) : list (Z * Z) :=
  match o with
  | MUpdate t p => acc ++ [(t, p)]
  | MIncrease c => acc ++ repeat (0, 1) (Z.to_nat c)
  | MReset => []
  end.
Definition observations (l : list mcall) : list (Z * Z) := fold_left observe l [].

(** At no time more than [B] observations since the last reset. *)
Definition at_most (B : Z) (l : list mcall) : Prop :=
  forall n, Z.of_nat (length (observations (firstn n l))) <= B.

(** Calls with labels in [0, L); increments are not negative. *)
Definition call_ok (L : Z) (o : mcall) : Prop :=
  match o with
  | MUpdate t p => 0 <= t < L /\ 0 <= p < L
  | MIncrease c => 0 <= c /\ 2 <= L
  | MReset => True
  end.
Definition inc_ok (o : mcall) : Prop := match o with MIncrease c => 0 <= c | _ => True end.

Local Open Scope R_scope.
(** Relative frequency. *)
Definition freq (p : Z * Z -> bool) (obs : list (Z * Z)) : R :=
  IZR (count_if p obs) / IZR (Z.of_nat (length obs)).

Definition error_rate (obs : list (Z * Z)) : R := freq (fun o => negb (fst o =? snd o)%Z) obs.

(** Cohen's kappa: agreement beyond the agreement expected by chance. *)
Fixpoint rsum (f : Z -> R) (n : nat) : R :=
  match n with O => 0 | S n' => rsum f n' + f (Z.of_nat n') end.
Definition agreement (obs : list (Z * Z)) : R := freq (fun o => (fst o =? snd o)%Z) obs.
Definition chance (L : Z) (obs : list (Z * Z)) : R :=
  rsum (fun k => freq (fun o => (fst o =? k)%Z) obs * freq (fun o => (snd o =? k)%Z) obs) (Z.to_nat L).
Definition cohen (L : Z) (obs : list (Z * Z)) : R :=
  (agreement obs - chance L obs) / (1 - chance L obs).
