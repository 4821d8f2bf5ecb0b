(** * What naive Bayes should compute *)
From Coq Require Import ZArith List Bool Reals.
From Verif Require Import CppBase.
Import ListNotations.
Local Open Scope Z_scope.

(** A weighted sample: values with their weights. *)
Local Notation sample := (list (R * R)).

Fixpoint rsum {A} (f : A -> R) (l : list A) : R :=
  match l with
  | [] => 0
  | x :: t => f x + rsum f t
  end%R.

(** Batch statistics. *)
Definition weight_of (s : sample) : R := rsum snd s.
Definition mean_of (s : sample) : R := (rsum (fun p => snd p * fst p) s / weight_of s)%R.
Definition squares_of (s : sample) : R := rsum (fun p => snd p * (fst p - mean_of s) ^ 2)%R s.
(** Sample variance (with Bessel's correction). *)
Definition variance_of (s : sample) : R := (squares_of s / (weight_of s - 1))%R.

(** A training point: features, label, weight. *)
Record point (A : Type) : Type := mkPoint { pf : list A; pl : Z; pw : A }.
Arguments mkPoint {A} pf pl pw.
Arguments pf {A} p.
Arguments pl {A} p.
Arguments pw {A} p.

(** The values of feature [f] among the points labelled [l], in order. *)
Definition column {A} (d : A) (l : Z) (f : nat) (h : list (point A)) : list (A * A) :=
  map (fun p => (nth f (pf p) d, pw p)) (filter (fun p => pl p =? l) h).

Definition labelled {A} (l : Z) (h : list (point A)) : list A :=
  map pw (filter (fun p => pl p =? l) h).

(** The normal density. *)
Definition normal_density (mu var x : R) : R :=
  (/ sqrt (2 * PI * var) * exp (- ((x - mu) ^ 2 / (2 * var))))%R.

Fixpoint rprod (f : nat -> R) (n : nat) : R :=
  match n with
  | O => 1
  | S n' => rprod f n' * f n'
  end%R.

(** Posterior probability of label [l] up to the factor common to all labels:
    prior times the normal densities of the features. *)
Definition posterior (nf : nat) (h : list (point R)) (x : list R) (l : Z) : R :=
  (rsum (fun w => w) (labelled l h) / rsum pw h *
   rprod (fun f => normal_density (mean_of (column 0%R l f h)) (variance_of (column 0%R l f h)) (nth f x 0%R)) nf)%R.

(** [b] is the first position where [key] is largest among [0 .. n-1]. *)
Definition first_best (key : Z -> R) (n b : Z) : Prop :=
  0 <= b < n /\
  (forall j, 0 <= j < n -> (key j <= key b)%R) /\
  (forall j, 0 <= j < b -> (key j < key b)%R).
