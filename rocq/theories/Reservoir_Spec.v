(** * Specification of the reservoirs *)
From Coq Require Import ZArith QArith List Bool.
From Verif Require Import CppBase Dbl NumOps.
Import ListNotations.
Local Open Scope Z_scope.

(** [l] holds, in its first [length pos] slots, the stream elements at the pairwise
    distinct stream positions [pos], and nothing (never written) after them. *)
Definition holds {A} (l : list (option A)) (stream : list A) (pos : list nat) : Prop :=
  NoDup pos /\ (forall p, In p pos -> (p < length stream)%nat) /\
  (length pos <= length l)%nat /\
  forall i, nth_error l i =
    match nth_error pos i with
    | Some p => option_map Some (nth_error stream p)
    | None => if Nat.ltb i (length l) then Some None else None
    end.

(** Streams with draws in [0,1). *)
Definition draws_open {A} (l : list (A * (dbl * dbl))) : Prop :=
  forall e r1 r2, In (e, (r1, r2)) l -> unit_open r1 /\ unit_open r2.

(** An ideal uniform source: each draw is one of the [n] equally likely values
    0, 1/n, ..., (n-1)/n. *)
Definition grid (n : positive) : list Q := map (fun i => Z.of_nat i # n) (seq 0 (Pos.to_nat n)).

(** All equally likely outcomes of [m] pairs of draws. *)
Fixpoint all_draws (n : positive) (m : nat) : list (list (Q * Q)) :=
  match m with
  | O => [[]]
  | S m' => flat_map (fun d => map (fun p => d ++ [p]) (list_prod (grid n) (grid n))) (all_draws n m')
  end.

(** The stream 0, 1, 2, ... paired with draws. *)
Fixpoint enumerate {D} (i : Z) (d : list D) : list (Z * D) :=
  match d with
  | [] => []
  | x :: t => (i, x) :: enumerate (i + 1) t
  end.

(** Number of elements of a list with a property. *)
Definition count_if {A} (p : A -> bool) (l : list A) : Z := Z.of_nat (length (filter p l)).

(** x (x-1) ... (x-r+1). *)
Fixpoint falling (x : Z) (r : nat) : Z :=
  match r with
  | O => 1
  | S r' => x * falling (x - 1) r'
  end.

(** All positions of [ps] are stored in the array. *)
Definition all_in (ps : list Z) (l : list (option Z)) : bool :=
  forallb (fun p => existsb (fun c => match c with Some q => q =? p | None => false end) l) ps.

(** Number of the positions [ps] before [m]. *)
Definition earlier (ps : list Z) (m : nat) : Z := count_if (fun p => p <? Z.of_nat m) ps.

(** (k - r_0) (k - r_1) ... (k - r_(n-1)), r_m the number of positions of [ps] before
    [m]: each of the [n] adds removes any given element with probability 1/k, at most
    one of them. *)
Fixpoint survive (k : Z) (ps : list Z) (n : nat) : Z :=
  match n with
  | O => 1
  | S m => survive k ps m * (k - earlier ps m)
  end.
