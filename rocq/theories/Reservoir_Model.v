(** * Model of src/reservoir_sampling.hpp *)
From Coq Require Import ZArith List Bool.
From Verif Require Import CppBase NumOps.
Import ListNotations.
Local Open Scope Z_scope.

Section Reservoir.
  (** The arithmetic on [double]; [func::floor] is read as the mathematical floor,
      its result converted to [int] (l.69, l.119). *)
  Variable O : ops.
  Context {A : Type}.
  (** Template parameter [unsigned int sample_size]. *)
  Variable sample_size : Z.

  (** l.9, l.39 (and l.93): the array [sample], whose cells are indeterminate until
      written, and the counter. *)
  Record reservoir : Type := mkRes { counter : Z; sample : list (option A) }.

  Definition res_init : reservoir := mkRes 0 (repeat None (Z.to_nat sample_size)).

  (** l.58-73: [ReservoirSampling::sample_index]: the index and the new counter.
      [r1], [r2] are the values returned by the (at most) two calls of
      [func::random]. *)
  Definition sample_index (c : Z) (r1 r2 : num O) : res (Z * Z) :=
    do idx <-
      (if c <? sample_size then Ok (to_int c)
       else
         let threshold := ndiv O (nofZ O sample_size) (nofZ O (u32 (c + 1))) in
         if nlt O r1 threshold
         then n2int O (nfloor O (nmul O r2 (nofZ O sample_size)))
         else Ok (-1));
    Ok (idx, u32 (c + 1)).

  (** l.47-53: [ReservoirSampling::add]. *)
  Definition radd (s : reservoir) (r1 r2 : num O) (e : A) : res (reservoir * Z) :=
    do (idx, c') <- sample_index (counter s) r1 r2;
    if 0 <=? idx
    then do l <- wr (sample s) idx (Some e); Ok (mkRes c' l, idx)
    else Ok (mkRes c' (sample s), idx).

  (** l.112-126: [ExponentialReservoirSampling::sample_index]. *)
  Definition exp_sample_index (c : Z) (r1 r2 : num O) : res (Z * Z) :=
    let filling_ratio := ndiv O (nofZ O c) (nofZ O sample_size) in
    if nlt O r1 filling_ratio
    then do index <- n2int O (nfloor O (nmul O r2 (nofZ O c))); Ok (index, c)
    else Ok (to_int c, u32 (c + 1)).

  (** l.101-107: [ExponentialReservoirSampling::add]. *)
  Definition exp_add (s : reservoir) (r1 r2 : num O) (e : A) : res (reservoir * Z) :=
    do (idx, c') <- exp_sample_index (counter s) r1 r2;
    if 0 <=? idx
    then do l <- wr (sample s) idx (Some e); Ok (mkRes c' l, idx)
    else Ok (mkRes c' (sample s), idx).

  (** l.77-79, l.130-132: [count]. *)
  Definition count (s : reservoir) : Z := counter s.

  (** A stream of elements, each with the two draws available to its add; the state
      and the returned indexes, from state [s]. *)
  Fixpoint run_with (add : reservoir -> num O -> num O -> A -> res (reservoir * Z))
      (s : reservoir) (l : list (A * (num O * num O))) : res (reservoir * list Z) :=
    match l with
    | [] => Ok (s, [])
    | (e, (r1, r2)) :: t =>
        do (s1, i) <- add s r1 r2 e;
        do (s2, is) <- run_with add s1 t;
        Ok (s2, i :: is)
    end.

  Definition rrun (l : list (A * (num O * num O))) := run_with radd res_init l.
  Definition exp_run (l : list (A * (num O * num O))) := run_with exp_add res_init l.
End Reservoir.
Arguments mkRes {A}.
Arguments counter {A}.
Arguments sample {A}.
