(** * Model of src/utils.hpp *)
From Coq Require Import ZArith List Bool.
From Verif Require Import CppBase NumOps.
Import ListNotations.
Local Open Scope Z_scope.

Section Utils.
  Variable O : ops.

  (** l.13-21 [pick_from_distribution]; [u] is the draw. *)
  Definition pick_from_distribution (u : num O) (probabilities : list (num O)) (size : Z) : res Z :=
    do r <- findZ (Z.to_nat size) 0
      (fun i => do p <- rd probabilities i; if nle O u p then Ok (Some i) else Ok None);
    match r with
    | Some i => Ok i
    | None => Ok size
    end.

  (** l.29-42 [turn_array_into_probability]. *)
  Definition turn_array_into_probability (values : list (num O)) (size : Z) (sum : num O) : res (list (num O)) :=
    do sum <-
      (if nlt O sum (nofZ O 0)
       then forZ (Z.to_nat size) 0 (fun i s => do v <- rd values i; Ok (nadd O s v)) (nofZ O 0)
       else Ok sum);
    do v0 <- rd values 0;
    do values <- wr values 0 (ndiv O v0 sum);
    forZ (Z.to_nat size - 1) 1
      (fun i values =>
         do a <- rd values (i - 1);
         do b <- rd values i;
         wr values i (nadd O a (ndiv O b sum))) values.

  (** l.53-59 [index_max<T>]; [gt] is the [>] of [T]. *)
  Definition index_max {T} (gt : T -> T -> bool) (array : list T) (size : Z) : res Z :=
    forZ (Z.to_nat size - 1) 1
      (fun i best =>
         do x <- rd array i;
         do y <- rd array best;
         Ok (if gt x y then i else best)) 0.

  (** l.61-64 [rand_exponential]; [log] is [func::log]. *)
  Definition rand_exponential (log : num O -> num O) (u rate : num O) : num O :=
    ndiv O (log (nsub O (nofZ O 1) u)) (nopp O rate).

  (** l.83-90 [shuffle], the loop from [i = k] down to 1. [ds] are the draws in the
      order of the calls; running out of them is not a behaviour of the code. *)
  Fixpoint shuffle_from {T} (k : nat) (ds : list (num O)) (array : list T) : res (list T) :=
    match k with
    | Datatypes.O => Ok array
    | S k' =>
        match ds with
        | [] => NoFuel
        | d :: ds' =>
            let i := Z.of_nat k in
            do tmp <- rd array i;
            do swap_idx <- n2int O (nmul O d (nofZ O i));
            do v <- rd array swap_idx;
            do array <- wr array i v;
            do array <- wr array swap_idx tmp;
            shuffle_from k' ds' array
        end
    end.
  Definition shuffle {T} (ds : list (num O)) (array : list T) (size : Z) : res (list T) :=
    shuffle_from (Z.to_nat (size - 1)) ds array.

  (** l.98-102 [round<double>]; [half] is the literal 0.5. *)
  Definition round (half v : num O) : res Z :=
    if nlt O v (nofZ O 0) then n2int O (nsub O v half) else n2int O (nadd O v half).
End Utils.

(** l.79-81 [div_int]: [int] arithmetic, the result converted to [double] (exact). *)
Definition div_int (a b : Z) : res Z :=
  if b =? 0 then Undef DivByZero
  else
    do _ <- sint (Z.quot a b);      (* INT_MIN % -1 is undefined *)
    do d <- sint (a - Z.rem a b);
    sint (Z.quot d b).
