(** * Model of src/ltc.hpp

    [element_type] and [timestamp_type] are [int]: [update] calls [min(value + epsilon,
    max_value)] with one template type, so [value + epsilon] has to be an [int], and the
    tests use [int] for both. The template parameters are arguments. *)
From Coq Require Import ZArith List Bool.
From Verif Require Import CppBase Dbl.
Import ListNotations.
Local Open Scope Z_scope.

(** l.15-18 [data_point]. *)
Record pt : Type := mkPt { ts : Z; val : Z }.

(** l.19-21. [None] is a point whose members were never written. *)
Record ltc : Type := mkLtc {
  last_transmit_point : option pt; UL : option pt; LL : option pt;
  new_ul : option pt; new_ll : option pt; to_transmit : option pt; counter : Z }.

Definition ltc_init : ltc := mkLtc None None None None None None 0.

Definition getp (o : option pt) : res pt :=
  match o with Some p => Ok p | None => Undef Uninitialised end.

(** l.26-40 [min], [max]. *)
Definition cmin (a b : Z) : Z := if a >? b then b else a.
Definition cmax (a b : Z) : Z := if a <? b then b else a.

Section LTC.
  Variables (epsilon max_value min_value time_unit_difference : Z).

  (** l.44-47 [set_ul_and_ll]. *)
  Definition set_ul_and_ll (s : ltc) : ltc :=
    mkLtc (last_transmit_point s) (new_ul s) (new_ll s) (new_ul s) (new_ll s) (to_transmit s) (counter s).

  (** l.53-58 [update]. *)
  Definition update (s : ltc) (timestamp value : Z) : res ltc :=
    do a <- sint (value + epsilon);
    do b <- sint (value - epsilon);
    Ok (mkLtc (last_transmit_point s) (UL s) (LL s)
              (Some (mkPt timestamp (cmin a max_value))) (Some (mkPt timestamp (cmax b min_value)))
              (to_transmit s) (counter s)).

  (** The four expressions of l.63-66. *)
  Definition deriva (p l : pt) : res dbl :=
    do dv <- sint (val p - val l);
    do dt <- sint (ts p - ts l);
    Ok (ddiv (ddiv (dofZ dv) (dofZ dt)) (dofZ time_unit_difference)).

  (** The expressions of l.72 and l.76; the quotient of timestamps is an [int]. *)
  Definition extend (n o : pt) (deriv : dbl) : res Z :=
    do dt <- sint (ts n - ts o);
    if time_unit_difference =? 0 then Undef DivByZero
    else
      do k <- sint (Z.quot dt time_unit_difference);
      d2int (dadd (dmul (dofZ k) deriv) (dofZ (val o))).

  (** l.62-79 [need_transmit]. *)
  Definition need_transmit (s : ltc) : res (ltc * bool) :=
    do last <- getp (last_transmit_point s);
    do ul <- getp (UL s);
    do ll <- getp (LL s);
    do nul <- getp (new_ul s);
    do nll <- getp (new_ll s);
    do old_up <- deriva ul last;
    do old_low <- deriva ll last;
    do new_up <- deriva nul last;
    do new_low <- deriva nll last;
    if dlt old_up new_low || dgt old_low new_up then Ok (s, true)
    else
      do nul' <-
        (if dlt old_up new_up
         then do v <- extend nul ul old_up; Ok (mkPt (ts nul) v)
         else Ok nul);
      do nll' <-
        (if dgt old_low new_low
         then do v <- extend nll ll old_low; Ok (mkPt (ts nll) v)
         else Ok nll);
      Ok (mkLtc (last_transmit_point s) (UL s) (LL s) (Some nul') (Some nll') (to_transmit s) (counter s), false).

  (** l.91-95 [get_value_to_transmit]. *)
  Definition get_value_to_transmit (s : ltc) : res pt := getp (to_transmit s).

  (** l.102-129 [add]. The recursive call of l.126 costs one unit of fuel. *)
  Fixpoint add_fuel (fuel : nat) (s : ltc) (timestamp value : Z) : res (ltc * bool) :=
    match fuel with
    | O => NoFuel
    | S fuel' =>
        if counter s =? 0
        then Ok (mkLtc (Some (mkPt timestamp value)) (UL s) (LL s) (new_ul s) (new_ll s) (to_transmit s) 1, false)
        else
          do s <- update s timestamp value;
          if counter s =? 1
          then
            let s := set_ul_and_ll s in
            Ok (mkLtc (last_transmit_point s) (UL s) (LL s) (new_ul s) (new_ll s) (to_transmit s) 2, false)
          else
            do (s, n) <- need_transmit s;
            if negb n then Ok (set_ul_and_ll s, n)
            else
              do ul <- getp (UL s);
              do ll <- getp (LL s);
              do sum <- sint (val ul + val ll);
              do t1 <- sint (timestamp - 1);
              let s := mkLtc (Some (mkPt t1 (Z.quot sum 2))) (UL s) (LL s) (new_ul s) (new_ll s)
                             (last_transmit_point s) 1 in
              do (s, _) <- add_fuel fuel' s timestamp value;
              Ok (s, n)
    end.
  Definition add := add_fuel 2.

  (** A client: feeds the samples (timestamp, value) and fetches the point after each
      add that returns true. *)
  Fixpoint ltc_run (s : ltc) (l : list (Z * Z)) : res (ltc * list (option pt)) :=
    match l with
    | [] => Ok (s, [])
    | (t, v) :: l' =>
        do (s, n) <- add s t v;
        do o <- (if (n : bool) then do p <- get_value_to_transmit s; Ok (Some p) else Ok None);
        do (s, os) <- ltc_run s l';
        Ok (s, o :: os)
    end.
End LTC.

(** The points a client received. *)
Fixpoint received (os : list (option pt)) : list pt :=
  match os with
  | [] => []
  | Some p :: os' => p :: received os'
  | None :: os' => received os'
  end.
