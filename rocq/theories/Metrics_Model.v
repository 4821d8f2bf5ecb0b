(** * Model of src/metrics.hpp *)
From Coq Require Import ZArith List Bool.
From Verif Require Import CppBase NumOps.
Import ListNotations.
Local Open Scope Z_scope.

(** ** [ErrorMetrics<use_ratio>] (l.2-32) *)
Section ErrorMetrics.
  Variable O : ops.
  Variable use_ratio : bool.

  (** l.4-5. *)
  Record errm : Type := mkErr { err_count : Z; err_errors : Z }.
  Definition err_init : errm := mkErr 0 0.

  (** l.7-10: [update]; [int] overflow is undefined. *)
  Definition err_update (m : errm) (true_label prediction : Z) : res errm :=
    do n <- sint (err_count m + 1);
    do e <- sint (err_errors m + (if true_label =? prediction then 0 else 1));
    Ok (mkErr n e).

  (** l.20-24: [increase_error]. *)
  Definition err_increase (m : errm) (c : Z) : res errm :=
    do n <- sint (err_count m + c);
    do e <- sint (err_errors m + c);
    Ok (mkErr n e).

  (** l.11-19: [score]. *)
  Definition err_score (m : errm) (invert : bool) (tree_size : Z) : res (num O) :=
    if use_ratio && negb invert then
      Ok (nmul O (ndiv O (nofZ O (err_errors m)) (nofZ O (err_count m))) (nofZ O tree_size))
    else if negb use_ratio && negb invert then
      Ok (ndiv O (nofZ O (err_errors m)) (nofZ O (err_count m)))
    else
      do good <- sint (err_count m - err_errors m);
      let q := ndiv O (nofZ O good) (nofZ O (err_count m)) in
      Ok (if use_ratio && invert then ndiv O q (nofZ O tree_size) else q).
End ErrorMetrics.

(** The calls that change a metric; [reset] is l.25-28, l.95-100. *)
Inductive mcall : Type :=
| MUpdate (true_label prediction : Z)
| MIncrease (c : Z)
| MReset.

Definition err_step (m : errm) (o : mcall) : res errm :=
  match o with
  | MUpdate t p => err_update m t p
  | MIncrease c => err_increase m c
  | MReset => Ok err_init
  end.
Fixpoint err_run (m : errm) (l : list mcall) : res errm :=
  match l with
  | [] => Ok m
  | o :: t => do m' <- err_step m o; err_run m' t
  end.

(** ** [KappaMetrics<label_count, use_ratio>] (l.47-104) *)
Section Kappa.
  Variable O : ops.
  (** Template parameters. *)
  Variable label_count : Z.
  Variable use_ratio : bool.

  (** l.49-50: the matrix row by row, and the total. *)
  Record kappam : Type := mkKappa { confusion : list (list Z); total : Z }.

  (** l.95-100 [reset], called by the constructor (l.52). *)
  Definition kappa_reset : kappam :=
    mkKappa (repeat (repeat 0 (Z.to_nat label_count)) (Z.to_nat label_count)) 0.

  (** [confusion[i][j]], and [confusion[i][j] += c]. *)
  Definition cell (m : kappam) (i j : Z) : res Z := do r <- rd (confusion m) i; rd r j.
  Definition cell_add (m : kappam) (i j c : Z) : res kappam :=
    do r <- rd (confusion m) i;
    do v <- rd r j;
    do v' <- sint (v + c);
    do r' <- wr r j v';
    do cf <- wr (confusion m) i r';
    do t <- sint (total m + c);
    Ok (mkKappa cf t).

  (** l.63-66 [update], l.91-94 [increase_error]. *)
  Definition kappa_update (m : kappam) (true_label prediction : Z) : res kappam :=
    cell_add m true_label prediction 1.
  Definition kappa_increase (m : kappam) (c : Z) : res kappam := cell_add m 0 1 c.

  (** l.68-81 [kappa]. *)
  Definition kappa (m : kappam) : res (num O) :=
    let L := Z.to_nat label_count in
    do (diag, colrow) <- forZ L 0 (fun i '(diag, colrow) =>
      do d <- cell m i i;
      do (sum_col, sum_row) <- forZ L 0 (fun j '(sum_col, sum_row) =>
        do a <- cell m i j;
        do b <- cell m j i;
        Ok (nadd O sum_col (nofZ O a), nadd O sum_row (nofZ O b))) (nofZ O 0, nofZ O 0);
      Ok (nadd O diag (nofZ O d), nadd O colrow (nmul O sum_col sum_row))) (nofZ O 0, nofZ O 0);
    let n := nofZ O (total m) in
    Ok (ndiv O (nsub O (nmul O n diag) colrow) (nsub O (nmul O n n) colrow)).

  (** l.82-90 [score]. *)
  Definition kappa_score (m : kappam) (invert : bool) (tree_size : Z) : res (num O) :=
    do k <- kappa m;
    let one := nofZ O 1 in
    let two := nofZ O 2 in
    let size := nofZ O tree_size in
    Ok (if use_ratio && invert then ndiv O (ndiv O (nadd O k one) two) size
        else if negb use_ratio && invert then ndiv O (nadd O k one) two
        else if use_ratio && negb invert
        then nmul O (ndiv O (nadd O (nmul O k (nofZ O (-1))) one) two) size
        else ndiv O (nadd O (nmul O k (nofZ O (-1))) one) two).

  Definition kappa_step (m : kappam) (o : mcall) : res kappam :=
    match o with
    | MUpdate t p => kappa_update m t p
    | MIncrease c => kappa_increase m c
    | MReset => Ok kappa_reset
    end.
  Fixpoint kappa_run (m : kappam) (l : list mcall) : res kappam :=
    match l with
    | [] => Ok m
    | o :: t => do m' <- kappa_step m o; kappa_run m' t
    end.
End Kappa.

(** ** [ReservoirSamplingMetrics] (l.105-134) *)
Section ReservoirMetrics.
  Variable O : ops.

  (** The static [total_count] (l.106, l.134) and the field [number] of each live
      object, by object index. *)
  Record rsm : Type := mkRsm { total_count : Z; numbers : list Z }.

  Inductive rscall : Type :=
  | RsNew                    (* constructor l.109-111: a new object, at the end *)
  | RsReset (i : Z)          (* l.126-129 *)
  | RsAssign (i j : Z).      (* l.112-116: object i = object j *)

  Definition rs_step (s : rsm) (o : rscall) : res rsm :=
    match o with
    | RsNew =>
        do t <- sint (total_count s + 1);
        Ok (mkRsm t (numbers s ++ [t]))
    | RsReset i =>
        do t <- sint (total_count s + 1);
        do ns <- wr (numbers s) i t;
        Ok (mkRsm t ns)
    | RsAssign i j =>
        do n <- rd (numbers s) j;
        do ns <- wr (numbers s) i n;
        Ok (mkRsm (total_count s) ns)
    end.
  Fixpoint rs_run (s : rsm) (l : list rscall) : res rsm :=
    match l with
    | [] => Ok s
    | o :: t => do s' <- rs_step s o; rs_run s' t
    end.

  (** l.119-123 [score] of object [i]. *)
  Definition rs_score (s : rsm) (i : Z) (sample_size : Z) : res (num O) :=
    do number <- rd (numbers s) i;
    if total_count s =? number
    then do d <- sint (number - sample_size); Ok (ndiv O (nofZ O d) (nofZ O (total_count s)))
    else Ok (ndiv O (nofZ O 1) (nofZ O (total_count s))).
End ReservoirMetrics.
