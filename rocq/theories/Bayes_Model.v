(** * Model of src/naive_bayes.hpp

    [feature_type] is [double] here ([float] values convert to it exactly).
    [sqrt], [log] are the functions of [func], [exp] the one of <cmath>; they are
    arbitrary functions. *)
From Coq Require Import ZArith List Bool.
From Verif Require Import CppBase NumOps.
Import ListNotations.
Local Open Scope Z_scope.

Section Bayes.
  Variable O : ops.
  (** Template parameters. *)
  Variable label_count feature_count : Z.
  Variable sqrt log exp : num O -> num O.

  Local Notation "0.0" := (nofZ O 0).
  Local Notation "1.0" := (nofZ O 1).

  (** l.13-14: [GaussianEstimator]. *)
  Record gauss : Type := mkGauss { weight_sum : num O; variance_sum : num O; mean : num O }.
  Definition gauss_init : gauss := mkGauss 0.0 0.0 0.0.

  (** l.16-28: [GaussianEstimator::train]. *)
  Definition gauss_train (g : gauss) (value weight : num O) : gauss :=
    if nlt O 0.0 (weight_sum g) then
      let ws := nadd O (weight_sum g) weight in
      let previous_mean := mean g in
      let m := nadd O (mean g) (ndiv O (nmul O weight (nsub O value previous_mean)) ws) in
      mkGauss ws
        (nadd O (variance_sum g)
           (nmul O (nmul O weight (nsub O value previous_mean)) (nsub O value m))) m
    else mkGauss weight 0.0 value.

  (** l.36: the literal 2.50663, as a correctly rounded quotient of integers. *)
  Definition normal_constant : num O := ndiv O (nofZ O 250663) (nofZ O 100000).

  (** l.29-40: [GaussianEstimator::probability_density]. *)
  Definition probability_density (g : gauss) (value : num O) : num O :=
    if nle O (weight_sum g) 0.0 then 0.0
    else
      let variance :=
        if nlt O 1.0 (weight_sum g)
        then ndiv O (variance_sum g) (nsub O (weight_sum g) 1.0) else 0.0 in
      let stdev := sqrt variance in
      if nlt O 0.0 stdev then
        let diff := nsub O value (mean g) in
        nmul O (ndiv O 1.0 (nmul O normal_constant stdev))
          (exp (nopp O (ndiv O (nmul O diff diff) (nmul O (nmul O (nofZ O 2) stdev) stdev))))
      else if neq O value (mean g) then 1.0 else 0.0.

  (** l.43-49: the state; [sum_feature_size] is never used and left out. *)
  Record bayes : Type := mkBayes {
    counters : list gauss;
    label_weights : list (num O);
    total_weights : num O;
    smoothing : num O }.

  (** l.56-59. *)
  Definition bayes_init (s : num O) : bayes :=
    mkBayes (repeat gauss_init (Z.to_nat (label_count * feature_count)))
            (repeat 0.0 (Z.to_nat label_count)) 0.0 s.

  (** l.66-72: [train]. *)
  Definition train (m : bayes) (features : list (num O)) (label : Z) (weight : num O) : res bayes :=
    do cs <- forZ (Z.to_nat feature_count) 0
      (fun i cs =>
         do x <- rd features i;
         do g <- rd cs (label * feature_count + i);
         wr cs (label * feature_count + i) (gauss_train g x weight)) (counters m);
    do w <- rd (label_weights m) label;
    do lw <- wr (label_weights m) label (nadd O w weight);
    Ok (mkBayes cs lw (nadd O (total_weights m) weight) (smoothing m)).

  (** l.79-85: the scores. *)
  Definition local_scores (m : bayes) (features : list (num O)) : res (list (num O)) :=
    forZ (Z.to_nat label_count) 0
      (fun l sc =>
         do w <- rd (label_weights m) l;
         do sc <- wr sc l (log (ndiv O w (total_weights m)));
         forZ (Z.to_nat feature_count) 0
           (fun f sc =>
              do g <- rd (counters m) (l * feature_count + f);
              do x <- rd features f;
              do v <- rd sc l;
              wr sc l (nadd O v (log (probability_density g x)))) sc)
      (repeat 0.0 (Z.to_nat label_count)).

  (** l.78-97: [predict]; also returns what it writes to [scores]. *)
  Definition predict (m : bayes) (features : list (num O)) : res (Z * list (num O)) :=
    do sc <- local_scores m features;
    do max_l <- forZ (Z.to_nat label_count - 1) 1
      (fun l max_l =>
         do a <- rd sc max_l;
         do b <- rd sc l;
         Ok (if nlt O a b then l else max_l)) 0;
    Ok (max_l, sc).

  (** l.102-111. *)
  Definition set_smoothing (m : bayes) (val : num O) : bayes :=
    mkBayes (counters m) (label_weights m) (total_weights m) val.
  Definition get_smoothing (m : bayes) : num O := smoothing m.

  (** A history of calls on one object. *)
  Inductive bcall : Type :=
  | BTrain (features : list (num O)) (label : Z) (weight : num O)
  | BSmooth (val : num O).
  Definition bstep (m : bayes) (c : bcall) : res bayes :=
    match c with
    | BTrain f l w => train m f l w
    | BSmooth v => Ok (set_smoothing m v)
    end.
  Fixpoint brun (m : bayes) (h : list bcall) : res bayes :=
    match h with
    | [] => Ok m
    | c :: t => do m' <- bstep m c; brun m' t
    end.
End Bayes.
