(** * Model of src/mc_nn.hpp

    Simplifications: [error_count] and [count_active_cluster] are exact integers (they
    move by one per call); an array filled by a loop over the features is built in order. *)
From Coq Require Import ZArith List Bool.
From Verif Require Import CppBase NumOps.
Import ListNotations.
Local Open Scope Z_scope.

(** The template parameter [feature_type] with the operations applied to it. *)
Record feat (O : ops) : Type := {
  F : Type;
  fadd : F -> F -> res F;
  fmul : F -> F -> res F;
  (** [(a - b) * (a - b)] as a double *)
  fdiff2 : F -> F -> res (num O);
  (** [(double)a], and conversion of a double *)
  fdbl : F -> num O;
  fofd : num O -> res F;
  (** [a / n] with [unsigned int n] *)
  favg : F -> Z -> res F;
  (** [a -= d] and [a += d] with [double d] *)
  fsubd : F -> num O -> res F;
  faddd : F -> num O -> res F
}.
Arguments F {O}. Arguments fadd {O}. Arguments fmul {O}. Arguments fdiff2 {O}. Arguments fdbl {O}.
Arguments fofd {O}. Arguments favg {O}. Arguments fsubd {O}. Arguments faddd {O}.

(** [feature_type = double]. *)
Definition fdouble (O : ops) : feat O := {|
  F := num O;
  fadd := fun a b => Ok (nadd O a b);
  fmul := fun a b => Ok (nmul O a b);
  fdiff2 := fun a b => Ok (nmul O (nsub O a b) (nsub O a b));
  fdbl := fun a => a;
  fofd := fun d => Ok d;
  favg := fun a n => Ok (ndiv O a (nofZ O n));
  fsubd := fun a d => Ok (nsub O a d);
  faddd := fun a d => Ok (nadd O a d) |}.

(** [feature_type = int]: in [a / n] the [int] is converted to [unsigned int]. *)
Definition fint (O : ops) : feat O := {|
  F := Z;
  fadd := fun a b => sint (a + b);
  fmul := fun a b => sint (a * b);
  fdiff2 := fun a b => do d <- sint (a - b); do p <- sint (d * d); Ok (nofZ O p);
  fdbl := fun a => nofZ O a;
  fofd := fun d => n2int O d;
  favg := fun a n => if n =? 0 then Undef DivByZero else Ok (to_int (u32 a / n));
  fsubd := fun a d => n2int O (nsub O (nofZ O a) d);
  faddd := fun a d => n2int O (nadd O (nofZ O a) d) |}.

(** An array of [n] cells filled in order. *)
Definition fill {A} (n : Z) (f : Z -> res A) : res (list A) :=
  forZ (Z.to_nat n) 0 (fun i l => do v <- f i; Ok (l ++ [v])) [].

Section MCNN.
  Variable O : ops.
  Variable T : feat O.
  Variable sqrt_ : num O -> num O.
  Variable feature_count max_cluster empty_class : Z.
  Local Notation n_ := (nofZ O).

  (** l.17-25. *)
  Record cluster : Type := mkCluster {
    features_square_sum : list (F T);
    features_sum : list (F T);
    timestamp_square_sum : num O;
    timestamp_sum : num O;
    data_count : Z;
    label : Z;
    error_count : Z;
    initial_timestamp : num O }.

  (** l.28-30 for [double]; 0.5 is [1/2], exact in binary. *)
  Definition triangular_number (t : num O) : num O :=
    nmul O (nadd O (nmul O t t) t) (ndiv O (n_ 1) (n_ 2)).

  (** l.35-40. *)
  Definition variance (c : cluster) (i : Z) : res (num O) :=
    do q <- rd (features_square_sum c) i;
    do s <- rd (features_sum c) i;
    let a := ndiv O (fdbl T q) (n_ (data_count c)) in
    let b := ndiv O (fdbl T s) (n_ (data_count c)) in
    Ok (nsub O a (nmul O b b)).

  (** l.46-54. *)
  Definition incorporate (c : cluster) (features : list (F T)) (timestamp : num O) : res cluster :=
    do fs <- fill feature_count (fun i => do s <- rd (features_sum c) i; do x <- rd features i; fadd T s x);
    do fq <- fill feature_count
      (fun i => do q <- rd (features_square_sum c) i; do x <- rd features i; do p <- fmul T x x; fadd T q p);
    Ok (mkCluster fq fs
          (nadd O (timestamp_square_sum c) (nmul O timestamp timestamp))
          (nadd O (timestamp_sum c) timestamp)
          (u32 (data_count c + 1)) (label c) (error_count c) (initial_timestamp c)).

  (** l.59-65. *)
  Definition performance (c : cluster) (current_timestamp : num O) : num O :=
    let real_tn := nsub O (triangular_number current_timestamp) (triangular_number (initial_timestamp c)) in
    nmul O (timestamp_sum c) (ndiv O (n_ 100) real_tn).

  (** l.73-84. *)
  Definition initialize (features : list (F T)) (label : Z) (timestamp : num O) (starting_error : Z) : res cluster :=
    do fs <- fill feature_count (fun i => rd features i);
    do fq <- fill feature_count (fun i => do x <- rd features i; fmul T x x);
    Ok (mkCluster fq fs (nmul O timestamp timestamp) timestamp 1 label starting_error timestamp).

  (** l.89-93. *)
  Definition centroid (c : cluster) : res (list (F T)) :=
    fill feature_count
      (fun i => do s <- rd (features_sum c) i; fofd T (ndiv O (fdbl T s) (n_ (data_count c)))).

  (** l.115-123; [clusters] is not initialised. *)
  Record mcnn : Type := mkMcnn {
    clusters : list (option cluster);
    active : list bool;
    count_active_cluster : Z;
    timestamp : num O;
    error_thr : Z;
    performance_thr : num O;
    cleaning_method : Z }.

  (** l.294-298: the constructor. *)
  Definition mcnn_init (error_thr cleaning_method : Z) (performance_thr : num O) : mcnn :=
    mkMcnn (repeat None (Z.to_nat max_cluster)) (repeat false (Z.to_nat max_cluster)) 0 (n_ (-1))
           error_thr performance_thr cleaning_method.

  Definition set_cluster (m : mcnn) (i : Z) (c : cluster) : res mcnn :=
    do cs <- wr (clusters m) i (Some c);
    Ok (mkMcnn cs (active m) (count_active_cluster m) (timestamp m) (error_thr m) (performance_thr m) (cleaning_method m)).
  Definition set_active (m : mcnn) (i : Z) (b : bool) : res mcnn :=
    do act <- wr (active m) i b;
    Ok (mkMcnn (clusters m) act (count_active_cluster m) (timestamp m) (error_thr m) (performance_thr m) (cleaning_method m)).
  Definition one_more (m : mcnn) : mcnn :=
    mkMcnn (clusters m) (active m) (count_active_cluster m + 1) (timestamp m) (error_thr m) (performance_thr m) (cleaning_method m).
  Definition tick (m : mcnn) : mcnn :=
    mkMcnn (clusters m) (active m) (count_active_cluster m) (nadd O (timestamp m) (n_ 1)) (error_thr m) (performance_thr m) (cleaning_method m).

  (** l.130-143. *)
  Definition get_lowest_participation (m : mcnn) : res Z :=
    do (lowest, _) <- forZ (Z.to_nat max_cluster) 0
      (fun i '(lowest, lowest_value) =>
         do a <- rd (active m) i;
         if a then
           do c <- rdi (clusters m) i;
           let perf := performance c (timestamp m) in
           if (lowest =? -1) || nlt O perf lowest_value then Ok (i, perf) else Ok (lowest, lowest_value)
         else Ok (lowest, lowest_value)) (-1, n_ 101);
    Ok lowest.

  (** l.165-173: the feature with the greatest variance, -1 if there is no feature. *)
  Definition widest_feature (c : cluster) : res (Z * num O) :=
    forZ (Z.to_nat feature_count) 0
      (fun i '(split_index, highest) =>
         do v <- variance c i;
         if nlt O highest v || (split_index =? -1) then Ok (i, v) else Ok (split_index, highest)) (-1, n_ 0).

  (** l.148-192; [error_thr] is passed as an [int]. *)
  Definition split (m : mcnn) (cluster_idx : Z) : res mcnn :=
    do free <- findZ (Z.to_nat max_cluster) 0
      (fun i => do a <- rd (active m) i; Ok (if negb a && negb (i =? cluster_idx) then Some i else None));
    do target <-
      match free with
      | Some i => Ok (Some i)
      | None =>
          if (cleaning_method m =? 0) || (cleaning_method m =? 2)
          then do l <- get_lowest_participation m; Ok (Some l)
          else Ok None
      end;
    match target with
    | None => Ok m
    | Some new_idx =>
        do c <- rdi (clusters m) cluster_idx;
        do (split_index, highest_variance) <- widest_feature c;
        let deviation := sqrt_ highest_variance in
        do mid <- fill feature_count (fun i => do s <- rd (features_sum c) i; favg T s (data_count c));
        do x <- rd mid split_index;
        do lo <- fsubd T x deviation;
        do hi <- faddd T x deviation;
        do cluster_minus <- wr mid split_index lo;
        do cluster_plus <- wr mid split_index hi;
        do old_time <- n2int O (ndiv O (timestamp_sum c) (n_ (data_count c)));
        do c1 <- initialize cluster_minus (label c) (n_ old_time) (to_int (error_thr m));
        do m <- set_cluster m new_idx c1;
        do c <- rdi (clusters m) cluster_idx;
        do c2 <- initialize cluster_plus (label c) (n_ old_time) (to_int (error_thr m));
        do m <- set_cluster m cluster_idx c2;
        do m <- set_active m new_idx true;
        Ok (one_more m)
    end.

  (** l.198-204. *)
  Definition euclidean_distance (e1 e2 : list (F T)) : res (num O) :=
    forZ (Z.to_nat feature_count) 0
      (fun i s => do a <- rd e1 i; do b <- rd e2 i; do d <- fdiff2 T a b; Ok (nadd O s d)) (n_ 0).

  (** The loop of l.225-236 and l.254-266, over the clusters chosen by [wanted]. *)
  Definition nearest_loop (m : mcnn) (features : list (F T)) (wanted : cluster -> bool) : res (Z * num O) :=
    forZ (Z.to_nat max_cluster) 0
      (fun i '(nearest, shortest) =>
         do a <- rd (active m) i;
         if a then
           do c <- rdi (clusters m) i;
           if wanted c then
             do ce <- centroid c;
             do d <- euclidean_distance features ce;
             if nlt O d shortest then Ok (i, d) else Ok (nearest, shortest)
           else Ok (nearest, shortest)
         else Ok (nearest, shortest)) (-1, n_ 1000000).

  (** l.249-271: [nearest] and [*shortest]. *)
  Definition find_nearest (m : mcnn) (features : list (F T)) : res (Z * num O) :=
    nearest_loop m features (fun _ => true).

  (** l.212-242: [nearest] and [nearest_with_class]. *)
  Definition find_nearest_with_class (m : mcnn) (features : list (F T)) (lb : Z) : res (Z * Z) :=
    do (nearest, distance_nearest) <- find_nearest m features;
    do same <- (if 0 <=? nearest
                then do c <- rdi (clusters m) nearest; Ok (label c =? lb)
                else Ok false);
    if same then Ok (nearest, nearest)
    else
      do (nearest_with_class, shortest) <- nearest_loop m features (fun c => label c =? lb);
      if neq O shortest distance_nearest then Ok (nearest_with_class, nearest_with_class)
      else Ok (nearest, nearest_with_class).

  (** l.282-286. *)
  Definition clean_low_performance_clusters (m : mcnn) : res mcnn :=
    forZ (Z.to_nat max_cluster) 0
      (fun i m =>
         do a <- rd (active m) i;
         if a then
           do c <- rdi (clusters m) i;
           if (1 <? data_count c) && nlt O (performance c (timestamp m)) (performance_thr m)
           then set_active m i false else Ok m
         else Ok m) m.

  (** l.338-348: a change of [error_count]. *)
  Definition add_error (m : mcnn) (i d : Z) : res mcnn :=
    do c <- rdi (clusters m) i;
    set_cluster m i
      (mkCluster (features_square_sum c) (features_sum c) (timestamp_square_sum c) (timestamp_sum c)
                 (data_count c) (label c) (error_count c + d) (initial_timestamp c)).
  Definition incorporate_at (m : mcnn) (i : Z) (features : list (F T)) : res mcnn :=
    do c <- rdi (clusters m) i;
    do c <- incorporate c features (timestamp m);
    set_cluster m i c.

  (** l.305-360. *)
  Definition train (m : mcnn) (features : list (F T)) (lb : Z) : res (mcnn * bool) :=
    do m <- (if (cleaning_method m =? 1) || (cleaning_method m =? 2)
             then clean_low_performance_clusters m else Ok m);
    let m := tick m in
    do (nearest, with_class) <- find_nearest_with_class m features lb;
    if with_class <? 0 then
      do free <- findZ (Z.to_nat max_cluster) 0
        (fun i => do a <- rd (active m) i; Ok (if a then None else Some i));
      match free with
      | Some i =>
          do m <- set_active m i true;
          do c <- initialize features lb (timestamp m) (to_int (error_thr m));
          do m <- set_cluster (one_more m) i c;
          Ok (m, true)
      | None =>
          if (cleaning_method m =? 0) || (cleaning_method m =? 2) then
            do new_idx <- get_lowest_participation m;
            do _ <- rdi (clusters m) new_idx;
            do c <- initialize features lb (timestamp m) (to_int (error_thr m));
            do m <- set_cluster m new_idx c;
            Ok (m, true)
          else Ok (m, false)
      end
    else if nearest =? with_class then
      do m <- add_error m nearest 1;
      do m <- incorporate_at m nearest features;
      Ok (m, true)
    else
      do m <- add_error m nearest (-1);
      do m <- add_error m with_class (-1);
      do m <- incorporate_at m with_class features;
      do c <- rdi (clusters m) with_class;
      do m <- (if error_count c <=? 0 then split m with_class else Ok m);
      do c <- rdi (clusters m) nearest;
      do m <- (if error_count c <=? 0 then split m nearest else Ok m);
      Ok (m, true).

  (** l.366-374. *)
  Definition predict (m : mcnn) (features : list (F T)) : res Z :=
    do (nearest, _) <- find_nearest m features;
    if nearest <? 0 then Ok empty_class
    else
      do _ <- assertb (nearest <? max_cluster);
      do c <- rdi (clusters m) nearest;
      Ok (label c).

  (** l.379-381. *)
  Definition count_clusters (m : mcnn) : Z := count_active_cluster m.
End MCNN.
