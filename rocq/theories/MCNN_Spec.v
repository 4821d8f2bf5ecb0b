(** * What an MC-NN cluster and a nearest cluster are *)
From Coq Require Import ZArith List Bool Reals.
From Verif Require Import CppBase NumOps MCNN_Model.
Import ListNotations.
Local Open Scope Z_scope.

Section Stats.
  Variable O : ops.
  Definition coordinate (p : list (num O)) (k : nat) : num O := nth k p (nofZ O 0).
  (** Sums of coordinate [k], and of its square, over [p :: ps] in order of arrival. *)
  Definition sum_of (p : list (num O)) (ps : list (list (num O))) (k : nat) : num O :=
    fold_left (fun s q => nadd O s (coordinate q k)) ps (coordinate p k).
  Definition square_of (p : list (num O)) (ps : list (list (num O))) (k : nat) : num O :=
    fold_left (fun s q => nadd O s (nmul O (coordinate q k) (coordinate q k))) ps
              (nmul O (coordinate p k) (coordinate p k)).
  (** Squared distance between two points of [n] coordinates. *)
  Fixpoint distance2 (x y : nat -> num O) (n : nat) : num O :=
    match n with
    | Datatypes.O => nofZ O 0
    | S n' => nadd O (distance2 x y n') (nmul O (nsub O (x n') (y n')) (nsub O (x n') (y n')))
    end.

  (** Among the candidates [i < n] with [ok i], the first one at least distance [d], below [cap]. *)
  Definition first_nearest (n : nat) (ok : nat -> bool) (d : nat -> num O) (cap : num O) (i : nat) : Prop :=
    (i < n)%nat /\ ok i = true /\ nlt O (d i) cap = true /\
    (forall j, (j < n)%nat -> ok j = true -> nlt O (d j) (d i) = false) /\
    (forall j, (j < i)%nat -> ok j = true -> nle O (d j) (d i) = false).
  Definition none_near (n : nat) (ok : nat -> bool) (d : nat -> num O) (cap : num O) : Prop :=
    forall j, (j < n)%nat -> ok j = true -> nlt O (d j) cap = false.
End Stats.

(** A history of calls of [train], with the answers. *)
Fixpoint trains (O : ops) (T : feat O) (sq : num O -> num O) (fc mc : Z) (m : mcnn O T) (h : list (list (F T) * Z)) : res (mcnn O T * list bool) :=
  match h with
  | [] => Ok (m, [])
  | (x, lb) :: h' =>
      do (m, b) <- train O T sq fc mc m x lb;
      do (m, bs) <- trains O T sq fc mc m h';
      Ok (m, b :: bs)
  end.

(** [m] is what a classifier with [mc] clusters over [fc] features becomes after the history [h]. *)
Definition reached (O : ops) (T : feat O) (sq : num O -> num O) (fc mc : nat) (thr meth : Z) (pthr : num O)
    (h : list (list (F T) * Z)) (m : mcnn O T) : Prop :=
  exists bs, trains O T sq (Z.of_nat fc) (Z.of_nat mc) (mcnn_init O T (Z.of_nat mc) thr meth pthr) h = Ok (m, bs).
(** All points have [fc] features. *)
Definition sized {A} (fc : nat) (h : list (list A * Z)) : Prop := Forall (fun p => length (fst p) = fc) h.

(** The table and its clusters, for [feature_type = double]. *)
Section Table.
  Variable O : ops.
  Variable sq : num O -> num O.
  Variable fc mc : nat.
  Local Notation T := (fdouble O).
  Local Notation cluster := (cluster O T).
  Local Notation mcnn := (mcnn O T).
  Local Notation n_ := (nofZ O).
  Local Notation point := (list (num O)).

  (** The cluster in slot [i], if it was ever written; whether the slot is in use. *)
  Definition slot (m : mcnn) (i : nat) : option cluster :=
    match nth_error (clusters O T m) i with Some (Some c) => Some c | _ => None end.
  Definition live (m : mcnn) (i : nat) : bool := nth i (active O T m) false.
  (** A cluster holding the point [p] only; the same cluster with one more point; with another error count. *)
  Definition fresh (p : point) (lb : Z) (t : num O) (e : Z) : cluster :=
    mkCluster O T (map (fun k => nmul O (coordinate O p k) (coordinate O p k)) (seq 0 fc))
      (map (coordinate O p) (seq 0 fc)) (nmul O t t) t 1 lb e t.
  Definition grown (c : cluster) (p : point) (t : num O) : cluster :=
    mkCluster O T
      (map (fun k => nadd O (coordinate O (features_square_sum O T c) k) (nmul O (coordinate O p k) (coordinate O p k))) (seq 0 fc))
      (map (fun k => nadd O (coordinate O (features_sum O T c) k) (coordinate O p k)) (seq 0 fc))
      (nadd O (timestamp_square_sum O T c) (nmul O t t)) (nadd O (timestamp_sum O T c) t)
      (u32 (data_count O T c + 1)) (label O T c) (error_count O T c) (initial_timestamp O T c).
  Definition with_error (c : cluster) (d : Z) : cluster :=
    mkCluster O T (features_square_sum O T c) (features_sum O T c) (timestamp_square_sum O T c) (timestamp_sum O T c)
                 (data_count O T c) (label O T c) (error_count O T c + d) (initial_timestamp O T c).
  (** Squared distance to the centre; the candidates of a search; the distance by slot. *)
  Definition dist (x : point) (c : cluster) : num O :=
    distance2 O (coordinate O x) (fun k => ndiv O (coordinate O (features_sum O T c) k) (n_ (data_count O T c))) fc.
  Definition wantedb (m : mcnn) (f : cluster -> bool) (i : nat) : bool :=
    live m i && match slot m i with Some c => f c | None => false end.
  Definition dist_at (m : mcnn) (x : point) (i : nat) : num O :=
    match slot m i with Some c => dist x c | None => n_ 0 end.
  (** Variance and centre of a cluster; the centre moved by one deviation along feature [k]. *)
  Definition var (c : cluster) (k : nat) : num O :=
    let a := ndiv O (coordinate O (features_square_sum O T c) k) (n_ (data_count O T c)) in
    let b := ndiv O (coordinate O (features_sum O T c) k) (n_ (data_count O T c)) in
    nsub O a (nmul O b b).
  Definition middle (c : cluster) : point :=
    map (fun k => ndiv O (coordinate O (features_sum O T c) k) (n_ (data_count O T c))) (seq 0 fc).
  Definition lower (c : cluster) (k : nat) : point :=
    upd (middle c) k (nsub O (coordinate O (middle c) k) (sq (var c k))).
  Definition upper (c : cluster) (k : nat) : point :=
    upd (middle c) k (nadd O (coordinate O (middle c) k) (sq (var c k))).
  Definition all_live (m : mcnn) : Prop := forall i, (i < mc)%nat -> live m i = true.
  (** The table with slot [i] replaced; with slot [i] taken into use. *)
  Definition put (m : mcnn) (i : nat) (c : cluster) : mcnn :=
    mkMcnn O T (upd (clusters O T m) i (Some c)) (active O T m) (count_active_cluster O T m) (timestamp O T m)
      (error_thr O T m) (performance_thr O T m) (cleaning_method O T m).
  Definition new_at (m : mcnn) (i : nat) (c : cluster) : mcnn :=
    mkMcnn O T (upd (clusters O T m) i (Some c)) (upd (active O T m) i true) (count_active_cluster O T m + 1) (timestamp O T m)
      (error_thr O T m) (performance_thr O T m) (cleaning_method O T m).
End Table.

(** Participation of a cluster created at time [t0] whose points arrived at times summing to [ts], at time [t]. *)
Definition participation (O : ops) (ts t0 t : num O) : num O :=
  let half := ndiv O (nofZ O 1) (nofZ O 2) in
  nmul O ts (ndiv O (nofZ O 100) (nsub O (nmul O (nadd O (nmul O t t) t) half) (nmul O (nadd O (nmul O t0 t0) t0) half))).

(** Number of [true]. *)
Definition trues (l : list bool) : nat := length (filter (fun b => b) l).

Local Open Scope R_scope.
(** Mean and variance of coordinate [k] of a list of points. *)
Definition rtotal (l : list R) : R := fold_right Rplus 0 l.
Definition mean_of (ps : list (list R)) (k : nat) : R :=
  rtotal (map (fun p => nth k p 0) ps) / INR (length ps).
Definition variance_of (ps : list (list R)) (k : nat) : R :=
  rtotal (map (fun p => (nth k p 0 - mean_of ps k) ^ 2) ps) / INR (length ps).
