(** * What the Mondrian forest is expected to do

    A tree of the forest is described by an [mtree]: the numbers of its nodes, its splits, and in each leaf the
    training points that ended there. *)
From Coq Require Import ZArith List Bool Reals Permutation.
From Flocq Require Import BinarySingleNaN.
From Verif Require Import CppBase Dbl NumOps Mondrian_Model.
Import ListNotations.
Local Open Scope Z_scope.

Section Trees.
  Variable O : ops.
  Local Notation num := (num O).

  (** A training point: its features and its label. *)
  Definition point : Type := (list num * Z)%type.
  Definition coord (p : point) (d : Z) : num := nth (Z.to_nat d) (fst p) (nofZ O 0).
  Definition with_label (l : Z) (pts : list point) : list point := filter (fun p => snd p =? l) pts.
  Definition count (l : Z) (pts : list point) : Z := Z.of_nat (length (with_label l pts)).

  Inductive mtree : Type :=
  | Leaf (i : Z) (pts : list point)
  | Fork (i : Z) (d : Z) (v : num) (l r : mtree).
  Definition top (t : mtree) : Z := match t with Leaf i _ => i | Fork i _ _ _ _ => i end.
  Fixpoint ids (t : mtree) : list Z := match t with Leaf i _ => [i] | Fork i _ _ l r => i :: ids l ++ ids r end.
  Fixpoint points (t : mtree) : list point := match t with Leaf _ pts => pts | Fork _ _ _ l r => points l ++ points r end.
  Fixpoint leaf_ids (t : mtree) : list Z := match t with Leaf i _ => [i] | Fork _ _ _ l r => leaf_ids l ++ leaf_ids r end.

  Variable feature_count label_count max_node : Z.
  Variable lifetime : num.
  Local Notation forest := (forest O).

  (** [lo] and [hi] are the smallest box around the points: in each dimension, the coordinates of two of them between
      which all others are. *)
  Definition bounding (pts : list point) (lo hi : list (option num)) : Prop :=
    length lo = Z.to_nat feature_count /\ length hi = Z.to_nat feature_count /\
    forall d, 0 <= d < feature_count -> exists p q, In p pts /\ In q pts /\
      rd lo d = Ok (Some (coord p d)) /\ rd hi d = Ok (Some (coord q d)) /\
      forall s, In s pts -> nle O (coord p d) (coord s d) = true /\ nle O (coord s d) (coord q d) = true.

  (** [tree_at f p pt t]: the tree [t] is stored in the pool of [f] below node [p] ([-1] for none) of time [pt]. Links
      between parents and children agree, leaves count their points, boxes are the smallest ones, times
      do not decrease downwards and do not exceed the lifetime. *)
  Fixpoint tree_at (f : forest) (p : Z) (pt : num) (t : mtree) : Prop :=
    exists n, rd (nodes O f) (top t) = Ok n /\ parent O n = p /\ bounding (points t) (bound_lower O n) (bound_upper O n) /\
      length (counters O n) = Z.to_nat label_count /\
      nle O pt (tau O n) = true /\ nle O (tau O n) lifetime = true /\
      match t with
      | Leaf i pts =>
          split_dimension O n = -1 /\ child_left O n = -1 /\ child_right O n = -1 /\ tau O n = lifetime /\
          forall l, 0 <= l < label_count -> rd (counters O n) l = Ok (count l pts)
      | Fork i d v l r =>
          split_dimension O n = d /\ 0 <= d < feature_count /\ split_value O n = Some v /\ nle O v v = true /\
          child_left O n = top l /\ child_right O n = top r /\
          tree_at f i (tau O n) l /\ tree_at f i (tau O n) r
      end.

  (** Number of points with label [l] counted by node [i]. *)
  Definition counter (f : forest) (l i : Z) : Z :=
    match rd (nodes O f) i with
    | Ok n => match rd (counters O n) l with Ok c => c | _ => 0 end
    | _ => 0
    end.
  Definition zsum (l : list Z) : Z := fold_right Z.add 0 l.

  (** The free nodes of the pool are those that are neither in [used] nor in [lost]. *)
  Definition is_free (f : forest) (i : Z) : Prop := exists n, rd (nodes O f) i = Ok n /\ available O n = true.
  Definition pool (f : forest) (used lost : list Z) : Prop :=
    Z.of_nat (length (nodes O f)) = max_node /\ NoDup (used ++ lost) /\
    (forall i, In i (used ++ lost) -> 0 <= i < max_node) /\
    (forall i, 0 <= i < max_node -> (is_free f i <-> ~ In i (used ++ lost))).

  (** Where a point is sent by the splits. *)
  Fixpoint routed (x : list num) (t : mtree) : Z :=
    match t with
    | Leaf i _ => i
    | Fork _ d v l r => if nle O (coord (x, 0) d) v then routed x l else routed x r
    end.
  (** The splits separate the points. *)
  Fixpoint separated (t : mtree) : Prop :=
    match t with
    | Leaf _ _ => True
    | Fork _ d v l r =>
        (forall p, In p (points l) -> nle O (coord p d) v = true) /\
        (forall p, In p (points r) -> nlt O v (coord p d) = true) /\ separated l /\ separated r
    end.
  Fixpoint leaves (t : mtree) : list (Z * list point) :=
    match t with Leaf i pts => [(i, pts)] | Fork _ _ _ l r => leaves l ++ leaves r end.

  (** The counters of an internal node say for each label in how many of its two subtrees it was trained. *)
  Definition present (l : Z) (pts : list point) : Z := if 0 <? count l pts then 1 else 0.
  Fixpoint counted (f : forest) (t : mtree) : Prop :=
    match t with
    | Leaf _ _ => True
    | Fork i _ _ a b =>
        (exists n, rd (nodes O f) i = Ok n /\
           forall l, 0 <= l < label_count -> rd (counters O n) l = Ok (present l (points a) + present l (points b))) /\
        counted f a /\ counted f b
    end.
End Trees.
Arguments Leaf {O}.
Arguments Fork {O}.

(** Sizes for which the properties are claimed. *)
Definition sizes (tree_count feature_count label_count max_node : Z) : Prop :=
  0 <= tree_count <= max_node /\ 1 <= feature_count <= 2147483647 /\ 1 <= label_count.
(** A draw strictly between 0 and 1. *)
Definition ddraw (u : dbl) : Prop := is_finite u = true /\ (0 < B2R u < 1)%R.
Definition dfine (x : dbl) : Prop := is_finite x = true.
Definition rdraw (u : R) : Prop := (0 < u < 1)%R.
Definition rfine (x : R) : Prop := True.

(** The use of a forest. *)
Section Use.
  Variable O : ops.
  Variable exp_ log_ : num O -> num O.
  Variable rnd : nat -> num O.
  Variable tree_count feature_count label_count max_node : Z.
  Variable lifetime base_measure discount_factor : num O.
  (** Which feature values are allowed. *)
  Variable ok_value : num O -> Prop.
  Local Notation forest := (forest O).
  Local Notation train := (train O log_ rnd tree_count feature_count label_count max_node lifetime).
  Local Notation predict := (predict O exp_ tree_count feature_count label_count max_node base_measure discount_factor).

  Definition input (x : list (num O)) : Prop :=
    Z.of_nat (length x) = feature_count /\ forall d, 0 <= d < feature_count -> ok_value (nth (Z.to_nat d) x (nofZ O 0)).
  (** [reached f h]: a new forest, trained with the points of [h] (the last one first) and asked for any number of predictions in between. *)
  Inductive reached : forest -> list (point O) -> Prop :=
  | reached_new : reached (forest_init O tree_count feature_count label_count max_node) []
  | reached_train : forall f h x label f' r, reached f h -> input x -> 0 <= label < label_count ->
      train f x label = Ok (f', r) -> reached f' ((x, label) :: h)
  | reached_predict : forall f h x s f' b s', reached f h -> Z.of_nat (length x) = feature_count ->
      predict f x s = Ok (f', b, s') -> reached f' h.

  (** [ts] are the trees of the forest after the points [h], and [lost] the nodes that are neither free nor in a tree. *)
  Definition trees (f : forest) (h : list (point O)) (ts : list (mtree O)) (lost : list Z) : Prop :=
    Z.of_nat (length ts) = tree_count /\
    (forall i t, nth_error ts i = Some t ->
       rd (roots O f) (Z.of_nat i) = Ok (top O t) /\ tree_at O feature_count label_count lifetime f (-1) (nofZ O 0) t /\
       Permutation (points O t) h) /\
    pool O max_node f (concat (map (ids O) ts)) lost.
End Use.

(** Exact predictions for points that were trained: the means are passed from the root down to the leaf of the point.
    A node with counters [cs] gives the labels it knows [(c - D + D * S * m) / C], where [m] is the mean of
    its parent, [C] the sum of the counters, [S] the number of labels known and [D] the discount of the time between its parent
    and itself; other labels keep the mean of the parent. *)
Section Exact.
  Variable label_count : Z.
  Variable discount_factor : R.
  Definition labels : list Z := map Z.of_nat (seq 0 (Z.to_nat label_count)).
  Definition mean (cs : Z -> Z) (D : R) (m : list R) (l : Z) : R :=
    let C := IZR (zsum (map cs labels)) in
    let S := IZR (zsum (map (fun l => if 0 <? cs l then 1 else 0) labels)) in
    (if 0 <? cs l then (IZR (cs l) - D + D * S * nth (Z.to_nat l) m 0) / C else nth (Z.to_nat l) m 0)%R.
  Fixpoint path_mean (time : Z -> R) (t0 : R) (m : list R) (t : mtree rops) (x : list R) : list R :=
    match t with
    | Leaf i pts => map (mean (fun l => count rops l pts) (exp (discount_factor * (time i - t0))) m) labels
    | Fork i d v a b =>
        let m := map (mean (fun l => present rops l (points rops a) + present rops l (points rops b)) (exp (discount_factor * (time i - t0))) m) labels in
        path_mean time (time i) m (if Rle_dec (nth (Z.to_nat d) x 0%R) v then a else b) x
    end.
  Definition time (f : forest rops) (i : Z) : R := match rd (nodes rops f) i with Ok n => tau rops n | _ => 0%R end.
  Definition average (ms : list (list R)) (l : Z) : R := (fold_right Rplus 0 (map (fun m => nth (Z.to_nat l) m 0) ms) / IZR (Z.of_nat (length ms)))%R.
End Exact.
