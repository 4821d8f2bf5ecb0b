(** * What the unbounded Mondrian forest is expected to do

    The trees are those of [Mondrian_Spec]. *)
From Coq Require Import ZArith List Bool Permutation.
From Verif Require Import CppBase NumOps Mondrian_Model Mondrian_Spec Unbound_Model.
Import ListNotations.
Local Open Scope Z_scope.

Section Use.
  Variable O : ops.
  Variable log_ : num O -> num O.
  Variable rnd : nat -> num O.
  Variable tree_count feature_count label_count : Z.
  Variable lifetime : num O.
  (** Which feature values are allowed. *)
  Variable ok_value : num O -> Prop.
  Local Notation forest := (forest O).

  (** [ureached f h]: a new forest, trained with the points of [h] (the last one first). Predictions do not change the forest. *)
  Inductive ureached : forest -> list (point O) -> Prop :=
  | ureached_new : ureached (forest_init O tree_count) []
  | ureached_train : forall f h x label f' r, ureached f h -> input O feature_count ok_value x -> 0 <= label < label_count ->
      train O log_ rnd tree_count feature_count label_count lifetime f x label = Ok (f', r) -> ureached f' ((x, label) :: h).

  (** All nodes that were ever allocated. *)
  Definition addresses (f : forest) : list Z := map Z.of_nat (seq 0 (length (nodes O f))).
  (** [ts] are the trees of the forest after the points [h]: each holds all points, the counters of its internal nodes are up to date, and every
      allocated node is in exactly one place of one tree. *)
  Definition utrees (f : forest) (h : list (point O)) (ts : list (mtree O)) : Prop :=
    Z.of_nat (length ts) = tree_count /\
    (forall i t, nth_error ts i = Some t ->
       rd (roots O f) (Z.of_nat i) = Ok (top O t) /\ tree_at O feature_count label_count lifetime f (-1) (nofZ O 0) t /\
       Permutation (points O t) h /\ counted O label_count f t) /\
    Permutation (concat (map (ids O) ts)) (addresses f).
End Use.
(** Sizes for which the properties are claimed. *)
Definition usizes (tree_count feature_count label_count : Z) : Prop :=
  0 <= tree_count /\ 1 <= feature_count <= 2147483647 /\ 1 <= label_count.
