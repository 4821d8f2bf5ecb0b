(** * What the coarse Mondrian forest is expected to do

    A tree of the forest is described by a [ctree]: the numbers of its nodes, its splits and its counters. *)
From Coq Require Import ZArith List Bool.
From Verif Require Import CppBase NumOps Mondrian_Model Mondrian_Spec Coarse_Model.
Import ListNotations.
Local Open Scope Z_scope.

Section Trees.
  Variable O : ops.
  Local Notation num := (num O).
  Local Notation forest := (forest O).
  Inductive ctree : Type :=
  | CLeaf (i : Z) (cs : list Z)
  | CFork (i d : Z) (v : num) (cs : list Z) (l r : ctree).
  Definition ctop (t : ctree) : Z := match t with CLeaf i _ => i | CFork i _ _ _ _ _ => i end.
  Fixpoint cids (t : ctree) : list Z := match t with CLeaf i _ => [i] | CFork i _ _ _ l r => i :: cids l ++ cids r end.
  (** The counters of the leaves, with the number of the leaf. *)
  Fixpoint cleaves (t : ctree) : list (Z * list Z) := match t with CLeaf i cs => [(i, cs)] | CFork _ _ _ _ l r => cleaves l ++ cleaves r end.
  (** Number of nodes on the longest way down. *)
  Fixpoint height (t : ctree) : Z := match t with CLeaf _ _ => 1 | CFork _ _ _ _ l r => 1 + Z.max (height l) (height r) end.
  (** How many points with label [l] the leaves count. *)
  Definition at_label (l : Z) (cs : list Z) : Z := nth (Z.to_nat l) cs 0.
  Definition tally (l : Z) (t : ctree) : Z := zsum (map (fun e => at_label l (snd e)) (cleaves t)).
  Definition top_counters (t : ctree) : list Z := match t with CLeaf _ cs => cs | CFork _ _ _ cs _ _ => cs end.

  Variable feature_count label_count : Z.
  (** [stored f p t]: the tree [t] is stored in the pool of [f] below node [p] ([-1] for none): the links between parents and children agree, and the nodes are in use. *)
  Fixpoint stored (f : forest) (p : Z) (t : ctree) : Prop :=
    exists n, rd (nodes O f) (ctop t) = Ok n /\ parent O n = p /\ counters O n = top_counters t /\ length (counters O n) = Z.to_nat label_count /\
      nlt O (tau O n) (nofZ O 0) = false /\
      match t with
      | CLeaf _ _ => split_dimension O n = -1 /\ child_left O n = -1 /\ child_right O n = -1
      | CFork i d v _ l r =>
          split_dimension O n = d /\ 0 <= d < feature_count /\ split_value O n = Some v /\ child_left O n = ctop l /\ child_right O n = ctop r /\
          stored f i l /\ stored f i r
      end.
  (** Every internal node counts, for each label, the children whose counter is not zero. *)
  Fixpoint recapped (t : ctree) : Prop :=
    match t with
    | CLeaf _ _ => True
    | CFork _ _ _ cs l r =>
        (forall k, 0 <= k < label_count -> at_label k cs = Z.min 1 (at_label k (top_counters l)) + Z.min 1 (at_label k (top_counters r))) /\ recapped l /\ recapped r
    end.
End Trees.
Arguments CLeaf {O}.
Arguments CFork {O}.

Section Use.
  Variable O : ops.
  Variable exp_ log_ : num O -> num O.
  Variable rnd : nat -> num O.
  Variable c : config O.
  Local Notation coarse := (coarse O).

  (** The free nodes of the pool. *)
  Definition free_count (s : coarse) : Z := Z.of_nat (length (filter (available O) (nodes O (fr O s)))).
  Definition all_cids (ts : list (option (ctree O))) : list Z := concat (map (fun o => match o with Some t => cids O t | None => [] end) ts).
  (** [ts] are the trees of the forest; a tree that could not be created is [None]. Every node in use is in exactly one place of one tree. *)
  Definition ctrees (s : coarse) (ts : list (option (ctree O))) : Prop :=
    Z.of_nat (length ts) = c_trees O c /\
    (forall i o, nth_error ts i = Some o ->
       match o with
       | Some t => rd (roots O (fr O s)) (Z.of_nat i) = Ok (ctop O t) /\ stored O (c_features O c) (c_labels O c) (fr O s) (-1) t
       | None => rd (roots O (fr O s)) (Z.of_nat i) = Ok (-1)
       end) /\
    Z.of_nat (length (nodes O (fr O s))) = c_nodes O c /\ NoDup (all_cids ts) /\
    forall i n, rd (nodes O (fr O s)) i = Ok n -> (In i (all_cids ts) <-> available O n = false).

  (** [creached s h]: a new forest with static storage, trained with the points of [h] (the last one first) and asked for any number of predictions in between.
      Every train must have returned. *)
  Inductive creached (l0 : Z) : coarse -> list (point O) -> Prop :=
  | creached_new : creached l0 (forest_init O c true l0) []
  | creached_train : forall s h x label s' b, creached l0 s h -> Z.of_nat (length x) = c_features O c -> 0 <= label < c_labels O c ->
      train O log_ rnd c s x label = Ok (s', b) -> creached l0 s' ((x, label) :: h)
  | creached_predict : forall s h x sc k s' b sc', creached l0 s h -> Z.of_nat (length x) = c_features O c ->
      predict O exp_ c s x sc k = Ok (s', b, sc') -> creached l0 s' h.
  (** The label that [predict] returns. *)
  Definition predicted (s : coarse) (x : list (num O)) (tree_to_use : Z) : res Z := do (r, _) <- predict O exp_ c s x None tree_to_use; Ok (snd r).
End Use.
(** [u] is a subtree of [t]. *)
Fixpoint csub {O : ops} (u t : ctree O) : Prop := u = t \/ match t with CLeaf _ _ => False | CFork _ _ _ _ l r => csub u l \/ csub u r end.
(** The splits of a tree: a dimension and a value for each internal node. *)
Fixpoint csplits (O : ops) (t : ctree O) : list (Z * num O) := match t with CLeaf _ _ => [] | CFork _ d v _ l r => (d, v) :: csplits O l ++ csplits O r end.
(** What one training point ([x], [label]) makes of the counts of a tree: the leaves count it once, and have lost at most the points of one leaf, if the forest trims and is out of nodes.
    (The point is not counted when it meets a split value that it cannot be compared with.) A first tree counts the point. *)
Definition counts_point (O : ops) (c : config O) (s s' : coarse O) (x : list (num O)) (label : Z) (o o' : option (ctree O)) : Prop :=
  match o, o' with
  | Some t, Some t' => exists gone : Z -> Z,
      ((forall l, gone l = 0) \/ (c_trim O c <> TRIM_NONE /\ avail O s <= 1 /\ exists j cs, In (j, cs) (cleaves O t) /\ forall l, gone l = at_label l cs)) /\
      ((forall l, 0 <= l -> tally O l t' = tally O l t - gone l + (if l =? label then 1 else 0)) \/
       ((forall l, tally O l t' = tally O l t - gone l) /\ exists d v xd, In (d, v) (csplits O t) /\ rd x d = Ok xd /\ nle O xd v = false /\ nlt O v xd = false))
  | None, Some t' => forall l, 0 <= l -> tally O l t' = if l =? label then 1 else 0
  | None, None => avail O s' = 0
  | Some _, None => False
  end.
(** With random trimming, the draws are below 1. *)
Definition ctrims (O : ops) (rnd : nat -> num O) (c : config O) : Prop :=
  c_trim O c = TRIM_NONE \/ c_trim O c = TRIM_COUNT \/ c_trim O c = TRIM_FADING \/ (c_trim O c = TRIM_RANDOM /\ forall k, nlt O (rnd k) (nofZ O 1) = true).
(** Sizes for which the properties are claimed, and a lifetime that is not negative. *)
Definition csizes (O : ops) (c : config O) (l0 : Z) : Prop :=
  0 <= c_trees O c /\ 1 <= c_features O c /\ 1 <= c_labels O c /\ 0 <= c_nodes O c <= 1000000000 /\ 0 <= l0 <= 1000000000 /\
  nle O (nofZ O 0) (c_life O c) = true.
