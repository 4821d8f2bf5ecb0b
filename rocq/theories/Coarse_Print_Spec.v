(** * What the self-check and the printing of the coarse Mondrian forest are expected to do *)
From Coq Require Import ZArith List Bool.
From Verif Require Import CppBase NumOps Mondrian_Model Mondrian_Spec Coarse_Model Coarse_Spec Coarse_Print_Model.
Import ListNotations.
Local Open Scope Z_scope.

Section Print.
  Variable O : ops.
  Variable exp_ log_ : num O -> num O.
  Variable rnd : nat -> num O.
  Variable c : config O.
  Local Notation ctree := (ctree O).
  Local Notation coarse := (coarse O).

  (** The nodes of a tree with their depth and whether they are leaves: a node comes before its children, the right one first. *)
  Fixpoint listing (depth : Z) (t : ctree) : list (Z * Z * Z) :=
    match t with
    | CLeaf i _ => [(i, depth, 1)]
    | CFork i _ _ _ l r => (i, depth, 0) :: listing (depth + 1) r ++ listing (depth + 1) l
    end.
  (** The trees, one after the other, the first one with number [k]. *)
  Fixpoint listings (k : Z) (ts : list (option ctree)) : list (Z * (Z * Z * Z)) :=
    match ts with
    | [] => []
    | o :: ts => map (fun e => (k, e)) (match o with Some t => listing 0 t | None => [] end) ++ listings (k + 1) ts
    end.
  (** The tree, and the node with its depth and its kind, that a line is about. *)
  Definition columns (e : narval O) : Z * (Z * Z * Z) := (nv_tree e, (nv_node e, nv_depth e, nv_leaf e)).
  (** The line shows the present contents of its node. *)
  Definition true_line (s : coarse) (e : narval O) : Prop := nv_total e = total O s /\ get O s (nv_node e) = Ok (nv_contents e).

  (** The walks around a tree have room for the trees of this configuration: a size limit of at most 101, or so few nodes that a tree cannot be higher. *)
  Definition shallow : Prop :=
    (c_manage O c = COBBLE_MANAGEMENT \/ c_manage O c = OPTIMISTIC_COBBLE_MANAGEMENT) /\ c_size_limit O c <= 101 \/ c_nodes O c <= 202.

  (** Like [creached], with [print_nodes]. *)
  Inductive preached (l0 : Z) : coarse -> list (point O) -> Prop :=
  | preached_new : preached l0 (forest_init O c true l0) []
  | preached_train : forall s h x label s' b out, preached l0 s h -> Z.of_nat (length x) = c_features O c -> 0 <= label < c_labels O c ->
      train_print O exp_ log_ rnd c s x label = Ok (s', b, out) -> preached l0 s' ((x, label) :: h)
  | preached_predict : forall s h x sc k s' b sc', preached l0 s h -> Z.of_nat (length x) = c_features O c ->
      predict O exp_ c s x sc k = Ok (s', b, sc') -> preached l0 s' h.
End Print.
