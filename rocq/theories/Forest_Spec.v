(** * When two Mondrian forests hold the same trees *)
From Coq Require Import ZArith List.
From Verif Require Import NumOps Mondrian_Spec Coarse_Spec.
Local Open Scope Z_scope.

(** The same splits in the same places, and leaves that count the same points: the numbers of the nodes may differ. *)
Fixpoint same_tree (O : ops) (label_count : Z) (t u : mtree O) : Prop :=
  match t, u with
  | Leaf _ p, Leaf _ q => forall l, 0 <= l < label_count -> count O l p = count O l q
  | Fork _ d v a b, Fork _ e w a' b' => d = e /\ v = w /\ same_tree O label_count a a' /\ same_tree O label_count b b'
  | _, _ => False
  end.

(** The same for a tree of the coarse forest: its leaves count what the other ones count. *)
Fixpoint same_splits (O : ops) (label_count : Z) (t : ctree O) (u : mtree O) : Prop :=
  match t, u with
  | CLeaf _ cs, Leaf _ q => forall l, 0 <= l < label_count -> at_label l cs = count O l q
  | CFork _ d v _ a b, Fork _ e w a' b' => d = e /\ v = w /\ same_splits O label_count a a' /\ same_splits O label_count b b'
  | _, _ => False
  end.
