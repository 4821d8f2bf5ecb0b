(** * What the fading scores of the leaves of the coarse Mondrian forest are expected to be *)
From Coq Require Import ZArith List Permutation.
From Verif Require Import CppBase NumOps Coarse_Spec.
Import ListNotations.
Local Open Scope Z_scope.

Section Scores.
  Variable O : ops.
  Variable labels label : Z.
  Variable limit : num O.
  Local Notation ctree := (ctree O).
  Local Notation cleaves := (cleaves O).
  Definition faded (v : num O) : num O := nmul O v (ndiv O (nofZ O 995) (nofZ O 1000)).
  Definition unchanged (v : num O) : num O := v.
  (** The numbers of the leaves of a tree and of all trees. *)
  Definition leaves_of (o : option ctree) : list Z := match o with Some t => map fst (cleaves t) | None => [] end.
  Definition leaf_ids (ts : list (option ctree)) : list Z := concat (map leaves_of ts).
  (** The counters of a leaf that got one more point. *)
  Definition one_more (cs cs' : list Z) : Prop := length cs' = length cs /\ forall l, 0 <= l < labels -> at_label l cs' = at_label l cs + (if l =? label then 1 else 0).
  Definition no_points : list Z := repeat 0 (Z.to_nat labels).
  (** From here on, [xs] and [ys] are the scores of all nodes before and after, and [g] is what becomes of a score in any case. *)
  Variable g : num O -> num O.
  Definition aged (xs ys : list (num O)) (ls : list (Z * list Z)) : Prop := forall k, In k (map fst ls) -> exists w, rd xs k = Ok w /\ rd ys k = Ok (g w).
  (** What a training point makes of a tree and of the scores of its leaves. *)
  Inductive scored (xs ys : list (num O)) : option ctree -> option ctree -> Prop :=
  | scored_none : scored xs ys None None
  | scored_first : forall j cs, one_more no_points cs -> rd ys j = Ok (nofZ O 0) -> scored xs ys None (Some (CLeaf j cs))
  (** A leaf counts the point. *)
  | scored_learns : forall t t' j cs cs' others w, Permutation (cleaves t) ((j, cs) :: others) -> Permutation (cleaves t') ((j, cs') :: others) -> one_more cs cs' ->
      rd xs j = Ok w -> rd ys j = Ok (nadd O (g w) (nofZ O 1)) -> aged xs ys others -> scored xs ys (Some t) (Some t')
  (** The point gets a leaf of its own. *)
  | scored_splits : forall t t' j cs, Permutation (cleaves t') ((j, cs) :: cleaves t) -> one_more no_points cs -> rd ys j = Ok (nofZ O 0) -> aged xs ys (cleaves t) -> scored xs ys (Some t) (Some t')
  (** The point is lost. *)
  | scored_loses : forall t t', Permutation (cleaves t') (cleaves t) -> aged xs ys (cleaves t) -> scored xs ys (Some t) (Some t').
  (** The scores of the leaves, added from the right to the left. *)
  Definition score_of (xs : list (num O)) (j : Z) : num O := match rd xs j with Ok v => g v | _ => nofZ O 0 end.
  Definition total_score (xs : list (num O)) (t : ctree) : num O := fold_left (fun a e => nadd O a (score_of xs (fst e))) (rev (cleaves t)) (nofZ O 0).
  (** No leaf has a lower score than [j], whose score is [w]. *)
  Definition lowest (xs : list (num O)) (t : ctree) (j : Z) (w : num O) : Prop :=
    rd xs j = Ok w /\ In j (map fst (cleaves t)) /\ forall k v, In k (map fst (cleaves t)) -> rd xs k = Ok v -> nlt O (g v) (g w) = false.
  (** The share of the lowest score is above the limit. *)
  Definition too_much (xs : list (num O)) (t : ctree) (w : num O) : Prop := nlt O (nofZ O 0) (total_score xs t) = true /\ nlt O limit (ndiv O (g w) (total_score xs t)) = true.
  (** What a trim makes of a tree and of the scores of its leaves. *)
  Inductive cut_lowest (xs ys : list (num O)) : option ctree -> option ctree -> Prop :=
  | cut_none : cut_lowest xs ys None None
  | cut_single : forall j cs, aged xs ys [(j, cs)] -> cut_lowest xs ys (Some (CLeaf j cs)) (Some (CLeaf j cs))
  | cut_limit : forall t j w, lowest xs t j w -> too_much xs t w -> aged xs ys (cleaves t) -> cut_lowest xs ys (Some t) (Some t)
  | cut_leaf : forall t t' j cs w, Permutation (cleaves t) ((j, cs) :: cleaves t') -> lowest xs t j w -> ~ too_much xs t w -> rd ys j = Ok (nofZ O 0) -> aged xs ys (cleaves t') ->
      cut_lowest xs ys (Some t) (Some t').
End Scores.
