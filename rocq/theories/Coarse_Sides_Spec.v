(** * Specification for the coarse Mondrian forest: boxes and points of the leaves *)
From Coq Require Import ZArith List Reals.
From Verif Require Import CppBase NumOps Mondrian_Model Mondrian_Spec Coarse_Model Coarse_Spec.
Import ListNotations.
Local Open Scope Z_scope.

(** The box of node [j] reaches from [lo] to [hi] in feature [d]. *)
Definition side_of (O : ops) (s : coarse O) (j d : Z) (lo hi : num O) : Prop :=
  exists n, rd (nodes O (fr O s)) j = Ok n /\ rd (bound_lower O n) d = Ok (Some lo) /\ rd (bound_upper O n) d = Ok (Some hi).
(** The sum of [f] over the leaves of a tree. *)
Definition rsums (f : Z * list Z -> R) (es : list (Z * list Z)) : R := fold_right (fun e a => f e + a)%R 0%R es.
(** The number of points in all leaves. *)
Definition points_in (O : ops) (t : ctree O) : Z := zsum (map (fun e => zsum (snd e)) (cleaves O t)).
(** How [count_sides] divides the [k] points of a leaf with the box from [lo] to [hi] at [v]: a box that contains [v] is divided in proportion;
    a box below [v] counts for the right side and a box above [v] for the left side. *)
Definition divided (lo hi v : R) (k : Z) (ab : Z * Z) : Prop :=
  fst ab + snd ab = k /\ 0 <= fst ab /\ 0 <= snd ab /\
  ((lo < v < hi)%R -> (Rabs (IZR (fst ab) - IZR k * ((v - lo) / (hi - lo))) < 1)%R) /\
  ((v <= lo)%R -> ab = (k, 0)) /\ ((lo < v)%R -> (hi <= v)%R -> ab = (0, k)).
