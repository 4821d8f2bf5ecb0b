(** * What the Mondrian forest is expected to predict for any point *)
From Coq Require Import ZArith List Bool Reals.
From Verif Require Import CppBase NumOps Mondrian_Model Mondrian_Spec.
Import ListNotations.
Local Open Scope Z_scope.

(** Exact arithmetic. A point that is [outside] the box of a node by [eta] leaves the tree above that node with
    probability [1 - exp (- time * eta)] (the time is measured from 0, not from the parent); it then gets the means of
    a new leaf ([stray]). *)
Section Smoothed.
  Variable feature_count label_count : Z.
  Variable discount_factor : R.
  Variable f : forest rops.
  Local Notation labels := (labels label_count).
  Definition side (o : option R) : R := match o with Some v => v | None => 0%R end.
  Definition outside (i : Z) (x : list R) : R :=
    match rd (nodes rops f) i with
    | Ok n => fold_right Rplus 0%R (map (fun d => (Rmax 0 (nth d x 0 - side (nth d (bound_upper rops n) None)) + Rmax 0 (side (nth d (bound_lower rops n) None) - nth d x 0))%R)
                (seq 0 (Z.to_nat feature_count)))
    | _ => 0%R
    end.
  Definition known (cs : Z -> Z) (l : Z) : Z := if 0 <? cs l then 1 else 0.
  Definition stray (cs : Z -> Z) (eta t : R) (m : list R) (l : Z) : R :=
    let S := IZR (zsum (map (known cs) labels)) in
    let k := IZR (known cs l) in
    let d := (eta / (eta + discount_factor) * (1 - exp (- (eta + discount_factor) * t)) / (1 - exp (- (eta * t))))%R in
    ((k - d * k + S * nth (Z.to_nat l) m 0) / S)%R.
  Fixpoint smoothed_mean (t0 : R) (m : list R) (t : mtree rops) (x : list R) : list R :=
    match t with
    | Leaf i pts =>
        let cs := fun l => count rops l pts in
        let m' := map (mean label_count cs (exp (discount_factor * (time f i - t0))) m) labels in
        let stay := exp (- time f i * outside i x) in
        map (fun l => ((1 - stay) * stray cs (outside i x) (time f i) m l + stay * nth (Z.to_nat l) m' 0)%R) labels
    | Fork i d v a b =>
        let cs := fun l => present rops l (points rops a) + present rops l (points rops b) in
        let m' := map (mean label_count cs (exp (discount_factor * (time f i - t0))) m) labels in
        let below := smoothed_mean (time f i) m' (if Rle_dec (nth (Z.to_nat d) x 0%R) v then a else b) x in
        let stay := exp (- time f i * outside i x) in
        map (fun l => ((1 - stay) * stray cs (outside i x) (time f i) m l + stay * nth (Z.to_nat l) below 0)%R) labels
    end.
End Smoothed.
