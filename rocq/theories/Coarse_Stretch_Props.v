(** * Properties of the coarse Mondrian forest: the boxes of the barycenter extension *)
From Coq Require Import ZArith List Bool Lia Reals Lra.
From Flocq Require Import Core BinarySingleNaN.
From Verif Require Import CppBase CppFacts Dbl DblFacts NumOps NumFacts Utils_Model Utils_Proofs MCNN_Num.
From Verif Require Import Mondrian_Model Mondrian_Spec Mondrian_Proofs Mondrian_Num Mondrian_Runs Mondrian_Props.
From Verif Require Import Coarse_Model Coarse_Spec Coarse_Heap Coarse_Forest Coarse_Reach Coarse_Props Coarse_Trim_Props Coarse_Center Coarse_Center_Props Coarse_Boxes Coarse_Boxes_Props.
Import ListNotations.
Local Open Scope Z_scope.

Lemma stretch_at : forall (O : ops) (c : config O) n x n', stretch_box O c n x = Ok n' -> forall j lo hi xj, 0 <= j < c_features O c ->
  rdi (bound_lower O n) j = Ok lo -> rdi (bound_upper O n) j = Ok hi -> rd x j = Ok xj ->
  rdi (bound_lower O n') j = Ok (if nlt O xj lo then nsub O lo (nmul O (nsub O lo xj) (c_fe_param O c)) else lo) /\
  rdi (bound_upper O n') j = Ok (if nlt O hi xj then nadd O hi (nmul O (nsub O xj hi) (c_fe_param O c)) else hi).
Proof.
  intros O c n x n' H j lo hi xj Hj Rl Ru Rx. unfold stretch_box in H. inv_bind H. destruct v as [l u]. injection H as <-. cbn [bound_lower bound_upper set_box].
  assert (P : if j <? 0 + Z.of_nat (Z.to_nat (c_features O c)) then rdi (fst (l, u)) j = Ok (if nlt O xj lo then nsub O lo (nmul O (nsub O lo xj) (c_fe_param O c)) else lo) /\ rdi (snd (l, u)) j = Ok (if nlt O hi xj then nadd O hi (nmul O (nsub O xj hi) (c_fe_param O c)) else hi)
    else rdi (fst (l, u)) j = Ok lo /\ rdi (snd (l, u)) j = Ok hi).
  { refine (forZ_inv_post _ (fun q (r : list (option (num O)) * list (option (num O))) => if j <? q then rdi (fst r) j = Ok (if nlt O xj lo then nsub O lo (nmul O (nsub O lo xj) (c_fe_param O c)) else lo) /\ rdi (snd r) j = Ok (if nlt O hi xj then nadd O hi (nmul O (nsub O xj hi) (c_fe_param O c)) else hi)
      else rdi (fst r) j = Ok lo /\ rdi (snd r) j = Ok hi) _ _ 0 _ _ _ _ E).
    - rewrite (proj2 (Z.ltb_ge j 0)) by lia. auto.
    - intros q [a b] r Hq F X. cbn [fst snd] in *. inv_bind X. inv_bind X. inv_bind X. inv_bind X. inv_bind X. injection X as <-. cbn [fst snd].
      rewrite (rdi_wr _ _ _ _ _ j E2), (rdi_wr _ _ _ _ _ j E4) by lia. destruct (Z.eqb_spec j q) as [->|N].
      + rewrite (proj2 (Z.ltb_ge q q)) in F by lia. rewrite (proj2 (Z.ltb_lt q (q + 1))) by lia. destruct F as [F1 F2]. assert (v = xj) by congruence. assert (v0 = lo) by congruence. assert (v2 = hi) by congruence. subst. auto.
      + destruct (Z.ltb_spec j q), (Z.ltb_spec j (q + 1)); try lia; exact F. }
  rewrite (proj2 (Z.ltb_lt j _)) in P by lia. exact P.
Qed.
(** *** C124: a point that does not split a node moves every bound by the share [fe_parameter] of its distance *)
Theorem coarse_stretch_exact : forall (c : config rops) n x n', (0 <= c_fe_param rops c <= 1)%R -> stretch_box rops c n x = Ok n' ->
  forall j (lo hi xj : R), 0 <= j < c_features rops c -> rdi (bound_lower rops n) j = Ok lo -> rdi (bound_upper rops n) j = Ok hi -> rd x j = Ok xj -> (lo <= hi)%R ->
  exists lo' hi' : R, rdi (bound_lower rops n') j = Ok lo' /\ rdi (bound_upper rops n') j = Ok hi' /\
    (* the box grows, at most to the point *)
    (Rmin lo xj <= lo' <= lo)%R /\ (hi <= hi' <= Rmax hi xj)%R /\
    (* the rest of the distance stays *)
    (Rmax 0 (Rmax (lo' - xj) (xj - hi')) = (1 - c_fe_param rops c) * Rmax 0 (Rmax (lo - xj) (xj - hi)))%R.
Proof.
  intros c n x n' Hp H j lo hi xj Hj Rl Ru Rx Le. destruct (stretch_at rops c n x n' H j lo hi xj Hj Rl Ru Rx) as [A B]. cbn [nlt nsub nmul nadd rops] in A, B.
  eexists. eexists. split; [exact A|]. split; [exact B|]. clear A B. change (num rops) with R in *. set (p := (c_fe_param rops c : R)) in *. clearbody p.
  destruct (Rlt_bool_spec xj lo) as [G|G], (Rlt_bool_spec hi xj) as [G'|G']; try lra.
  - rewrite (Rmin_right lo), (Rmax_left hi) by lra. assert (0 <= p * (lo - xj) <= lo - xj)%R by nra. split; [lra|]. split; [lra|].
    rewrite (Rmax_left (lo - xj)), (Rmax_right 0 (lo - xj)) by lra. rewrite (Rmax_left (_ - xj)) by lra. rewrite Rmax_right by lra. ring.
  - rewrite (Rmin_left lo), (Rmax_right hi) by lra. assert (0 <= p * (xj - hi) <= xj - hi)%R by nra. split; [lra|]. split; [lra|].
    rewrite (Rmax_right (lo - xj) (xj - hi)), (Rmax_right 0 (xj - hi)) by lra. rewrite (Rmax_right (lo - xj)) by lra. rewrite Rmax_right by lra. ring.
  - rewrite (Rmin_left lo), (Rmax_left hi) by lra. split; [lra|]. split; [lra|]. rewrite (Rmax_left 0) by (apply Rmax_lub; lra). ring.
Qed.
Print Assumptions coarse_stretch_exact.
(** The box from 0 to 4, with the share one half: the point 12 moves the upper bound to 8. *)
Definition conf_s : config rops := Build_config rops 1 1 2 3 10%R (/ 2)%R (/ 2)%R PHOENIX_MANAGEMENT (-1) FE_DISTRIBUTION_ZERO SPLIT_TRIGGER_NONE (/ 2)%R (/ 2)%R SPLIT_HELPER_AVG EXTEND_BARYCENTER TRIM_COUNT 1%R false.
Definition leaf_s (hi : R) : node rops := mkNode rops (-1) (Some 0%R) [Some 0%R] [Some hi] (-1) (-1) (-1) 10%R [2; 3].
Example coarse_stretch_example : (0 <= c_fe_param rops conf_s <= 1)%R /\ stretch_box rops conf_s (leaf_s 4) [12%R] = Ok (leaf_s 8).
Proof.
  split; [cbn; lra|]. unfold stretch_box. change (Z.to_nat (c_features rops conf_s)) with 1%nat. cbn [forZ]. unfold rd at 1. cbn [nth_error Z.to_nat Z.ltb Z.compare bind].
  unfold rdi, rd, wr. cbn -[Rlt_bool Rminus Rplus Rmult Rinv IZR]. rewrite Rlt_bool_false, Rlt_bool_true by lra. cbn -[Rminus Rplus Rmult Rinv IZR]. unfold leaf_s, set_box. cbn -[Rminus Rplus Rmult Rinv IZR]. repeat f_equal. lra.
Qed.

(** ** A forest of one node *)
Definition conf_1 (p : dbl) : config dops :=
  Build_config dops 1 1 2 1 (dofZ 10) dhalf dhalf PHOENIX_MANAGEMENT (-1) FE_DISTRIBUTION_ZERO SPLIT_TRIGGER_NONE p dhalf SPLIT_HELPER_NONE EXTEND_BARYCENTER TRIM_NONE done false.
Lemma csizes_1 : forall p, csizes dops (conf_1 p) 0.
Proof. intros p. unfold csizes, conf_1. cbn [c_trees c_features c_labels c_nodes c_life]. repeat split; try lia. Qed.
(** Node 0 counts [cs] and [y] is outside its box. *)
Definition missed (s : coarse dops) (cs : list Z) (y : dbl) : bool :=
  match get dops s 0 with
  | Ok n => match bound_lower dops n, bound_upper dops n with
            | [Some lo], [Some hi] => (dlt y lo || dlt hi y) && if list_eq_dec Z.eq_dec (counters dops n) cs then true else false
            | _, _ => false end
  | _ => false
  end.
Lemma missed_ok : forall s cs y, missed s cs y = true -> exists n lo hi, get dops s 0 = Ok n /\ bound_lower dops n = [Some lo] /\ bound_upper dops n = [Some hi] /\ counters dops n = cs /\ (dlt y lo = true \/ dlt hi y = true).
Proof.
  intros s cs y H. unfold missed in H. destruct (get dops s 0) as [n|u| |]; try discriminate. destruct (bound_lower dops n) as [|[lo|] [|]] eqn:A; try discriminate. destruct (bound_upper dops n) as [|[hi|] [|]] eqn:B; try discriminate.
  apply andb_true_iff in H. destruct H as [H C]. apply orb_true_iff in H. destruct (list_eq_dec Z.eq_dec (counters dops n) cs) as [D|]; try discriminate. exists n, lo, hi. auto.
Qed.
Definition check_1 (c : config dops) (x y : dbl) : bool :=
  forallb (valid_d (c_features dops c) (c_labels dops c)) [([x], 0); ([y], 1)] &&
  match crun c log_c (cycle draws_b) (forest_init dops c true 0) [([x], 0); ([y], 1)] with Ok s => missed s [1; 1] y | _ => false end.
Lemma check_1_ok : forall c x y, check_1 c x y = true -> exists s n lo hi, creached dops exp_h log_c (cycle draws_b) c 0 s [([y], 1); ([x], 0)] /\
  get dops s 0 = Ok n /\ bound_lower dops n = [Some lo] /\ bound_upper dops n = [Some hi] /\ counters dops n = [1; 1] /\ (dlt y lo = true \/ dlt hi y = true).
Proof.
  intros c x y H. unfold check_1 in H. apply andb_true_iff in H. destruct H as [V H]. apply valid_d_ok in V. destruct (crun c log_c _ _ _) as [s|u| |] eqn:E; try discriminate.
  destruct (missed_ok _ _ _ H) as [n [lo [hi X]]]. exists s, n, lo, hi. split; [|exact X]. exact (crun_reached exp_h log_c (cycle draws_b) c 0 _ _ _ _ V (creached_new _ _ _ _ _ _) E).
Qed.
Lemma run_half : check_1 (conf_1 dhalf) (dofZ 0) (dofZ 16) = true.
Proof. vm_compute. reflexivity. Qed.
Lemma run_one : check_1 (conf_1 done) (dlit 1 60) (dofZ (-1)) = true.
Proof. vm_compute. reflexivity. Qed.
(** *** C124: the box of a leaf need not hold the points it counts: not with the share one half, and in binary64 not even with the share one, where the rounded lower bound stays above the point *)
Theorem coarse_stretch_refuted : forall p, p = dhalf \/ p = done -> exists (c : config dops) s x y n lo hi,
  csizes dops c 0 /\ c_extend dops c = EXTEND_BARYCENTER /\ c_fe_param dops c = p /\ is_finite x = true /\ is_finite y = true /\
  creached dops exp_h log_c (cycle draws_b) c 0 s [([y], 1); ([x], 0)] /\
  get dops s 0 = Ok n /\ bound_lower dops n = [Some lo] /\ bound_upper dops n = [Some hi] /\ counters dops n = [1; 1] /\ (dlt y lo = true \/ dlt hi y = true).
Proof.
  intros p [->| ->].
  - destruct (check_1_ok _ _ _ run_half) as [s [n [lo [hi X]]]]. exists (conf_1 dhalf), s, (dofZ 0), (dofZ 16), n, lo, hi. split; [apply csizes_1|]. do 2 (split; [reflexivity|]). do 2 (split; [vm_compute; reflexivity|]). exact X.
  - destruct (check_1_ok _ _ _ run_one) as [s [n [lo [hi X]]]]. exists (conf_1 done), s, (dlit 1 60), (dofZ (-1)), n, lo, hi. split; [apply csizes_1|]. do 2 (split; [reflexivity|]). do 2 (split; [vm_compute; reflexivity|]). exact X.
Qed.
Print Assumptions coarse_stretch_refuted.
