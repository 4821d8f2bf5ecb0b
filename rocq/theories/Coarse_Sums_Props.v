(** * Properties of the coarse Mondrian forest: the average point *)
From Coq Require Import ZArith List Bool Lia Reals Lra.
From Flocq Require Import Core BinarySingleNaN.
From Verif Require Import CppBase CppFacts Dbl DblFacts NumOps NumFacts Utils_Model Utils_Proofs MCNN_Num.
From Verif Require Import Mondrian_Model Mondrian_Spec Mondrian_Proofs Mondrian_Num Mondrian_Runs Mondrian_Props Mondrian_Predict Unbound_Train.
From Verif Require Import Coarse_Model Coarse_Spec Coarse_Props Coarse_Trim_Props Coarse_Sums.
Import ListNotations.
Local Open Scope Z_scope.

(** ** Specification *)
(** The [j]-th features of the points of a history, the newest first. *)
Definition feature (j : Z) (h : list (point rops)) : list R := map (fun p => nth (Z.to_nat j) (fst p) 0%R) h.
(** [x0 + f x1 + f^2 x2 + ...], beginning with the power [k]. *)
Fixpoint powers (f : R) (k : nat) (xs : list R) : R := match xs with [] => 0%R | x :: xs => (f ^ k * x + powers f (S k) xs)%R end.

Lemma powers_S : forall f xs k, powers f (S k) xs = (powers f k xs * f)%R.
Proof. intros f. induction xs as [|x xs IH]; intros k; cbn [powers]; [ring|]. rewrite IH. cbn [pow]. ring. Qed.
Lemma powers_bound : forall f a b (h : list (point rops)) (g : point rops -> R) k, (0 <= f)%R -> (forall p, In p h -> (a <= g p <= b)%R) ->
  (a * powers f k (map (fun _ => 1%R) h) <= powers f k (map g h) <= b * powers f k (map (fun _ => 1%R) h))%R.
Proof.
  intros f a b. induction h as [|p h IH]; intros g k Hf Hb; cbn [map powers]; [lra|]. specialize (IH g (S k) Hf (fun q Hq => Hb q (or_intror Hq))). specialize (Hb p (or_introl eq_refl)).
  assert (0 <= f ^ k)%R by (apply pow_le; exact Hf). nra.
Qed.
Lemma powers_ones : forall f (h : list (point rops)) k, (0 <= f)%R -> (0 <= powers f k (map (fun _ => 1%R) h))%R.
Proof. intros f. induction h as [|p h IH]; intros k Hf; cbn [map powers]; [lra|]. specialize (IH (S k) Hf). assert (0 <= f ^ k)%R by (apply pow_le; exact Hf). lra. Qed.
Lemma powers_1 : forall xs k, powers 1 k xs = fold_right Rplus 0%R xs.
Proof. induction xs as [|x xs IH]; intros k; cbn [powers fold_right]; [reflexivity|]. rewrite IH, pow1. ring. Qed.

Lemma sums_at : forall (O : ops) f (a : list (option (num O))) x n ss u, forZ n 0 (fun i '(sums, _) => do a <- rdi a i; do x <- rd x i; Ok (sums ++ [Some (nadd O (nmul O a f) x)], tt)) ([], tt) = Ok (ss, u) ->
  Z.of_nat (length ss) = Z.of_nat n /\ forall j aj xj, 0 <= j < Z.of_nat n -> rdi a j = Ok aj -> rd x j = Ok xj -> rdi ss j = Ok (nadd O (nmul O aj f) xj).
Proof.
  intros O f a x n ss u E.
  refine (forZ_inv_post _ (fun q (r : list (option (num O)) * unit) => Z.of_nat (length (fst r)) = q /\ forall j aj xj, 0 <= j < q -> rdi a j = Ok aj -> rd x j = Ok xj -> rdi (fst r) j = Ok (nadd O (nmul O aj f) xj)) _ n 0 _ (ss, u) _ _ E).
  - split; [reflexivity|lia].
  - intros q [l w] r Hq [L F] X. cbn [fst] in *. inv_bind X. inv_bind X. injection X as <-. cbn [fst]. split; [rewrite app_length; cbn [length]; lia|]. intros j aj xj Hj Ra Rx. unfold rdi. destruct (Z.eq_dec j q) as [->|N].
    + rewrite <- L at 1. rewrite rd_last. cbn [bind]. congruence.
    + rewrite rd_app by lia. apply (F j aj xj); auto; lia.
Qed.

Ltac exact_ring := match goal with |- @eq _ ?a ?b => change (@eq R a b) end; ring.
(** *** C125: in every state the forest holds the faded sum and the faded number of all points trained *)
Theorem coarse_average_exact : forall exp_ log_ rnd (c : config rops) l0 s h, creached rops exp_ log_ rnd c l0 s h ->
  let f := (c_fading rops c : R) in
  (count_points rops s = powers f 0 (map (fun _ => 1%R) h)) /\
  forall j, 0 <= j < c_features rops c -> exists t : R, rdi (sum_features rops s) j = Ok t /\ t = powers f 0 (feature j h) /\
    (* the average is between the points *)
    (forall a b, h <> [] -> (0 <= f)%R -> (forall p, In p h -> (a <= nth (Z.to_nat j) (fst p) 0 <= b)%R) -> (a <= t / count_points rops s <= b)%R) /\
    (* without fading it is the mean of all points *)
    (f = 1%R -> (t / count_points rops s = fold_right Rplus 0 (feature j h) / INR (length h))%R).
Proof.
  intros exp_ log_ rnd c l0 s h Hr f.
  assert (M : (count_points rops s = powers f 0 (map (fun _ => 1%R) h)) /\ forall j, 0 <= j < c_features rops c -> rdi (sum_features rops s) j = Ok (powers f 0 (feature j h) : num rops)).
  { induction Hr as [|s h x label s' b Hr IH Hx Hl H|s h x sc k s' b sc' Hr IH Hx H].
    - split; [reflexivity|]. intros j Hj. unfold rdi, forest_init. cbn [sum_features]. rewrite Mondrian_Proofs.rd_repeat by lia. reflexivity.
    - destruct IH as [I1 I2]. destruct (train_k rops log_ rnd c _ _ _ _ _ H) as [[u E] K]. apply sums_at in E. destruct E as [_ E]. split.
      + rewrite K, I1. cbn [map powers]. rewrite powers_S. cbn [nadd nmul nofZ rops pow]. fold f. exact_ring.
      + intros j Hj. rewrite (E j _ (nth (Z.to_nat j) x 0%R) ltac:(lia) (I2 j Hj) (rd_nthZ _ x j 0%R ltac:(lia))). change (feature j ((x, label) :: h)) with (nth (Z.to_nat j) x 0%R :: feature j h). cbn [powers]. rewrite powers_S. generalize (powers f 0 (feature j h)) as w. intros w. cbn [nadd nmul rops pow]. fold f. f_equal. match goal with |- @eq _ ?a ?b => change (@eq R a b) end. generalize (nth (Z.to_nat j) x 0%R) as z. intros z. change (w * f + z = 1 * z + w * f)%R. ring.
    - apply predict_k in H. unfold sums in H. injection H as -> ->. exact IH. }
  destruct M as [M1 M2]. split; [exact M1|]. intros j Hj. exists (powers f 0 (feature j h)). split; [exact (M2 j Hj)|]. split; [reflexivity|]. rewrite M1. split.
  - intros a b Hn Hf Hb. pose proof (powers_bound f a b h (fun p => nth (Z.to_nat j) (fst p) 0%R) 0 Hf Hb) as [B1 B2]. fold (feature j h) in B1, B2.
    assert (P : (0 < powers f 0 (map (fun _ => 1%R) h))%R) by (destruct h as [|p h]; [congruence|]; cbn [map powers pow]; pose proof (powers_ones f h 1 Hf); lra).
    split; [apply Rmult_le_reg_r with (1 := P)|apply Rmult_le_reg_r with (1 := P)]; unfold Rdiv; rewrite Rmult_assoc, Rinv_l, Rmult_1_r by lra; assumption.
  - intros ->. rewrite !powers_1. f_equal. f_equal. clear. induction h as [|p h IH]; [reflexivity|]. cbn [map fold_right length]. rewrite S_INR, IH. ring.
Qed.
Print Assumptions coarse_average_exact.

(** ** A run: a forest with one tree, three points, fading one half *)
Definition conf_a : config dops :=
  Build_config dops 1 1 2 15 (dofZ 10) dhalf dhalf PHOENIX_MANAGEMENT (-1) FE_DISTRIBUTION_ZERO SPLIT_TRIGGER_NONE dhalf dhalf SPLIT_HELPER_AVG EXTEND_BARYCENTER TRIM_NONE done false.
Definition points_a : list (point dops) := [([dofZ 4], 0); ([dofZ 16], 1); ([dofZ 7], 1)].
Definition summed (s : coarse dops) (t n : dbl) : bool := match sum_features dops s with [Some x] => neq dops x t && neq dops (count_points dops s) n | _ => false end.
Definition check_a (c : config dops) (rnd : nat -> dbl) (ps : list (point dops)) (t n : dbl) : bool :=
  forallb (valid_d (c_features dops c) (c_labels dops c)) ps &&
  match crun c log_c rnd (forest_init dops c true 0) ps with Ok s => summed s t n | _ => false end.
Lemma check_a_ok : forall c rnd ps t n, check_a c rnd ps t n = true -> exists s, creached dops exp_h log_c rnd c 0 s (rev ps) /\ summed s t n = true.
Proof.
  intros c rnd ps t n H. unfold check_a in H. apply andb_true_iff in H. destruct H as [V H]. apply valid_d_ok in V. destruct (crun c log_c rnd _ ps) as [s|u| |] eqn:E; try discriminate.
  assert (X := crun_reached exp_h log_c rnd c 0 _ _ _ _ V (creached_new _ _ _ _ _ _) E). rewrite app_nil_r in X. exists s. auto.
Qed.
(** 7 + 16/2 + 4/4 = 16 and 1 + 1/2 + 1/4 = 7/4: here binary64 does not round. *)
Example coarse_average_example : exists s, creached dops exp_h log_c (cycle draws_b) conf_a 0 s (rev points_a) /\ summed s (dofZ 16) (dlit 7 (-2)) = true.
Proof. apply check_a_ok. vm_compute. reflexivity. Qed.

(** The hypotheses of the theorem hold: one training of a forest of exact numbers (without trees, the sums do not depend on them). *)
Definition conf_r : config rops := Build_config rops 0 1 2 3 10%R (/ 2)%R (/ 2)%R PHOENIX_MANAGEMENT (-1) FE_DISTRIBUTION_ZERO SPLIT_TRIGGER_NONE (/ 2)%R (/ 2)%R SPLIT_HELPER_AVG EXTEND_BARYCENTER TRIM_NONE 1%R false.
Example coarse_average_reached : forall exp_ log_ rnd, exists s, creached rops exp_ log_ rnd conf_r 0 s [([16%R], 1); ([4%R], 0)] /\ rdi (sum_features rops s) 0 = Ok 18%R /\ (count_points rops s = 3 / 2)%R.
Proof.
  intros exp_ log_ rnd. eexists. split; [|split].
  - eapply creached_train with (b := true); [eapply creached_train with (b := true); [constructor|reflexivity|cbn; lia|reflexivity]|reflexivity|cbn; lia|reflexivity].
  - cbn -[Rmult Rplus Rinv IZR]. f_equal. lra.
  - cbn -[Rmult Rplus Rinv IZR Rdiv]. lra.
Qed.
