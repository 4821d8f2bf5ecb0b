(** * Properties of naive Bayes (C40-C42, C65, C66) *)
From Coq Require Import ZArith List Bool Lia Reals Lra Permutation.
From Flocq Require Import Core BinarySingleNaN.
From Verif Require Import CppBase CppFacts Dbl DblFacts NumOps NumFacts Utils_Model Utils_Spec Utils_Proofs
  Bayes_Model Bayes_Spec Bayes_Proofs.
Import ListNotations.
Local Open Scope Z_scope.

(** Training points with [fc] features and a label below [lc]. *)
Definition valid {A} (lc fc : Z) (h : list (point A)) : Prop :=
  Forall (fun p => Z.of_nat (length (pf p)) = fc /\ 0 <= pl p < lc) h.

Definition calls {O : ops} (h : list (point (num O))) : list (bcall O) :=
  map (fun p => BTrain O (pf p) (pl p) (pw p)) h.

Lemma points_calls : forall O (h : list (point (num O))), points O (calls h) = h.
Proof. induction h as [|[f l w] h IH]; cbn [calls map points pf pl pw]; [reflexivity|]. f_equal. exact IH. Qed.

(** C40. In exact arithmetic, after any valid training with weights that are not negative,
    the estimator of feature [f] and label [l] holds the weight, weighted mean and sum of
    squared deviations of the values trained for that label. *)
Theorem bayes_statistics_exact :
  forall lc fc (s : R) (h : list (point R)), 0 <= lc -> 0 <= fc -> valid lc fc h ->
  Forall (fun p => 0 <= pw p)%R h ->
  exists m, brun rops fc (bayes_init rops lc fc s) (calls (O := rops) h) = Ok m /\
    forall l f, 0 <= l < lc -> 0 <= f < fc ->
    exists g, rd (counters rops m) (l * fc + f) = Ok g /\
      let c := column 0%R l (Z.to_nat f) h in
      @eq R (weight_sum rops g) (weight_of c) /\
      ((0 < weight_of c)%R -> @eq R (mean rops g) (mean_of c) /\ @eq R (variance_sum rops g) (squares_of c)).
Proof.
  intros lc fc s h Hl Hf V N.
  destruct (run_ok rops lc fc Hl Hf (calls (O := rops) h) [] _ (init_trained rops lc fc Hl Hf s)) as [m [E T]].
  { rewrite points_calls. exact V. }
  exists m. split; [exact E|]. intros l f Hl' Hf'. destruct T as [_ [T _]]. rewrite points_calls in T.
  eexists. split; [apply T; auto|]. cbn zeta. apply gfold_real.
  unfold nonneg, column. rewrite Forall_forall in *. intros y Hy. apply in_map_iff in Hy.
  destruct Hy as [p [<- Hp]]. apply filter_In in Hp. cbn [snd]. apply N. tauto.
Qed.
Print Assumptions bayes_statistics_exact.

(** C40. The order of the training points does not matter for [predict], in exact arithmetic. *)
Theorem bayes_order_irrelevant :
  forall lc fc (s : R) (h h' : list (point R)) (sq lg ex : R -> R) (x : list R),
  0 <= lc -> 0 <= fc -> valid lc fc h -> Forall (fun p => 0 <= pw p)%R h ->
  Permutation h h' -> Z.of_nat (length x) = fc ->
  exists r, (do m <- brun rops fc (bayes_init rops lc fc s) (calls (O := rops) h); predict rops lc fc sq lg ex m x) = Ok r /\
            (do m <- brun rops fc (bayes_init rops lc fc s) (calls (O := rops) h'); predict rops lc fc sq lg ex m x) = Ok r.
Proof.
  intros lc fc s h h' sq lg ex x Hl Hf V N P Hx.
  assert (V' : valid lc fc h').
  { unfold valid in *. rewrite Forall_forall in *. intros p Hp. apply V. eapply Permutation_in; [symmetry; exact P|exact Hp]. }
  destruct (run_ok rops lc fc Hl Hf (calls (O := rops) h) [] _ (init_trained rops lc fc Hl Hf s)) as [m [E T]];
    [rewrite points_calls; exact V|].
  destruct (run_ok rops lc fc Hl Hf (calls (O := rops) h') [] _ (init_trained rops lc fc Hl Hf s)) as [m' [E' T']];
    [rewrite points_calls; exact V'|].
  rewrite points_calls in T, T'. cbn [app] in T, T'.
  destruct (scores_ok rops lc fc sq lg ex h m x T Hx) as [sc [S1 [S2 S3]]].
  destruct (scores_ok rops lc fc sq lg ex h' m' x T' Hx) as [sc' [S1' [S2' S3']]].
  assert (sc = sc').
  { apply nth_error_ext. intros n. destruct (Nat.lt_ge_cases n (length sc)) as [Ln|Ln].
    - assert (A := S3 (Z.of_nat n) ltac:(lia)). assert (B := S3' (Z.of_nat n) ltac:(lia)).
      rewrite (score_perm fc sq lg ex h h' x _ P N) in A. apply rd_ok_iff in A, B.
      rewrite Nat2Z.id in A, B. destruct A as [_ A], B as [_ B]. congruence.
    - rewrite (proj2 (nth_error_None sc n)) by lia. symmetry. apply nth_error_None. lia. }
  subst sc'. rewrite E, E'. cbn [bind]. unfold predict. rewrite S1, S1'. cbn [bind].
  rewrite predict_scan by lia. destruct (Z.eq_dec lc 0) as [->|Nz].
  - destruct sc; [|cbn in S2; lia]. cbn. eexists. split; reflexivity.
  - change (num rops) with R in *. assert (sc <> []) by (intros ->; cbn in S2; lia).
    destruct (index_max_ok _ (fun a b : R => Rlt_bool b a) (fun r => r) sc) as [b [v [I _]]]; auto.
    { intros a b _ _. destruct (Rlt_bool_spec b a); split; intros; try lra; discriminate. }
    rewrite S2 in I. change (nlt rops) with Rlt_bool. rewrite I. cbn [bind]. eexists. split; reflexivity.
Qed.
Print Assumptions bayes_order_irrelevant.

(** C41. For any arithmetic and library functions: training and predicting on valid data
    never fails, and the score of each label is the logarithm of its share of the weight
    plus the logarithms of the densities, where the estimators of a label have seen only
    the points of that label. *)
Theorem bayes_scores :
  forall (O : ops) lc fc (s : num O) (h : list (point (num O))) (sq lg ex : num O -> num O) (x : list (num O)),
  1 <= lc -> 0 <= fc -> valid lc fc h -> Z.of_nat (length x) = fc ->
  exists r sc, (do m <- brun O fc (bayes_init O lc fc s) (calls h); predict O lc fc sq lg ex m x) = Ok (r, sc) /\
    0 <= r < lc /\ Z.of_nat (length sc) = lc /\
    forall l, 0 <= l < lc ->
      rd sc l = Ok (fold_left (nadd O)
        (map (fun f => lg (probability_density O sq ex
            (fold_left (fun g p => gauss_train O g (nth f (pf p) (nofZ O 0)) (pw p))
                       (filter (fun p => pl p =? l) h) (gauss_init O))
            (nth f x (nofZ O 0)))) (seq 0 (Z.to_nat fc)))
        (lg (ndiv O (fold_left (nadd O) (labelled l h) (nofZ O 0)) (fold_left (nadd O) (map pw h) (nofZ O 0))))).
Proof.
  intros O lc fc s h sq lg ex x Hl Hf V Hx.
  destruct (run_ok O lc fc ltac:(lia) Hf (calls h) [] _ (init_trained O lc fc ltac:(lia) Hf s)) as [m [E T]];
    [rewrite points_calls; exact V|].
  rewrite points_calls in T. cbn [app] in T.
  destruct (scores_ok O lc fc sq lg ex h m x T Hx) as [sc [S1 [S2 S3]]].
  rewrite E. cbn [bind]. unfold predict. rewrite S1. cbn [bind].
  destruct (forZ_inv _ (fun i b => 0 <= b < lc)
    (fun l max_l => do a <- rd sc max_l; do b <- rd sc l; Ok (if nlt O a b then l else max_l))
    (Z.to_nat lc - 1) 1 0) as [b [I1 I2]].
  - lia.
  - intros j b Hj Hb. destruct (rd_in_bounds _ sc b) as [u Hu]; [lia|]. destruct (rd_in_bounds _ sc j) as [w Hw]; [lia|].
    rewrite Hu, Hw. cbn [bind]. eexists. split; [reflexivity|]. destruct (nlt O u w); lia.
  - rewrite I1. cbn [bind]. exists b, sc. split; [reflexivity|]. split; [exact I2|]. split; [exact S2|].
    intros l Hl'. rewrite (S3 l Hl'). f_equal. unfold score_of, nsum, gfold.
    generalize (lg (ndiv O (fold_left (nadd O) (labelled l h) (nofZ O 0)) (fold_left (nadd O) (map pw h) (nofZ O 0)))) as v0.
    induction (seq 0 (Z.to_nat fc)) as [|f fs IH]; intros v0; cbn [fold_left map]; [reflexivity|].
    rewrite IH. f_equal. f_equal. f_equal. f_equal. unfold column. clear.
    generalize (gauss_init O) as g. induction (filter (fun p => pl p =? l) h) as [|p t IH]; intros g; [reflexivity|].
    cbn [map fold_left fst snd]. apply IH.
Qed.
Print Assumptions bayes_scores.

(** C41. In binary64, when no score is NaN, the answer is the first label with the best score. *)
Theorem bayes_predict_first_best :
  forall lc fc (s : dbl) (h : list (point dbl)) (sq lg ex : dbl -> dbl) (x : list dbl) r sc,
  1 <= lc -> 0 <= fc -> valid lc fc h -> Z.of_nat (length x) = fc ->
  (do m <- brun dops fc (bayes_init dops lc fc s) (calls (O := dops) h); predict dops lc fc sq lg ex m x) = Ok (r, sc) ->
  Forall not_nan sc ->
  first_best (fun l => dkey (nth (Z.to_nat l) sc dnan)) lc r.
Proof.
  intros lc fc s h sq lg ex x r sc Hl Hf V Hx E Hn.
  destruct (bayes_scores dops lc fc s h sq lg ex x Hl Hf V Hx) as [r' [sc' [E' [R1 [R2 _]]]]].
  rewrite E in E'. injection E' as <- <-.
  destruct (run_ok dops lc fc ltac:(lia) Hf (calls (O := dops) h) [] _ (init_trained dops lc fc ltac:(lia) Hf s)) as [m [Em _]];
    [rewrite points_calls; exact V|].
  rewrite Em in E. cbn [bind] in E. unfold predict in E.
  destruct (local_scores dops lc fc sq lg ex m x) as [sc0| | |]; try discriminate. cbn [bind] in E.
  destruct (forZ _ _ _ _) as [b| | |] eqn:Eb in E; try discriminate. cbn [bind] in E. injection E as -> ->.
  rewrite predict_scan in Eb by lia.
  change (num dops) with dbl in *. rewrite Forall_forall in Hn.
  destruct (index_max_ok _ (fun a b : dbl => dlt b a) dkey sc) as [b [v [I1 [I2 [I3 I4]]]]].
  { intros a b Ha Hb. apply dlt_key; auto. }
  { intros ->. cbn in R2. lia. }
  rewrite R2 in I1. change (nlt dops) with dlt in Eb. rewrite I1 in Eb. injection Eb as <-.
  split; [exact R1|]. rewrite Nat2Z.id. rewrite (nth_error_nth _ _ dnan I2).
  split; intros j Hj.
  - destruct (nth_error sc (Z.to_nat j)) as [y|] eqn:Y; [|apply nth_error_None in Y; lia].
    rewrite (nth_error_nth _ _ dnan Y). eauto.
  - destruct (nth_error sc (Z.to_nat j)) as [y|] eqn:Y; [|apply nth_error_None in Y; lia].
    rewrite (nth_error_nth _ _ dnan Y). apply (I4 (Z.to_nat j)); auto. lia.
Qed.
Print Assumptions bayes_predict_first_best.

(** C41. In exact arithmetic, [predict] is the Gaussian naive Bayes rule: the first label
    with the largest posterior, whenever every label and feature has a positive variance.
    The rounded constant 2.50663 has no influence. *)
Theorem bayes_rule_exact :
  forall lc fc (s : R) (h : list (point R)) (x : list R),
  1 <= lc -> 0 <= fc -> valid lc fc h -> Forall (fun p => 0 <= pw p)%R h -> Z.of_nat (length x) = fc ->
  (forall l, 0 <= l < lc -> (0 < rsum (fun w => w) (labelled l h))%R) ->
  (forall l f, 0 <= l < lc -> 0 <= f < fc ->
     (1 < weight_of (column 0 l (Z.to_nat f) h) /\ 0 < variance_of (column 0 l (Z.to_nat f) h))%R) ->
  exists r sc,
    (do m <- brun rops fc (bayes_init rops lc fc s) (calls (O := rops) h);
     predict rops lc fc R_sqrt.sqrt ln Rtrigo_def.exp m x) = Ok (r, sc) /\
    first_best (posterior (Z.to_nat fc) h x) lc r.
Proof.
  intros lc fc s h x Hl Hf V N Hx W Va.
  destruct (run_ok rops lc fc ltac:(lia) Hf (calls (O := rops) h) [] _ (init_trained rops lc fc ltac:(lia) Hf s)) as [m [E T]];
    [rewrite points_calls; exact V|].
  rewrite points_calls in T. cbn [app] in T.
  destruct (scores_ok rops lc fc R_sqrt.sqrt ln Rtrigo_def.exp h m x T Hx) as [sc [S1 [S2 S3]]].
  rewrite E. cbn [bind]. unfold predict. rewrite S1. cbn [bind]. rewrite predict_scan by lia.
  change (num rops) with R in *.
  destruct (index_max_ok _ (fun a b : R => Rlt_bool b a) (fun r => r) sc) as [b [v [I1 [I2 [I3 I4]]]]].
  { intros a b _ _. destruct (Rlt_bool_spec b a); split; intros; try lra; discriminate. }
  { intros ->. cbn in S2. lia. }
  rewrite S2 in I1. change (nlt rops) with Rlt_bool. rewrite I1. cbn [bind].
  exists (Z.of_nat b), sc. split; [reflexivity|].
  assert (Lb : (b < length sc)%nat) by (apply nth_error_Some; congruence).
  assert (K : forall l, 0 <= l < lc -> exists y, nth_error sc (Z.to_nat l) = Some y /\
     y = (ln (posterior (Z.to_nat fc) h x l) + INR (Z.to_nat fc) * ln cst)%R /\ (0 < posterior (Z.to_nat fc) h x l)%R).
  { intros l Hl'. specialize (S3 l Hl'). apply rd_ok_iff in S3. destruct S3 as [_ S3].
    destruct (score_posterior fc h x l N (W l Hl')) as [A B].
    { intros f Hf'. specialize (Va l (Z.of_nat f) Hl' ltac:(lia)). now rewrite Nat2Z.id in Va. }
    eexists. split; [exact S3|]. split; [exact A|exact B]. }
  destruct (K (Z.of_nat b) ltac:(lia)) as [yb [B1 [B2 B3]]]. rewrite Nat2Z.id in B1.
  assert (v = yb) by congruence. subst v.
  assert (Mono : forall p q, (0 < p -> 0 < q -> ln p <= ln q -> p <= q)%R).
  { intros p q Hp Hq L. destruct (Rle_or_lt p q) as [|G]; auto. apply ln_increasing in G; lra. }
  split; [lia|]. split; intros j Hj; destruct (K j ltac:(lia)) as [y [Y1 [Y2 Y3]]].
  - specialize (I3 _ _ Y1). cbn beta in I3. rewrite B2, Y2 in I3. apply Mono; auto. lra.
  - assert (Hjb : (Z.to_nat j < b)%nat) by lia. specialize (I4 _ _ Hjb Y1). cbn beta in I4. rewrite B2, Y2 in I4. apply ln_lt_inv; auto. lra.
Qed.
Print Assumptions bayes_rule_exact.

(** C41. Training a label leaves what is known of the other labels unchanged. *)
Theorem bayes_training_local :
  forall (O : ops) lc fc (s : num O) (h : list (point (num O))) (p : point (num O)),
  0 <= lc -> 0 <= fc -> valid lc fc (h ++ [p]) ->
  exists m m', brun O fc (bayes_init O lc fc s) (calls h) = Ok m /\
    train O fc m (pf p) (pl p) (pw p) = Ok m' /\
    forall l, 0 <= l < lc -> l <> pl p ->
      rd (label_weights O m') l = rd (label_weights O m) l /\
      forall f, 0 <= f < fc -> rd (counters O m') (l * fc + f) = rd (counters O m) (l * fc + f).
Proof.
  intros O lc fc s h p Hl Hf V. apply Forall_app in V. destruct V as [V Vp]. inversion Vp as [|? ? Gp _]; subst.
  destruct (run_ok O lc fc Hl Hf (calls h) [] _ (init_trained O lc fc Hl Hf s)) as [m [E T]];
    [rewrite points_calls; exact V|].
  rewrite points_calls in T. cbn [app] in T.
  destruct (train_ok O lc fc Hl Hf h m p T Gp) as [m' [E' [T' _]]].
  exists m, m'. split; [exact E|]. split; [exact E'|].
  destruct T as [_ [C [_ [W _]]]], T' as [_ [C' [_ [W' _]]]]. intros l Hl' Nl. split.
  - rewrite W, W' by auto. rewrite labelled_snoc. destruct (Z.eqb_spec (pl p) l); [congruence|]. now rewrite app_nil_r.
  - intros f Hf'. rewrite C, C' by auto. rewrite column_snoc. destruct (Z.eqb_spec (pl p) l); [congruence|]. now rewrite app_nil_r.
Qed.
Print Assumptions bayes_training_local.

(** C42. The smoothing value, given to the constructor or set at any time, has no effect:
    two histories with the same training calls predict the same, whatever the smoothing
    values. (Also when they fail.) *)
Theorem bayes_smoothing_ignored :
  forall (O : ops) lc fc (s s' : num O) (h h' : list (bcall O)) (sq lg ex : num O -> num O) (x : list (num O)),
  filter (fun c => match c with BTrain _ _ _ _ => true | _ => false end) h =
  filter (fun c => match c with BTrain _ _ _ _ => true | _ => false end) h' ->
  (do m <- brun O fc (bayes_init O lc fc s) h; predict O lc fc sq lg ex m x) =
  (do m <- brun O fc (bayes_init O lc fc s') h'; predict O lc fc sq lg ex m x).
Proof.
  intros O lc fc s s' h h' sq lg ex x E.
  pose (er := fun m : bayes O => set_smoothing O m (nofZ O 0)).
  assert (Pe : forall m, predict O lc fc sq lg ex m x = predict O lc fc sq lg ex (er m) x) by (intros []; reflexivity).
  assert (Te : forall m f l w, (do r <- train O fc m f l w; Ok (er r)) = train O fc (er m) f l w).
  { intros m f l w. unfold train. cbn [er set_smoothing counters label_weights total_weights smoothing].
    destruct (forZ _ _ _ _); cbn [bind]; auto. destruct (rd _ _); cbn [bind]; auto. destruct (wr _ _ _); cbn [bind]; auto. }
  assert (Re : forall h m, (do r <- brun O fc m h; Ok (er r)) =
    brun O fc (er m) (filter (fun c => match c with BTrain _ _ _ _ => true | _ => false end) h)).
  { clear - Te. induction h as [|[f l w|v] h IH]; intros m; cbn [brun filter bstep]; [reflexivity| |].
    - rewrite <- Te. rewrite !bind_assoc. destruct (train O fc m f l w); cbn [bind]; auto.
    - cbn [bind]. rewrite IH. reflexivity. }
  assert (Q : forall s h, (do m <- brun O fc (bayes_init O lc fc s) h; predict O lc fc sq lg ex m x) =
    (do m <- brun O fc (er (bayes_init O lc fc s)) (filter (fun c => match c with BTrain _ _ _ _ => true | _ => false end) h);
     predict O lc fc sq lg ex m x)).
  { intros s0 h0. rewrite <- Re. rewrite bind_assoc. destruct (brun O fc (bayes_init O lc fc s0) h0); cbn [bind]; auto. }
  rewrite (Q s h), (Q s' h'), E. reflexivity.
Qed.
Print Assumptions bayes_smoothing_ignored.

(** C65. The predicted label need not have been trained at all: after one point of
    label 1, any other value is predicted to be label 0 (binary64, for every
    logarithm with log 0 = -inf and log 1 = 0 and square root with sqrt 0 = 0). *)
Theorem bayes_untrained_label_refuted :
  exists (h : list (point dbl)) (x : list dbl), valid 2 1 h /\ Forall (fun p => pl p = 1) h /\
  forall (s : dbl) (sq lg ex : dbl -> dbl), lg (dofZ 0) = dninf -> lg (dofZ 1) = dofZ 0 -> sq (dofZ 0) = dofZ 0 ->
  (do m <- brun dops 1 (bayes_init dops 2 1 s) (calls (O := dops) h); predict dops 2 1 sq lg ex m x) =
    Ok (0, [dninf; dninf]).
Proof.
  exists [mkPoint [dofZ 5] 1 (dofZ 1)], [dofZ 6]. split; [repeat constructor; cbn; lia|].
  split; [repeat constructor|]. intros s sq lg ex L0 L1 S0.
  assert (A0 : dadd (dofZ 0) (dofZ 1) = dofZ 1) by (destruct dops_exact as [A _]; apply (A 0 1); lia).
  assert (Dn : forall n, n = 0 \/ n = 1 -> ddiv (dofZ n) (dofZ 1) = dofZ n).
  { intros n Hn. destruct (ddivZ n 1) as [Q1 Q2]; try lia. apply dofZ_unique; [lia|exact Q2| |].
    - rewrite Q1. unfold Rdiv. rewrite Rinv_1, Rmult_1_r. apply rnd_Z. lia.
    - destruct Hn as [->| ->]; vm_compute; reflexivity. }
  assert (D0 := Dn 0 ltac:(lia)). assert (D1 := Dn 1 ltac:(lia)).
  assert (P0 : probability_density dops sq ex (gauss_init dops) (dofZ 6) = dofZ 0).
  { unfold probability_density. change (nle dops (weight_sum dops (gauss_init dops)) (nofZ dops 0)) with (dle (dofZ 0) (dofZ 0)).
    now replace (dle (dofZ 0) (dofZ 0)) with true by (vm_compute; reflexivity). }
  assert (P1 : probability_density dops sq ex (mkGauss dops (dofZ 1) (dofZ 0) (dofZ 5)) (dofZ 6) = dofZ 0).
  { unfold probability_density. cbn [nle nlt neq nofZ dops weight_sum variance_sum mean].
    replace (dle (dofZ 1) (dofZ 0)) with false by (vm_compute; reflexivity).
    replace (dlt (dofZ 1) (dofZ 1)) with false by (vm_compute; reflexivity). rewrite S0.
    replace (dlt (dofZ 0) (dofZ 0)) with false by (vm_compute; reflexivity).
    now replace (deq (dofZ 6) (dofZ 5)) with false by (vm_compute; reflexivity). }
  destruct (bayes_scores dops 2 1 s [mkPoint [dofZ 5] 1 (dofZ 1)] sq lg ex [dofZ 6]) as [r [sc [E [R [L C]]]]];
    try lia; [repeat constructor; cbn; lia|reflexivity|].
  assert (C0 := C 0 ltac:(lia)). assert (C1 := C 1 ltac:(lia)).
  unfold labelled in C0, C1. cbn [filter map fold_left seq Z.to_nat Pos.to_nat Pos.iter_op nth pf pl pw Z.eqb Pos.eqb nadd ndiv nofZ dops] in C0, C1.
  change (Pos.to_nat 1) with 1%nat in C0, C1. cbn [seq map fold_left nth] in C0, C1.
  rewrite first_train, A0, D1, P1, L0, L1 in C1. change (nofZ dops 0) with (dofZ 0) in *.
  rewrite A0, D0, P0, L0 in C0.
  replace (dadd dninf dninf) with dninf in C0 by reflexivity.
  replace (dadd (dofZ 0) dninf) with dninf in C1 by reflexivity.
  destruct sc as [|a [|b [|c sc]]]; cbn [length] in L; try lia.
  cbn in C0, C1. change (Pos.to_nat 1) with 1%nat in C1. cbn in C1. injection C0 as ->. injection C1 as ->.
  assert (F := bayes_predict_first_best 2 1 s [mkPoint [dofZ 5] 1 (dofZ 1)] sq lg ex [dofZ 6] r [dninf; dninf]).
  destruct F as [_ [_ F]]; try lia; auto; [repeat constructor; cbn; lia|repeat constructor; discriminate|].
  rewrite E. f_equal. f_equal. assert (r = 0 \/ r = 1) as [->| ->] by lia; [reflexivity|].
  specialize (F 0 ltac:(lia)). cbn in F. change (Pos.to_nat 1) with 1%nat in F. cbn in F. lra.
Qed.
Print Assumptions bayes_untrained_label_refuted.

(** C66. In binary64 with the default weight, for values within [lo, hi] (of size at most
    2^400) and up to 2^53 points, the weight is the exact count, the mean stays within
    [lo, hi] and the variance sum is never negative. *)
Theorem bayes_ieee_bounds :
  forall lc fc (s : dbl) (h : list (point dbl)) (lo hi : R) l f,
  0 <= lc -> 0 <= fc -> valid lc fc h -> 0 <= l < lc -> 0 <= f < fc ->
  (- bpow radix2 400 <= lo)%R -> (hi <= bpow radix2 400)%R ->
  Z.of_nat (length h) <= 2 ^ 53 ->
  Forall (fun p => pw p = dofZ 1 /\ Forall (fun v => is_finite v = true /\ (lo <= B2R v <= hi)%R) (pf p)) h ->
  (exists p, In p h /\ pl p = l) ->
  exists m g, brun dops fc (bayes_init dops lc fc s) (calls (O := dops) h) = Ok m /\
    rd (counters dops m) (l * fc + f) = Ok g /\
    weight_sum dops g = dofZ (Z.of_nat (length (filter (fun p => pl p =? l) h))) /\
    is_finite (mean dops g) = true /\ (lo <= B2R (mean dops g) <= hi)%R /\
    is_finite (variance_sum dops g) = true /\ (0 <= B2R (variance_sum dops g))%R.
Proof.
  intros lc fc s h lo hi l f Hl Hf V Hl' Hf' Hlo Hhi Hn Hb [p0 [I0 P0]].
  destruct (run_ok dops lc fc Hl Hf (calls (O := dops) h) [] _ (init_trained dops lc fc Hl Hf s)) as [m [E T]];
    [rewrite points_calls; exact V|].
  rewrite points_calls in T. cbn [app] in T. destruct T as [_ [T _]].
  exists m. eexists. split; [exact E|]. split; [apply T; auto|].
  set (vs := map (fun p => nth (Z.to_nat f) (pf p) (dofZ 0)) (filter (fun p => pl p =? l) h)).
  assert (Ec : column (nofZ dops 0) l (Z.to_nat f) h = map (fun v => (v, nofZ dops 1)) vs).
  { unfold column, vs. rewrite map_map. apply map_ext_in. intros p Hp. apply filter_In in Hp.
    rewrite Forall_forall in Hb. destruct (Hb p (proj1 Hp)) as [W _]. cbn beta. f_equal. exact W. }
  assert (Fl : (length (filter (fun p => (pl p =? l)%Z) h) <= length h)%nat).
  { clear. induction h as [|p h IH]; cbn [filter length]; [lia|]. destruct (pl p =? l); cbn [length]; lia. }
  change (num dops) with dbl in *. rewrite Ec.
  destruct (gfold_unit lo hi vs Hlo Hhi) as [G1 [[G2 G3] [G4 [G5 _]]]].
  - unfold vs. rewrite Forall_forall in *. intros v Hv. apply in_map_iff in Hv. destruct Hv as [p [<- Hp]].
    apply filter_In in Hp. destruct Hp as [Hp _]. destruct (Hb p Hp) as [_ Fv]. rewrite Forall_forall in Fv. apply Fv.
    unfold valid in V. rewrite Forall_forall in V. destruct (V p Hp) as [Lp _]. apply nth_In. lia.
  - unfold vs. rewrite map_length. lia.
  - unfold vs. intros X. apply map_eq_nil in X.
    assert (In p0 (filter (fun p => pl p =? l) h)) by (apply filter_In; split; [exact I0|now apply Z.eqb_eq]).
    rewrite X in H. destruct H.
  - unfold vs in G1 at 2. rewrite map_length in G1. auto 10.
Qed.
Print Assumptions bayes_ieee_bounds.

(** C66. With other weights this is false: the mean can leave the range of the values and
    the variance sum become negative (weights 2^-60 and 3, values 0 and 0.1). *)
Definition tenth : dbl := dlit 3602879701896397 (-55).
Definition weighted : list (point dbl) := [mkPoint [dofZ 0] 0 (dlit 1 (-60)); mkPoint [tenth] 0 (dofZ 3)].
Definition bad_estimate : bool :=
  match brun dops 1 (bayes_init dops 1 1 (dofZ 0)) (calls (O := dops) weighted) with
  | Ok m => match rd (counters dops m) 0 with
            | Ok g => dlt tenth (mean dops g) && dlt (variance_sum dops g) (dofZ 0)
            | _ => false
            end
  | _ => false
  end.
Theorem bayes_weighted_bounds_refuted :
  exists (h : list (point dbl)) (hi : dbl), valid 1 1 h /\
    Forall (fun p => dlt (dofZ 0) (pw p) = true /\ Forall (fun v => dle (dofZ 0) v = true /\ dle v hi = true) (pf p)) h /\
    exists m g, brun dops 1 (bayes_init dops 1 1 (dofZ 0)) (calls (O := dops) h) = Ok m /\
      rd (counters dops m) 0 = Ok g /\
      dlt hi (mean dops g) = true /\ dlt (variance_sum dops g) (dofZ 0) = true.
Proof.
  exists weighted, tenth. split; [repeat constructor; cbn; lia|].
  split; [repeat constructor; vm_compute; reflexivity|].
  assert (B : bad_estimate = true) by (vm_compute; reflexivity). unfold bad_estimate in B.
  destruct (brun dops 1 _ _) as [m| | |]; try discriminate.
  destruct (rd (counters dops m) 0) as [g| | |] eqn:Eg; try discriminate.
  apply andb_prop in B. destruct B. exists m, g. auto.
Qed.
Print Assumptions bayes_weighted_bounds_refuted.

(** ** Examples *)
Section Examples.
  Import QArith.
  Local Open Scope Z_scope.
  Definition qpoints : list (point Q) :=
    [mkPoint [1#1; 0#1] 0 (1#1); mkPoint [7#1; 5#1] 1 (2#1); mkPoint [3#1; 4#1] 0 (3#1); mkPoint [9#1; 6#1] 1 (1#1)]%Q.
  Definition qmodel : res (bayes qops) := brun qops 2 (bayes_init qops 2 2 0%Q) (calls (O := qops) qpoints).

  (** Weighted mean 10/4 and squares 3 for feature 0 of label 0; 23/3 and 8/3 for label 1. *)
  Example bayes_statistics_example :
    match qmodel with
    | Ok m => match rd (counters qops m) 0, rd (counters qops m) 2 with
              | Ok g, Ok g' => Qeq_bool (weight_sum qops g) 4 && Qeq_bool (mean qops g) (10#4) && Qeq_bool (variance_sum qops g) 3 &&
                               Qeq_bool (mean qops g') (23#3) && Qeq_bool (variance_sum qops g') (8#3)
              | _, _ => false
              end
    | _ => false
    end = true.
  Proof. vm_compute. reflexivity. Qed.

  (** With simple stand-ins for the library functions: the label of the nearer class, the
      first one on a tie, and the same with other smoothing values. *)
  Definition qpredict (h : list (bcall qops)) (s : Q) (x : list Q) : Z :=
    match (do m <- brun qops 2 (bayes_init qops 2 2 s) h;
           predict qops 2 2 (fun v => v) (fun v => v) (fun v => v) m x) with
    | Ok (r, _) => r
    | _ => -1
    end.
  Example bayes_predict_example :
    qpredict (calls (O := qops) qpoints) 0%Q [8; 5]%Q = 1 /\ qpredict (calls (O := qops) qpoints) 0%Q [2; 2]%Q = 0 /\
    qpredict [] 0%Q [2; 2]%Q = 0 /\
    qpredict (BSmooth qops 3%Q :: calls (O := qops) qpoints ++ [BSmooth qops 9%Q]) 5%Q [8; 5]%Q = 1.
  Proof. vm_compute. auto. Qed.

  (** Training outside the range of labels is undefined behaviour. *)
  Definition out_of_bounds {A} (r : res A) : bool := match r with Undef OutOfBounds => true | _ => false end.
  Example bayes_bad_label_example :
    out_of_bounds (brun qops 2 (bayes_init qops 2 2 0%Q) [BTrain qops [1; 1]%Q 2 1%Q]) = true /\
    out_of_bounds (brun qops 2 (bayes_init qops 2 2 0%Q) [BTrain qops [1; 1]%Q (-1) 1%Q]) = true.
  Proof. vm_compute. auto. Qed.

  Example bayes_training_local_example :
    match qmodel with
    | Ok m => match train qops 2 m [100; 100]%Q 1 1%Q with
              | Ok m' => match rd (counters qops m') 0, rd (counters qops m') 2 with
                         | Ok g, Ok g' => Qeq_bool (mean qops g) (10#4) && negb (Qeq_bool (mean qops g') (23#3))
                         | _, _ => false
                         end
              | _ => false
              end
    | _ => false
    end = true.
  Proof. vm_compute. reflexivity. Qed.

  (** Binary64: 0.1, 0.1, 0.1 has mean 0.1 or just beside it, never outside; variance sum 0. *)
  Example bayes_ieee_example :
    match brun dops 1 (bayes_init dops 1 1 (dofZ 0))
            (map (fun v => BTrain dops [v] 0 (dofZ 1)) [tenth; tenth; dofZ 2; tenth]) with
    | Ok m => match rd (counters dops m) 0 with
              | Ok g => deq (weight_sum dops g) (dofZ 4) && dle tenth (mean dops g) && dle (mean dops g) (dofZ 2) &&
                        dlt (dofZ 2) (variance_sum dops g) && dlt (variance_sum dops g) (dofZ 3)
              | _ => false
              end
    | _ => false
    end = true.
  Proof. vm_compute. reflexivity. Qed.
End Examples.

(** The Bayes rule applied: two classes around 1 and 11 with variance 2; the query 1 gets
    label 0. *)
Definition rpoints : list (point R) :=
  [mkPoint [0%R] 0 1%R; mkPoint [10%R] 1 1%R; mkPoint [2%R] 0 1%R; mkPoint [12%R] 1 1%R].
Example bayes_rule_example :
  exists sc, (do m <- brun rops 1 (bayes_init rops 2 1 0%R) (calls (O := rops) rpoints);
     predict rops 2 1 R_sqrt.sqrt ln Rtrigo_def.exp m [1%R]) = Ok (0, sc).
Proof.
  assert (C0 : column 0%R 0 0 rpoints = [(0, 1); (2, 1)]%R) by reflexivity.
  assert (C1 : column 0%R 1 0 rpoints = [(10, 1); (12, 1)]%R) by reflexivity.
  assert (W0 : weight_of [(0, 1); (2, 1)]%R = 2%R) by (unfold weight_of; cbn; lra).
  assert (W1 : weight_of [(10, 1); (12, 1)]%R = 2%R) by (unfold weight_of; cbn; lra).
  assert (M0 : mean_of [(0, 1); (2, 1)]%R = 1%R) by (unfold mean_of; rewrite W0; cbn; lra).
  assert (M1 : mean_of [(10, 1); (12, 1)]%R = 11%R) by (unfold mean_of; rewrite W1; cbn; lra).
  assert (V0 : variance_of [(0, 1); (2, 1)]%R = 2%R) by (unfold variance_of, squares_of; rewrite W0, M0; cbn; lra).
  assert (V1 : variance_of [(10, 1); (12, 1)]%R = 2%R) by (unfold variance_of, squares_of; rewrite W1, M1; cbn; lra).
  destruct (bayes_rule_exact 2 1 0%R rpoints [1%R]) as [r [sc [E [R1 [R2 R3]]]]]; try lia.
  - repeat constructor; cbn; lia.
  - repeat constructor; cbn; lra.
  - reflexivity.
  - intros l Hl. assert (l = 0 \/ l = 1) as [->| ->] by lia; cbn; lra.
  - intros l f Hl Hf. assert (f = 0) by lia. subst f. change (Z.to_nat 0) with 0%nat.
    assert (l = 0 \/ l = 1) as [->| ->] by lia.
    + rewrite C0, W0, V0. lra.
    + rewrite C1, W1, V1. lra.
  - exists sc. rewrite E. f_equal. f_equal. assert (r = 0 \/ r = 1) as [->| ->] by lia; [reflexivity|].
    exfalso. specialize (R2 0 ltac:(lia)). unfold posterior in R2. change (Z.to_nat 1) with 1%nat in R2.
    unfold labelled in R2. cbn [rprod rsum map filter rpoints pl pw Z.eqb Pos.eqb nth] in R2.
    fold rpoints in R2. rewrite C0, C1, M0, M1, V0, V1 in R2. unfold normal_density in R2.
    assert (X : (exp (- ((1 - 11) ^ 2 / (2 * 2))) < exp (- ((1 - 1) ^ 2 / (2 * 2))))%R) by (apply exp_increasing; lra).
    assert (Q : (0 < / R_sqrt.sqrt (2 * PI * 2))%R).
    { apply Rinv_0_lt_compat, sqrt_lt_R0. pose proof PI_RGT_0. lra. }
    set (k := (/ R_sqrt.sqrt (2 * PI * 2))%R) in *. nra.
Qed.
