(** * Proofs about naive Bayes *)
From Coq Require Import ZArith List Bool Lia Reals Lra Permutation.
From Flocq Require Import Core BinarySingleNaN.
From Verif Require Import CppBase CppFacts Dbl DblFacts NumOps NumFacts Utils_Model Utils_Spec Utils_Proofs
  Bayes_Model Bayes_Spec.
Import ListNotations.
Local Open Scope Z_scope.

(** ** The state after a history, for any arithmetic *)
Section State.
  Variable O : ops.
  Variable lc fc : Z.
  Hypothesis Hl : 0 <= lc.
  Hypothesis Hf : 0 <= fc.
  Variable sqrt log exp : num O -> num O.

  Local Notation gauss := (gauss O).
  Local Notation gtrain := (gauss_train O).

  (** Training points of a history. *)
  Fixpoint points (h : list (bcall O)) : list (point (num O)) :=
    match h with
    | [] => []
    | BTrain _ f l w :: t => mkPoint f l w :: points t
    | BSmooth _ _ :: t => points t
    end.

  Definition good_point (p : point (num O)) : Prop := Z.of_nat (length (pf p)) = fc /\ 0 <= pl p < lc.

  Definition gfold (s : list (num O * num O)) : gauss :=
    fold_left (fun g p => gtrain g (fst p) (snd p)) s (gauss_init O).
  Definition nsum (s : list (num O)) : num O := fold_left (nadd O) s (nofZ O 0).

  (** State [m] after the points [h]. *)
  Definition trained (h : list (point (num O))) (m : bayes O) : Prop :=
    Z.of_nat (length (counters O m)) = lc * fc /\
    (forall l f, 0 <= l < lc -> 0 <= f < fc ->
       rd (counters O m) (l * fc + f) = Ok (gfold (column (nofZ O 0) l (Z.to_nat f) h))) /\
    Z.of_nat (length (label_weights O m)) = lc /\
    (forall l, 0 <= l < lc -> rd (label_weights O m) l = Ok (nsum (labelled l h))) /\
    total_weights O m = nsum (map pw h).

  Lemma idx_range : forall l f, 0 <= l < lc -> 0 <= f < fc -> 0 <= l * fc + f < lc * fc.
  Proof. intros. nia. Qed.
  Lemma idx_inj : forall l f l' f', 0 <= f < fc -> 0 <= f' < fc -> l * fc + f = l' * fc + f' -> l = l' /\ f = f'.
  Proof. intros. assert (l = l') by nia. subst. lia. Qed.

  Lemma rd_repeat : forall A (x : A) n i, 0 <= i < Z.of_nat n -> rd (repeat x n) i = Ok x.
  Proof.
    intros A x n i H. apply rd_ok_iff. split; [lia|].
    rewrite (nth_error_nth' _ x) by (rewrite repeat_length; lia). now rewrite nth_repeat.
  Qed.

  Lemma init_trained : forall s, trained [] (bayes_init O lc fc s).
  Proof.
    intros s. unfold trained, bayes_init; cbn [counters label_weights total_weights].
    rewrite !repeat_length. split; [nia|]. split; [|split; [lia|split; [|reflexivity]]].
    - intros l f H1 H2. apply rd_repeat. pose proof (idx_range l f H1 H2). lia.
    - intros l H1. apply rd_repeat. lia.
  Qed.

  Lemma column_snoc : forall l f h p, column (nofZ O 0) l f (h ++ [p]) =
    column (nofZ O 0) l f h ++ (if pl p =? l then [(nth f (pf p) (nofZ O 0), pw p)] else []).
  Proof.
    intros. unfold column. rewrite filter_app, map_app. cbn [filter]. now destruct (pl p =? l).
  Qed.
  Lemma labelled_snoc : forall l (h : list (point (num O))) p, labelled l (h ++ [p]) =
    labelled l h ++ (if pl p =? l then [pw p] else []).
  Proof.
    intros. unfold labelled. rewrite filter_app, map_app. cbn [filter]. now destruct (pl p =? l).
  Qed.
  Lemma gfold_snoc : forall s x w, gfold (s ++ [(x, w)]) = gtrain (gfold s) x w.
  Proof. intros. unfold gfold. now rewrite fold_left_app. Qed.
  Lemma nsum_snoc : forall s w, nsum (s ++ [w]) = nadd O (nsum s) w.
  Proof. intros. unfold nsum. now rewrite fold_left_app. Qed.

  Lemma train_ok : forall h m p, trained h m -> good_point p ->
    exists m', train O fc m (pf p) (pl p) (pw p) = Ok m' /\ trained (h ++ [p]) m' /\
      smoothing O m' = smoothing O m.
  Proof.
    intros h m p [T1 [T2 [T3 [T4 T5]]]] [G1 G2]. unfold train.
    destruct (forZ_inv _ (fun i cs => Z.of_nat (length cs) = lc * fc /\
        forall l f, 0 <= l < lc -> 0 <= f < fc ->
        rd cs (l * fc + f) = Ok (gfold (column (nofZ O 0) l (Z.to_nat f) (if f <? i then h ++ [p] else h))))
      (fun i cs => do x <- rd (pf p) i; do g <- rd cs (pl p * fc + i);
                   wr cs (pl p * fc + i) (gtrain g x (pw p)))
      (Z.to_nat fc) 0 (counters O m)) as [cs [E [L C]]].
    - split; [exact T1|]. intros l f Hl' Hf'. destruct (Z.ltb_spec f 0); [lia|]. now apply T2.
    - intros i cs Hi [L C]. rewrite Z2Nat.id in Hi by lia.
      destruct (rd_in_bounds _ (pf p) i) as [x Hx]; [lia|]. rewrite Hx. cbn [bind].
      rewrite (C (pl p) i) by lia. cbn [bind].
      pose proof (idx_range (pl p) i G2 ltac:(lia)) as R.
      rewrite wr_ok by lia. eexists. split; [reflexivity|]. rewrite upd_length. split; [exact L|].
      intros l f Hl' Hf'. rewrite rd_upd by lia.
      assert (Ex : nth (Z.to_nat i) (pf p) (nofZ O 0) = x).
      { apply rd_ok_iff in Hx. destruct Hx as [_ Hx]. now apply nth_error_nth. }
      destruct (Z.eqb_spec (pl p * fc + i) (l * fc + f)) as [Ei|Ni].
      + apply idx_inj in Ei; [|lia|lia]. destruct Ei as [<- <-].
        destruct (Z.ltb_spec i (i + 1)); [|lia]. destruct (Z.ltb_spec i i); [lia|].
        rewrite column_snoc. destruct (Z.eqb_spec (pl p) (pl p)); [|congruence]. now rewrite gfold_snoc, Ex.
      + rewrite C by lia. destruct (Z.ltb_spec f i), (Z.ltb_spec f (i + 1)); try lia; try reflexivity.
        assert (f = i) by lia. subst f. rewrite column_snoc.
        destruct (Z.eqb_spec (pl p) l) as [El|Nl]; [subst; lia|]. now rewrite app_nil_r.
    - rewrite E. cbn [bind]. rewrite T4 by lia. cbn [bind]. rewrite wr_ok by lia. cbn [bind].
      eexists. split; [reflexivity|]. split; [|reflexivity]. unfold trained. cbn [counters label_weights total_weights].
      split; [exact L|]. split; [|split; [|split]].
      + intros l f Hl' Hf'. rewrite C by lia. destruct (Z.ltb_spec f (0 + Z.of_nat (Z.to_nat fc))); [reflexivity|lia].
      + rewrite upd_length. exact T3.
      + intros l Hl'. rewrite rd_upd by lia. rewrite labelled_snoc.
        destruct (Z.eqb_spec (pl p) l) as [<-|N].
        * now rewrite nsum_snoc.
        * rewrite app_nil_r. now apply T4.
      + rewrite map_app. cbn [map]. now rewrite nsum_snoc, T5.
  Qed.

  Lemma run_ok : forall hs h m, trained h m -> Forall good_point (points hs) ->
    exists m', brun O fc m hs = Ok m' /\ trained (h ++ points hs) m'.
  Proof.
    induction hs as [|c hs IH]; intros h m T G.
    - exists m. cbn. now rewrite app_nil_r.
    - destruct c as [f l w|v]; cbn [brun bstep points] in *.
      + inversion G as [|? ? G1 G2]; subst.
        destruct (train_ok h m (mkPoint f l w) T G1) as [m1 [E [T1 _]]]. cbn [pf pl pw] in E. rewrite E. cbn [bind].
        destruct (IH _ _ T1 G2) as [m2 [E2 T2]]. exists m2. split; [exact E2|].
        now rewrite <- app_assoc in T2.
      + cbn [bind]. apply IH; auto.
  Qed.

  (** The score of a label. *)
  Definition score_of (h : list (point (num O))) (x : list (num O)) (l : Z) : num O :=
    fold_left (fun v f => nadd O v (log (probability_density O sqrt exp (gfold (column (nofZ O 0) l f h)) (nth f x (nofZ O 0)))))
      (seq 0 (Z.to_nat fc)) (log (ndiv O (nsum (labelled l h)) (nsum (map pw h)))).

  Lemma scores_ok : forall h m x, trained h m -> Z.of_nat (length x) = fc ->
    exists sc, local_scores O lc fc sqrt log exp m x = Ok sc /\ Z.of_nat (length sc) = lc /\
      forall l, 0 <= l < lc -> rd sc l = Ok (score_of h x l).
  Proof.
    intros h m x [T1 [T2 [T3 [T4 T5]]]] Hx. unfold local_scores.
    match goal with |- exists sc, forZ _ _ ?B _ = _ /\ _ =>
      destruct (forZ_inv _ (fun i sc => Z.of_nat (length sc) = lc /\
        forall l, 0 <= l < i -> rd sc l = Ok (score_of h x l)) B (Z.to_nat lc) 0
        (repeat (nofZ O 0) (Z.to_nat lc))) as [sc [E [L C]]] end.
    - rewrite repeat_length. split; [lia|]. intros; lia.
    - intros l sc Hi [L C]. rewrite T4 by lia. cbn [bind]. rewrite wr_ok by lia. cbn [bind].
      match goal with |- exists s', forZ _ _ ?B ?S0 = _ /\ _ =>
        destruct (forZ_inv _ (fun j sc' => Z.of_nat (length sc') = lc /\
          (forall l', 0 <= l' < l -> rd sc' l' = Ok (score_of h x l')) /\
          rd sc' l = Ok (fold_left (fun v f => nadd O v (log (probability_density O sqrt exp
             (gfold (column (nofZ O 0) l f h)) (nth f x (nofZ O 0))))) (seq 0 (Z.to_nat j))
             (log (ndiv O (nsum (labelled l h)) (total_weights O m)))))
          B (Z.to_nat fc) 0 S0) as [sc2 [E2 [L2 [C2 D2]]]] end.
      + rewrite upd_length. split; [exact L|]. split.
        * intros l' Hl'. rewrite rd_upd by lia. destruct (Z.eqb_spec l l'); [lia|]. now apply C.
        * rewrite rd_upd by lia. rewrite Z.eqb_refl. reflexivity.
      + intros f sc' Hj [L' [C' D']]. rewrite T2 by lia. cbn [bind].
        assert (Hfr : rd x f = Ok (nth (Z.to_nat f) x (nofZ O 0))).
        { rewrite <- (rd_nth O x (Z.to_nat f)) by lia. now rewrite Z2Nat.id by lia. }
        rewrite Hfr. cbn [bind]. rewrite D'. cbn [bind]. rewrite wr_ok by lia.
        eexists. split; [reflexivity|]. rewrite upd_length. split; [exact L'|]. split.
        * intros l' Hl'. rewrite rd_upd by lia. destruct (Z.eqb_spec l l'); [lia|]. now apply C'.
        * rewrite rd_upd by lia. rewrite Z.eqb_refl.
          replace (Z.to_nat (f + 1)) with (S (Z.to_nat f)) by lia.
          rewrite seq_S, fold_left_app. reflexivity.
      + exists sc2. split; [exact E2|]. split; [exact L2|]. intros l' Hl'.
        destruct (Z.eq_dec l' l) as [->|N]; [|apply C2; lia].
        rewrite D2. unfold score_of. rewrite T5. f_equal. f_equal. f_equal. lia.
    - exists sc. split; [exact E|]. split; [exact L|]. intros l H. apply C. lia.
  Qed.

  (** [predict] on top of the scores. *)
  Lemma predict_scan : forall sc n, n = Z.of_nat (length sc) ->
    forZ (Z.to_nat n - 1) 1 (fun l max_l => do a <- rd sc max_l; do b <- rd sc l; Ok (if nlt O a b then l else max_l)) 0 =
    index_max (fun x y => nlt O y x) sc n.
  Proof.
    intros sc n Hn. unfold index_max. subst n.
    rewrite Nat2Z.id. set (k := (length sc - 1)%nat).
    assert (G : forall n i b, 0 <= b < Z.of_nat (length sc) -> i + Z.of_nat n <= Z.of_nat (length sc) -> 0 <= i ->
      forZ n i (fun l max_l => do a <- rd sc max_l; do b <- rd sc l; Ok (if nlt O a b then l else max_l)) b =
      forZ n i (fun i best => do x <- rd sc i; do y <- rd sc best; Ok (if nlt O y x then i else best)) b).
    { induction n as [|n IH]; intros i b Hb Hi Hp; [reflexivity|]. cbn [forZ].
      destruct (rd_in_bounds _ sc b) as [a Ha]; [lia|]. destruct (rd_in_bounds _ sc i) as [c Hc]; [lia|].
      rewrite Ha, Hc. cbn [bind]. destruct (nlt O a c); apply IH; lia. }
    destruct (Nat.eq_dec (length sc) 0) as [Z0|NZ].
    - subst k. rewrite Z0. reflexivity.
    - apply G; subst k; lia.
  Qed.
End State.

(** ** Exact arithmetic: batch statistics *)
Section Exact.
  Local Open Scope R_scope.
  Local Notation sample := (list (R * R)).

  Lemma rsum_app : forall A (f : A -> R) s t, rsum f (s ++ t) = rsum f s + rsum f t.
  Proof. induction s as [|x s IH]; intros t; cbn [rsum app]; [lra|]. rewrite IH. lra. Qed.
  Lemma rsum_perm : forall A (f : A -> R) s t, Permutation s t -> rsum f s = rsum f t.
  Proof. induction 1; cbn [rsum]; lra. Qed.
  Lemma rsum_ext : forall A (f g : A -> R) s, (forall x, In x s -> f x = g x) -> rsum f s = rsum g s.
  Proof.
    induction s as [|x s IH]; intros H; cbn [rsum]; [reflexivity|].
    rewrite H by now left. rewrite IH; [reflexivity|]. intros y Hy. apply H. now right.
  Qed.
  Lemma rsum_nonneg : forall A (f : A -> R) s, (forall x, In x s -> 0 <= f x) -> 0 <= rsum f s.
  Proof.
    induction s as [|x s IH]; intros H; cbn [rsum]; [lra|].
    pose proof (H x (or_introl eq_refl)). assert (0 <= rsum f s) by (apply IH; intros y Hy; apply H; now right). lra.
  Qed.

  Definition p1 (s : sample) : R := rsum (fun p => snd p * fst p) s.
  Definition p2 (s : sample) : R := rsum (fun p => snd p * fst p ^ 2) s.
  Definition nonneg (s : sample) : Prop := Forall (fun p => 0 <= snd p) s.

  Lemma squares_about : forall s mu,
    rsum (fun p => snd p * (fst p - mu) ^ 2) s = p2 s - 2 * mu * p1 s + mu ^ 2 * weight_of s.
  Proof.
    induction s as [|p s IH]; intros mu; unfold p1, p2, weight_of in *; cbn [rsum]; [ring|]. rewrite IH. ring.
  Qed.
  Lemma squares_expand : forall s, weight_of s <> 0 -> squares_of s = p2 s - p1 s ^ 2 / weight_of s.
  Proof.
    intros s H. unfold squares_of. rewrite squares_about. unfold mean_of. fold (p1 s). field. exact H.
  Qed.

  Lemma zero_weight : forall s, nonneg s -> weight_of s = 0 -> p1 s = 0 /\ p2 s = 0.
  Proof.
    induction s as [|p s IH]; intros N W; [split; reflexivity|].
    inversion N as [|? ? N1 N2]; subst. unfold weight_of, p1, p2 in *. cbn [rsum] in *.
    assert (0 <= rsum snd s). { apply rsum_nonneg. intros x Hx. rewrite Forall_forall in N2. auto. }
    assert (E : snd p = 0) by lra. destruct (IH N2 ltac:(lra)) as [A B]. rewrite E, A, B. split; ring.
  Qed.

  Lemma weight_nonneg : forall s, nonneg s -> 0 <= weight_of s.
  Proof. intros s N. apply rsum_nonneg. intros x Hx. unfold nonneg in N. rewrite Forall_forall in N. auto. Qed.

  Local Notation G := (gfold rops).

  Lemma gfold_real : forall s, nonneg s ->
    weight_sum rops (G s) = weight_of s /\
    (0 < weight_of s -> mean rops (G s) = mean_of s /\ variance_sum rops (G s) = squares_of s).
  Proof.
    induction s as [|[v w] s IH] using rev_ind; intros N.
    - split; [reflexivity|]. unfold weight_of. cbn. lra.
    - apply Forall_app in N. destruct N as [N Nw]. inversion Nw as [|? ? Hw _]; subst. cbn [snd] in Hw.
      destruct (IH N) as [A B]. clear IH Nw.
      rewrite gfold_snoc. unfold gauss_train. cbn [nlt nofZ rops]. rewrite A.
      assert (EW : weight_of (s ++ [(v, w)]) = weight_of s + w) by (unfold weight_of; rewrite rsum_app; cbn; ring).
      assert (E1 : p1 (s ++ [(v, w)]) = p1 s + w * v) by (unfold p1; rewrite rsum_app; cbn [rsum fst snd]; ring).
      assert (E2 : p2 (s ++ [(v, w)]) = p2 s + w * v ^ 2) by (unfold p2; rewrite rsum_app; cbn [rsum fst snd]; ring).
      pose proof (weight_nonneg s N) as W0.
      destruct (Rlt_bool_spec 0 (weight_of s)) as [Wp|Wz].
      + destruct (B Wp) as [Bm Bv]. cbn [nadd nsub nmul ndiv rops weight_sum variance_sum mean].
        change (num rops) with R in *. rewrite Bm, Bv, EW. split; [reflexivity|]. intros _.
        assert (M : mean_of s + w * (v - mean_of s) / (weight_of s + w) = mean_of (s ++ [(v, w)])).
        { unfold mean_of. fold (p1 s) (p1 (s ++ [(v, w)])). rewrite EW, E1. field. split; lra. }
        split; [exact M|]. rewrite M. rewrite !squares_expand by lra. unfold mean_of.
        fold (p1 s) (p1 (s ++ [(v, w)])). rewrite EW, E1, E2. field. split; lra.
      + assert (Z0 : weight_of s = 0) by lra. destruct (zero_weight s N Z0) as [Z1 Z2].
        cbn [weight_sum variance_sum mean]. rewrite EW, Z0. split; [change (num rops) with R; ring|].
        intros Wp. unfold mean_of. fold (p1 (s ++ [(v, w)])). rewrite EW, E1, Z0, Z1.
        split; [change (num rops) with R; field; lra|].
        change (num rops) with R. rewrite squares_expand by lra. rewrite EW, E1, E2, Z0, Z1, Z2. field. lra.
  Qed.

  Lemma weight_perm : forall s t, Permutation s t -> weight_of s = weight_of t.
  Proof. intros. now apply rsum_perm. Qed.
  Lemma mean_perm : forall s t, Permutation s t -> mean_of s = mean_of t.
  Proof. intros s t P. unfold mean_of. now rewrite (weight_perm _ _ P), (rsum_perm _ _ _ _ P). Qed.
  Lemma squares_perm : forall s t, Permutation s t -> squares_of s = squares_of t.
  Proof. intros s t P. unfold squares_of. rewrite (mean_perm _ _ P). now apply rsum_perm. Qed.

  (** The density does not depend on the order. *)
  Lemma density_perm : forall sq ex s t x, Permutation s t -> nonneg s ->
    probability_density rops sq ex (G s) x = probability_density rops sq ex (G t) x.
  Proof.
    intros sq ex s t x P N.
    assert (N' : nonneg t). { unfold nonneg in *. rewrite Forall_forall in *. intros y Hy. apply N. eapply Permutation_in; [symmetry; exact P|exact Hy]. }
    destruct (gfold_real s N) as [A B]. destruct (gfold_real t N') as [A' B'].
    unfold probability_density. cbn [nle nofZ rops]. rewrite A, A', <- (weight_perm _ _ P).
    destruct (Rle_bool_spec (weight_of s) 0) as [L|L]; [reflexivity|].
    destruct (B L) as [B1 B2]. rewrite (weight_perm _ _ P) in L. destruct (B' L) as [B1' B2'].
    rewrite B1, B2, B1', B2', (mean_perm _ _ P), (squares_perm _ _ P). reflexivity.
  Qed.

  Lemma nsum_rsum : forall (s : list R), nsum rops s = rsum (fun w => w) s.
  Proof.
    induction s as [|x s IH] using rev_ind; [reflexivity|]. rewrite nsum_snoc, IH, rsum_app. cbn. ring.
  Qed.

  Lemma filter_perm : forall A (f : A -> bool) s t, Permutation s t -> Permutation (filter f s) (filter f t).
  Proof.
    induction 1 as [|x s t P IH|x y s|s t u P1 I1 P2 I2]; cbn [filter].
    - constructor.
    - destruct (f x); auto.
    - destruct (f x), (f y); try apply Permutation_refl. apply perm_swap.
    - eapply Permutation_trans; eauto.
  Qed.

  Lemma score_perm : forall fc sq lg ex (h h' : list (point (num rops))) x l, Permutation h h' -> Forall (fun p => 0 <= pw p) h ->
    score_of rops fc sq lg ex h x l = score_of rops fc sq lg ex h' x l.
  Proof.
    intros fc sq lg ex h h' x l P N. unfold score_of.
    assert (E : nsum rops (labelled l h) = nsum rops (labelled l h')).
    { rewrite !nsum_rsum. apply rsum_perm. unfold labelled. apply Permutation_map. now apply filter_perm. }
    assert (E' : nsum rops (map pw h) = nsum rops (map pw h')).
    { rewrite !nsum_rsum. apply rsum_perm. now apply Permutation_map. }
    rewrite E, E'. generalize (lg (ndiv rops (nsum rops (labelled l h')) (nsum rops (map pw h')))) as v0.
    induction (seq 0 (Z.to_nat fc)) as [|f fs IH]; intros v0; cbn [fold_left]; [reflexivity|].
    rewrite IH. f_equal. f_equal. f_equal. apply density_perm.
    - unfold column. apply Permutation_map. now apply filter_perm.
    - unfold nonneg, column. rewrite Forall_forall in *. intros y Hy. apply in_map_iff in Hy.
      destruct Hy as [p [<- Hp]]. apply filter_In in Hp. cbn [snd]. apply N. tauto.
  Qed.

  (** ** The Bayes rule *)
  Definition cst : R := R_sqrt.sqrt (2 * PI) / (250663 / 100000).
  Lemma cst_pos : 0 < cst.
  Proof. unfold cst. assert (0 < R_sqrt.sqrt (2 * PI)) by (apply sqrt_lt_R0; pose proof PI_RGT_0; lra). apply Rdiv_lt_0_compat; lra. Qed.

  Lemma density_normal : forall s x, nonneg s -> 1 < weight_of s -> 0 < variance_of s ->
    probability_density rops R_sqrt.sqrt Rtrigo_def.exp (G s) x =
    cst * normal_density (mean_of s) (variance_of s) x.
  Proof.
    intros s x N W V. destruct (gfold_real s N) as [A B]. destruct (B ltac:(lra)) as [B1 B2].
    unfold probability_density. cbn [nle nlt nofZ nsub nmul nadd ndiv nopp rops]. rewrite A, B1, B2.
    rewrite Rle_bool_false by lra. rewrite (Rlt_bool_true 1 (weight_of s)) by lra.
    fold (variance_of s). set (v := variance_of s) in *.
    assert (Sv : 0 < R_sqrt.sqrt v) by now apply sqrt_lt_R0.
    rewrite Rlt_bool_true by exact Sv.
    assert (Sq : R_sqrt.sqrt v * R_sqrt.sqrt v = v) by (apply sqrt_sqrt; lra).
    unfold normal_density, cst, normal_constant. cbn [ndiv nofZ rops].
    assert (P0 := PI_RGT_0).
    replace (2 * R_sqrt.sqrt v * R_sqrt.sqrt v) with (2 * v) by (rewrite <- Sq at 1; ring).
    replace ((x - mean_of s) * (x - mean_of s)) with ((x - mean_of s) ^ 2) by ring.
    rewrite (sqrt_mult (2 * PI) v) by lra.
    assert (0 < R_sqrt.sqrt (2 * PI)) by (apply sqrt_lt_R0; lra).
    change (num rops) with R. match goal with |- context [Rtrigo_def.exp ?e] => generalize (Rtrigo_def.exp e); intros ee end. field. split; lra.
  Qed.

  Lemma normal_pos : forall mu v x, 0 < v -> 0 < normal_density mu v x.
  Proof.
    intros mu v x V. unfold normal_density. apply Rmult_lt_0_compat; [|apply exp_pos].
    apply Rinv_0_lt_compat. apply sqrt_lt_R0. pose proof PI_RGT_0. nra.
  Qed.
  Lemma rprod_pos : forall f n, (forall i, (i < n)%nat -> 0 < f i) -> 0 < rprod f n.
  Proof.
    induction n as [|n IH]; intros H; cbn [rprod]; [lra|].
    apply Rmult_lt_0_compat; [apply IH; intros; apply H; lia|apply H; lia].
  Qed.

  Lemma score_posterior : forall fc h x l, Forall (fun p => 0 <= pw p) h ->
    0 < rsum (fun w => w) (labelled l h) ->
    (forall f, (f < Z.to_nat fc)%nat -> 1 < weight_of (column 0 l f h) /\ 0 < variance_of (column 0 l f h)) ->
    score_of rops fc R_sqrt.sqrt ln Rtrigo_def.exp h x l =
      ln (posterior (Z.to_nat fc) h x l) + INR (Z.to_nat fc) * ln cst /\ 0 < posterior (Z.to_nat fc) h x l.
  Proof.
    intros fc h x l N W V. unfold score_of, posterior.
    assert (Wt : 0 < rsum pw h).
    { apply Rlt_le_trans with (1 := W). clear - N. unfold labelled.
      induction h as [|p h IH]; cbn [filter map rsum]; [lra|]. inversion N; subst. specialize (IH H2).
      destruct (pl p =? l)%Z; cbn [map rsum]; lra. }
    rewrite !nsum_rsum. change (ndiv rops) with Rdiv. change (num rops) with R.
    assert (Ew : rsum (fun w => w) (map pw h) = rsum pw h) by (clear; induction h as [|p h IH]; cbn [map rsum]; [reflexivity|now rewrite IH]).
    rewrite Ew. set (pr := rsum (fun w => w) (labelled l h) / rsum pw h).
    assert (Hp : 0 < pr) by now apply Rdiv_lt_0_compat.
    set (D := fun f => normal_density (mean_of (column 0 l f h)) (variance_of (column 0 l f h)) (nth f x 0)).
    assert (Gn : forall n, (n <= Z.to_nat fc)%nat ->
      fold_left (fun v f => nadd rops v (ln (probability_density rops R_sqrt.sqrt Rtrigo_def.exp
          (gfold rops (column (nofZ rops 0) l f h)) (nth f x (nofZ rops 0))))) (seq 0 n) (ln pr) =
      ln (pr * rprod D n) + INR n * ln cst /\ 0 < pr * rprod D n).
    { induction n as [|n IH]; intros Hn.
      - cbn [seq fold_left rprod INR]. rewrite Rmult_1_r. split; [change (num rops) with R; ring|exact Hp].
      - destruct (IH ltac:(lia)) as [E Q]. rewrite seq_S, fold_left_app. cbn [fold_left Nat.add]. rewrite E.
        destruct (V n ltac:(lia)) as [V1 V2]. cbn [nofZ nadd rops].
        rewrite density_normal; auto.
        2:{ unfold nonneg, column. rewrite Forall_forall in *. intros y Hy. apply in_map_iff in Hy.
            destruct Hy as [p [<- Hp']]. apply filter_In in Hp'. cbn [snd]. apply N. tauto. }
        change (num rops) with R. match goal with |- context [cst * ?d] => change d with (D n) end. assert (Dp : 0 < D n) by now apply normal_pos.
        cbn [rprod]. rewrite <- Rmult_assoc. split; [|now apply Rmult_lt_0_compat].
        rewrite (ln_mult cst (D n)) by (auto using cst_pos). rewrite (ln_mult (pr * rprod D n) (D n)) by auto.
        rewrite S_INR. change (num rops) with R. ring. }
    apply Gn. lia.
  Qed.
End Exact.

(** ** Binary64 with weights equal to one *)
Section Ieee.
  Local Open Scope R_scope.
  Local Notation lim := (bpow radix2 400).
  Local Notation emin := (-1074)%Z.

  Lemma format_fix : forall x : dbl, exists k, B2R x = IZR k * bpow radix2 emin.
  Proof.
    intros x. assert (F : generic_format radix2 (FIX_exp emin) (B2R x)).
    { apply generic_inclusion_mag with (fexp1 := fexp64); [|apply generic_format_B2R].
      intros _. unfold FIX_exp. change fexp64 with (FLT_exp emin 53). unfold FLT_exp. lia. }
    apply FIX_format_generic in F. destruct F as [[m e] E1 E2]. cbn [Fexp] in E2. subst e.
    exists m. exact E1.
  Qed.

  Lemma format_bpow : forall e, (emin <= e)%Z -> generic_format radix2 fexp64 (bpow radix2 e).
  Proof.
    intros e H. change fexp64 with (FLT_exp emin 53). apply generic_format_FLT_bpow; [exact Hprec64|exact H].
  Qed.

  Lemma rnd_opp : forall x, rnd64 (- x) = - rnd64 x.
  Proof. intros. apply round_NE_opp. Qed.

  Lemma shrink_pos : forall (u v : dbl) n, 0 <= B2R v - B2R u -> 2 <= n ->
    0 <= rnd64 (rnd64 (B2R v - B2R u) / n) <= B2R v - B2R u.
  Proof.
    intros u v n H Hn. set (x := B2R v - B2R u) in *.
    assert (R0 : 0 <= rnd64 x) by (rewrite <- rnd_0; now apply rnd_le).
    assert (Q0 : 0 <= rnd64 x / n) by (apply Rmult_le_pos; [exact R0|apply Rlt_le, Rinv_0_lt_compat; lra]).
    split; [rewrite <- rnd_0; now apply rnd_le|].
    destruct (Req_dec x 0) as [E|N].
    { rewrite E, rnd_0. unfold Rdiv. rewrite Rmult_0_l, rnd_0. lra. }
    assert (Xp : 0 < x) by lra.
    destruct (format_fix u) as [ku Eu], (format_fix v) as [kv Ev].
    assert (Xk : x = IZR (kv - ku) * bpow radix2 emin) by (unfold x; rewrite Eu, Ev, minus_IZR; ring).
    assert (P := bpow_gt_0 radix2 emin).
    assert (K : (1 <= kv - ku)%Z).
    { assert (0 < kv - ku)%Z; [|lia]. apply lt_IZR. rewrite Xk in Xp. apply Rmult_lt_reg_r with (1 := P). lra. }
    destruct (mag radix2 x) as [e He]. specialize (He N). rewrite Rabs_pos_eq in He by lra. destruct He as [H1 H2].
    assert (Em : (emin <= e - 1)%Z).
    { assert (emin < e)%Z; [|lia]. apply lt_bpow with radix2. apply Rle_lt_trans with (2 := H2).
      rewrite Xk. apply IZR_le in K. nra. }
    assert (Rx : rnd64 x <= bpow radix2 e).
    { rewrite <- (rnd_id (bpow radix2 e)) by (apply format_bpow; lia). apply rnd_le. lra. }
    assert (B2 : bpow radix2 e = 2 * bpow radix2 (e - 1)).
    { replace e with (1 + (e - 1))%Z at 1 by lia. rewrite bpow_plus. reflexivity. }
    apply Rle_trans with (2 := H1). rewrite <- (rnd_id (bpow radix2 (e - 1))) by (apply format_bpow; lia).
    apply rnd_le. apply Rmult_le_reg_r with n; [lra|].
    replace (rnd64 x / n * n) with (rnd64 x) by (field; lra).
    pose proof (bpow_gt_0 radix2 (e - 1)). nra.
  Qed.

  (** The new mean lies between the old one and the value. *)
  Lemma mean_between : forall (pm v : dbl) n, 2 <= n ->
    let m := rnd64 (B2R pm + rnd64 (rnd64 (B2R v - B2R pm) / n)) in
    (B2R pm <= m <= B2R v \/ B2R v <= m <= B2R pm).
  Proof.
    intros pm v n Hn m.
    assert (Fv : rnd64 (B2R v) = B2R v) by (apply rnd_id, generic_format_B2R).
    assert (Fp : rnd64 (B2R pm) = B2R pm) by (apply rnd_id, generic_format_B2R).
    destruct (Rle_or_lt (B2R pm) (B2R v)) as [L|L].
    - left. destruct (shrink_pos pm v n ltac:(lra) Hn) as [A B]. unfold m. split.
      + apply Rle_trans with (rnd64 (B2R pm)); [lra|]. apply rnd_le. lra.
      + apply Rle_trans with (rnd64 (B2R v)); [|lra]. apply rnd_le. lra.
    - right. destruct (shrink_pos v pm n ltac:(lra) Hn) as [A B].
      assert (E : rnd64 (rnd64 (B2R v - B2R pm) / n) = - rnd64 (rnd64 (B2R pm - B2R v) / n)).
      { replace (B2R v - B2R pm) with (- (B2R pm - B2R v)) by ring. rewrite rnd_opp. rewrite <- (rnd_opp (rnd64 (B2R pm - B2R v) / n)). f_equal. unfold Rdiv. ring. }
      unfold m. rewrite E. split.
      + apply Rle_trans with (rnd64 (B2R v)); [lra|]. apply rnd_le. lra.
      + apply Rle_trans with (rnd64 (B2R pm)); [|lra]. apply rnd_le. lra.
  Qed.

  Lemma bp_le : forall a b, (a <= b)%Z -> bpow radix2 a <= bpow radix2 b.
  Proof. intros. now apply bpow_le. Qed.

  Lemma format_scaled : forall n e, (Z.abs n <= 2 ^ 53)%Z -> (0 <= e)%Z -> generic_format radix2 fexp64 (IZR n * bpow radix2 e).
  Proof.
    intros n e Hn He. destruct (Z.eq_dec (Z.abs n) (2 ^ 53)) as [E|N].
    - assert (n = 2 ^ 53 \/ n = - 2 ^ 53)%Z as [->| ->] by lia.
      + change (IZR (2 ^ 53)) with (bpow radix2 53). rewrite <- bpow_plus. apply format_bpow. lia.
      + rewrite opp_IZR. replace (- IZR (2 ^ 53) * bpow radix2 e) with (- (bpow radix2 53 * bpow radix2 e)).
        2:{ change (IZR (2 ^ 53)) with (bpow radix2 53). ring. }
        apply generic_format_opp. rewrite <- bpow_plus. apply format_bpow. lia.
    - change fexp64 with (FLT_exp emin 53). apply generic_format_FLT.
      exists (Float radix2 n e); [reflexivity| |cbn [Fexp]; lia]. cbn [Fnum].
      change (Z.pow_pos radix2 53) with (2 ^ 53)%Z. change (radix2 ^ 53)%Z with (2 ^ 53)%Z. lia.
  Qed.

  Definition in_box (lo hi : R) (v : dbl) : Prop := is_finite v = true /\ lo <= B2R v <= hi.

  Local Notation G := (gfold dops).
  Local Notation one := (nofZ dops 1).

  Lemma first_train : forall v w, gauss_train dops (gauss_init dops) v w = mkGauss dops w (dofZ 0) v.
  Proof.
    intros v w. unfold gauss_train. change (weight_sum dops (gauss_init dops)) with (dofZ 0). cbn [nlt nofZ dops].
    replace (dlt (dofZ 0) (dofZ 0)) with false by (vm_compute; reflexivity). reflexivity.
  Qed.

  Lemma gfold_unit : forall lo hi (vs : list dbl), - lim <= lo -> hi <= lim -> Forall (in_box lo hi) vs ->
    (Z.of_nat (length vs) <= 2 ^ 53)%Z -> vs <> [] ->
    let g := G (map (fun v => (v, one)) vs) in
    weight_sum dops g = dofZ (Z.of_nat (length vs)) /\ in_box lo hi (mean dops g) /\
    is_finite (variance_sum dops g) = true /\
    0 <= B2R (variance_sum dops g) <= IZR (Z.of_nat (length vs)) * bpow radix2 805.
  Proof.
    intros lo hi vs Hlo Hhi. induction vs as [|v vs IH] using rev_ind; intros F L Ne; [congruence|]. cbn zeta.
    apply Forall_app in F. destruct F as [F Fv]. inversion Fv as [|? ? [Vf Vr] _]; subst. clear Fv.
    rewrite app_length in *. cbn [length] in *. rewrite map_app. cbn [map].
    rewrite gfold_snoc. assert (P805 := bpow_gt_0 radix2 805).
    assert (O1 : is_finite (dofZ 1) = true /\ B2R (dofZ 1) = 1).
    { destruct (dofZ_exact 1 ltac:(vm_compute; discriminate)); split; auto. }
    destruct vs as [|v0 vs].
    - change (G (map (fun v => (v, one)) [])) with (gauss_init dops). rewrite first_train.
      cbn [weight_sum mean variance_sum length Nat.add]. split; [reflexivity|]. split; [split; auto|].
      destruct (dofZ_exact 0 ltac:(vm_compute; discriminate)) as [Z1 Z2].
      split; [exact Z2|]. rewrite Z1. change (Z.of_nat 1) with 1%Z. lra.
    - specialize (IH F ltac:(lia) ltac:(discriminate)). cbn zeta in IH.
      set (g0 := G (map (fun v => (v, one)) (v0 :: vs))) in *. clearbody g0.
      remember (length (v0 :: vs)) as n. assert (Hn : (1 <= Z.of_nat n)%Z) by (subst n; cbn [length]; lia).
      clear Heqn F. destruct IH as [W [[Mf Mr] [Sf Sr]]].
      unfold gauss_train. cbn [nlt nofZ nadd nsub nmul ndiv dops]. rewrite W.
      destruct (dofZ_exact (Z.of_nat n) ltac:(lia)) as [N1 N2]. destruct (dofZ_exact 0 ltac:(vm_compute; discriminate)) as [Z1 Z2].
      assert (Lt : dlt (dofZ 0) (dofZ (Z.of_nat n)) = true).
      { apply dlt_true; auto. rewrite N1, Z1. apply IZR_lt. lia. }
      rewrite Lt. cbn [weight_sum mean variance_sum].
      assert (Ws : dadd (dofZ (Z.of_nat n)) (dofZ 1) = dofZ (Z.of_nat n + 1)).
      { destruct dops_exact as [D _]. apply D; lia. }
      rewrite Ws. replace (Z.of_nat (n + 1)) with (Z.of_nat n + 1)%Z by lia. split; [reflexivity|].
      set (N := (Z.of_nat n + 1)%Z) in *. destruct (dofZ_exact N ltac:(unfold N; lia)) as [NN1 NN2].
      assert (N2r : 2 <= IZR N) by (apply IZR_le; unfold N; lia).
      set (pm := mean dops g0) in *. assert (P4 := bpow_gt_0 radix2 400).
      assert (E401 : bpow radix2 401 = 2 * lim) by (change 401%Z with (1 + 400)%Z; rewrite bpow_plus; reflexivity).
      assert (L401 : bpow radix2 401 <= huge) by (apply bp_le; lia).
      (* value - previous mean *)
      destruct (dsub_R v pm Vf Mf) as [D1 D2]; [apply Rabs_le; lra|]. set (d := dsub v pm) in *.
      assert (Dr : Rabs (B2R d) <= bpow radix2 401).
      { rewrite D1. apply abs_round_le_generic; [exact valid64|apply valid_rnd_N|apply format_bpow; lia|]. apply Rabs_le; lra. }
      (* times the weight *)
      destruct O1 as [O1 O2].
      destruct (dmul_R (dofZ 1) d O1 D2) as [M1 M2]; [rewrite O2, Rmult_1_l; lra|].
      rewrite O2, Rmult_1_l, (rnd_id (B2R d)) in M1 by apply generic_format_B2R. set (wd := dmul (dofZ 1) d) in *.
      (* over the weight *)
      assert (Qr : Rabs (B2R d / IZR N) <= bpow radix2 401).
      { unfold Rdiv. rewrite Rabs_mult, (Rabs_pos_eq (/ IZR N)) by (apply Rlt_le, Rinv_0_lt_compat; lra).
        apply Rle_trans with (Rabs (B2R d) * 1); [|lra]. apply Rmult_le_compat_l; [apply Rabs_pos|].
        rewrite <- Rinv_1. apply Rinv_le_contravar; lra. }
      destruct (ddiv_R wd (dofZ N) M2) as [Q1 Q2]; [rewrite NN1; lra|rewrite M1, NN1; lra|].
      rewrite M1, NN1 in Q1. set (q := ddiv wd (dofZ N)) in *.
      assert (Qb : Rabs (B2R q) <= bpow radix2 401).
      { rewrite Q1. apply abs_round_le_generic; [exact valid64|apply valid_rnd_N|apply format_bpow; lia|exact Qr]. }
      (* the mean *)
      assert (L402 : bpow radix2 402 <= huge) by (apply bp_le; lia).
      assert (E402 : bpow radix2 402 = 2 * bpow radix2 401) by (change 402%Z with (1 + 401)%Z; rewrite bpow_plus; reflexivity).
      destruct (dadd_R pm q Mf Q2) as [A1 A2].
      { apply Rabs_le. apply Rabs_le_inv in Qb. lra. }
      set (m := dadd pm q) in *. rewrite Q1, D1 in A1.
      pose proof (mean_between pm v (IZR N) N2r) as B. cbn zeta in B. rewrite <- A1 in B.
      split; [split; [exact A2|]; destruct B; lra|].
      (* the variance *)
      destruct (dsub_R v m Vf A2) as [T1 T2]; [apply Rabs_le; destruct B; lra|]. set (e := dsub v m) in *.
      assert (Tr : Rabs (B2R e) <= bpow radix2 401).
      { rewrite T1. apply abs_round_le_generic; [exact valid64|apply valid_rnd_N|apply format_bpow; lia|]. apply Rabs_le; destruct B; lra. }
      assert (De : 0 <= B2R wd * B2R e).
      { rewrite M1, D1, T1. destruct B as [B|B].
        - apply Rmult_le_pos; rewrite <- rnd_0; apply rnd_le; lra.
        - assert (rnd64 (B2R v - B2R pm) <= 0) by (rewrite <- rnd_0; apply rnd_le; lra).
          assert (rnd64 (B2R v - B2R m) <= 0) by (rewrite <- rnd_0; apply rnd_le; lra). nra. }
      assert (Pb : Rabs (B2R wd * B2R e) <= bpow radix2 805).
      { rewrite Rabs_mult, M1. apply Rle_trans with (bpow radix2 401 * bpow radix2 401).
        - apply Rmult_le_compat; auto using Rabs_pos.
        - rewrite <- bpow_plus. apply bp_le. lia. }
      assert (L805 : bpow radix2 805 <= huge) by (apply bp_le; lia).
      destruct (dmul_R wd e M2 T2) as [X1 X2]; [lra|]. set (p := dmul wd e) in *.
      assert (Pr : 0 <= B2R p <= bpow radix2 805).
      { rewrite X1. split; [rewrite <- rnd_0; now apply rnd_le|].
        rewrite <- (rnd_id (bpow radix2 805)) by (apply format_bpow; lia). apply rnd_le. apply Rabs_le_inv in Pb. lra. }
      assert (Sn : B2R (variance_sum dops g0) + B2R p <= IZR N * bpow radix2 805).
      { unfold N. rewrite plus_IZR. lra. }
      assert (Hg : IZR N * bpow radix2 805 <= huge).
      { apply Rle_trans with (bpow radix2 53 * bpow radix2 805).
        - apply Rmult_le_compat_r; [lra|]. change (bpow radix2 53) with (IZR (2 ^ 53)). apply IZR_le. unfold N. lia.
        - rewrite <- bpow_plus. apply bp_le. lia. }
      destruct (dadd_R (variance_sum dops g0) p Sf X2) as [Y1 Y2]; [rewrite Rabs_pos_eq; lra|].
      split; [exact Y2|]. rewrite Y1. split; [rewrite <- rnd_0; apply rnd_le; lra|].
      rewrite <- (rnd_id (IZR N * bpow radix2 805)); [now apply rnd_le|]. apply format_scaled; [|lia]. unfold N. lia.
  Qed.
End Ieee.
