(** * Proofs for the Mondrian forest: exact predictions for any point *)
From Coq Require Import ZArith List Bool Lia Reals Lra Permutation.
From Flocq Require Import Core.
From Verif Require Import CppBase CppFacts NumOps Utils_Model Utils_Proofs MCNN_Num.
From Verif Require Import Mondrian_Model Mondrian_Spec Mondrian_Smooth_Spec Mondrian_Proofs Mondrian_Train Mondrian_Forest Mondrian_Num Mondrian_Predict.
Import ListNotations.
Local Open Scope Z_scope.

(** ** Exact means of any point *)
Section Smooth.
  Variable fc lc : Z.
  Variable lifetime discount_factor : R.
  Hypothesis Hlc : 1 <= lc.
  Hypothesis Hfc : 0 <= fc.
  Local Notation tree_at := (tree_at rops fc lc lifetime).
  Local Notation points := (points rops).
  Local Notation ids := (ids rops).
  Local Notation top := (top rops).
  Variable x : list R.
  Hypothesis Hx : length x = Z.to_nat fc.
  Local Notation walk := (predict_from rops exp fc lc discount_factor).
  Lemma max0_Rmax : forall y, @eq R (max0 rops y) (Rmax 0 y).
  Proof.
    intros y. unfold max0. cbn [nlt nofZ rops]. destruct (Rlt_bool_spec 0 y); [rewrite Rmax_right; lra|rewrite Rmax_left; lra].
  Qed.
  Lemma fold_sum : forall l a, fold_left Rplus l a = (a + fold_right Rplus 0 l)%R.
  Proof. induction l as [|y l IH]; intros a; cbn; [lra|]. rewrite IH. lra. Qed.
  Lemma outside_ok : forall f i n pts, rd (nodes rops f) i = Ok n -> bounding rops fc pts (bound_lower rops n) (bound_upper rops n) ->
    compute_eta rops fc n x = Ok (outside fc f i x) /\ (0 <= outside fc f i x)%R.
  Proof.
    intros f i n pts Hn B. rewrite (eta_ok rops fc Hfc x Hx n pts B). unfold outside. rewrite Hn. split.
    - f_equal. pose proof (fold_sum (map (eta_of rops x n) (zrange fc)) 0) as F. change (num rops) with R in *. etransitivity; [exact F|]. rewrite Rplus_0_l. f_equal.
      unfold zrange. rewrite map_map. apply map_ext_in. intros d Hd. apply in_seq in Hd. unfold eta_of. cbn [nadd rops]. rewrite !max0_Rmax. cbn [nsub rops]. unfold at_. rewrite Nat2Z.id.
      assert (V : forall l : list (option R), val rops l (Z.of_nat d) = side (nth d l None)).
      { intros l. unfold val. change (num rops) with R. destruct (rd l (Z.of_nat d)) as [o|u| |] eqn:E.
        - apply rd_ok_iff in E. destruct E as [_ E]. rewrite Nat2Z.id in E. rewrite (nth_error_nth _ _ None E). destruct o; reflexivity.
        - rewrite nth_overflow; [reflexivity|]. destruct (Nat.lt_ge_cases d (length l)) as [C|C]; [|exact C]. destruct (rd_in_bounds _ l (Z.of_nat d)) as [o Ho]; [lia|congruence].
        - rewrite nth_overflow; [reflexivity|]. destruct (Nat.lt_ge_cases d (length l)) as [C|C]; [|exact C]. destruct (rd_in_bounds _ l (Z.of_nat d)) as [o Ho]; [lia|congruence].
        - rewrite nth_overflow; [reflexivity|]. destruct (Nat.lt_ge_cases d (length l)) as [C|C]; [|exact C]. destruct (rd_in_bounds _ l (Z.of_nat d)) as [o Ho]; [lia|congruence]. }
      pose proof (V (bound_upper rops n)) as V1. pose proof (V (bound_lower rops n)) as V2. change (num rops) with R in *. rewrite V1, V2. reflexivity.
    - generalize (seq 0 (Z.to_nat fc)). induction l as [|d l IH]; cbn [map fold_right]; [lra|].
      pose proof (Rmax_l 0 (nth d x 0 - side (nth d (bound_upper rops n) None))%R). pose proof (Rmax_l 0 (side (nth d (bound_lower rops n) None) - nth d x 0)%R). change (num rops) with R in *. lra.
  Qed.
  Lemma at_map : forall (g : Z -> R) l, 0 <= l < lc -> nth (Z.to_nat l) (map g (labels lc)) 0%R = g l.
  Proof.
    intros g l Hl. pose proof (rd_zrange _ g lc l Hl) as W. apply rd_ok_iff in W. destruct W as [_ W]. now apply nth_error_nth with (d := 0%R) in W.
  Qed.
  Lemma smooth_real : forall n cs eta t sep m s, length (counters rops n) = Z.to_nat lc -> length m = Z.to_nat lc -> length s = Z.to_nat lc ->
    (forall i, 0 <= i < lc -> cnt rops n i = cs i) -> (forall i, 0 <= i < lc -> 0 <= cs i) -> (0 <= eta)%R -> (0 <= t)%R ->
    smooth rops exp lc discount_factor n eta t sep (1 - exp (- t * eta))%R m s =
    Ok (map (fun l => (nth (Z.to_nat l) s 0 + sep * (1 - exp (- t * eta)) * stray lc discount_factor cs eta t m l)%R) (labels lc)).
  Proof.
    intros n cs eta t sep m s Lc Lm Ls E P He Ht. unfold smooth. cbn [nlt nofZ rops]. destruct (Rlt_bool_spec 0 (1 - exp (- t * eta))) as [Br|Br].
    - rewrite build_sum with (add := nadd rops) (g := fun l => nofZ rops (Z.min (cnt rops n l) 1)); [|intros i l s0 Hi; rewrite (rd_cnt rops lc Hlc) by (auto; lia); reflexivity|lia]. cbn [bind].
      change (labels lc) with (zrange lc). apply fill1; [exact Ls| |lia]. intros i l Hi Ll El.
      rewrite rd_zrange by lia. cbn [bind]. pose proof (rd_at rops m i) as A1. pose proof (rd_at rops s i) as A2. change (num rops) with R in *.
      rewrite A1 by lia. cbn [bind]. rewrite El, A2 by lia. cbn [bind].
      rewrite wr_ok by lia. eexists. split; [reflexivity|]. rewrite upd_length. split; [exact Ll|]. split.
      + rewrite rd_upd by lia. rewrite Z.eqb_refl. f_equal. unfold stray. cbn [nadd nsub nmul ndiv nopp nofZ rops num]. unfold expm1. cbn [nsub nofZ rops].
        pose proof (fold_IZR fc (x, 0) Hx (fun i => Z.min (cnt rops n i) 1) (zrange lc) 0) as F2. change (num rops) with R in *. rewrite F2, Z.add_0_l.
        assert (K : forall j, 0 <= j < lc -> Z.min (cnt rops n j) 1 = known cs j).
        { intros j Hj. rewrite E by lia. unfold known. specialize (P j Hj). destruct (Z.ltb_spec 0 (cs j)); lia. }
        rewrite (K i) by lia.
        assert (K2 : map (fun i => Z.min (cnt rops n i) 1) (zrange lc) = map (known cs) (labels lc)).
        { change (labels lc) with (zrange lc). apply map_ext_in. intros j Hj. unfold zrange in Hj. apply in_map_iff in Hj. destruct Hj as [q [<- Hq]]. apply in_seq in Hq. apply K. lia. }
        rewrite K2. unfold at_. cbn [nofZ rops]. unfold Rdiv. rewrite Rmult_1_l.
        replace (- (exp (- (eta + discount_factor) * t) - 1))%R with (1 - exp (- (eta + discount_factor) * t))%R by ring.
        replace (- (exp (- (eta * t)) - 1))%R with (1 - exp (- (eta * t)))%R by ring. match goal with |- @eq _ ?a ?b => change (@eq R a b) end. apply (f_equal2 Rplus); [reflexivity|]. apply (f_equal2 Rmult); [reflexivity|]. apply Rmult_comm.
      + intros j Hj. destruct (Z.ltb_spec j 0); [now rewrite !rd_oob by lia|]. rewrite rd_upd by lia. now rewrite (proj2 (Z.eqb_neq i j)) by lia.
    - assert (Z0 : (1 - exp (- t * eta) = 0)%R).
      { assert (- t * eta <= 0)%R by nra. assert (exp (- t * eta) <= 1)%R; [|lra]. rewrite <- exp_0. destruct (Rle_lt_or_eq_dec _ _ H) as [C| ->]; [|lra]. left. now apply exp_increasing. }
      f_equal. rewrite Z0. transitivity (map (fun l => nth (Z.to_nat l) s 0%R) (zrange lc)); [now apply zsum_range|]. apply map_ext. intros l. cbn [num rops]. match goal with |- @eq _ ?a ?b => change (@eq R a b) end. rewrite Rmult_0_r, Rmult_0_l, Rplus_0_r. reflexivity.
  Qed.
  Lemma walk_smooth : forall t f q pt steps sep m s, (length (ids t) <= steps)%nat -> (forall j, In j (ids t) -> 0 <= j) ->
    tree_at f q pt t -> (0 <= pt)%R -> under rops f q pt -> counted rops lc f t -> length m = Z.to_nat lc -> length s = Z.to_nat lc ->
    walk steps f (top t) x sep m s =
    Ok (map (fun l => (nth (Z.to_nat l) s 0 + sep * nth (Z.to_nat l) (smoothed_mean fc lc discount_factor f pt m t x) 0)%R) (labels lc)).
  Proof.
    induction t as [i pts|i d v l IHl r IHr]; intros f q pt steps sep m s Hs Hi T Hpt U C Lm Ls; (destruct steps as [|steps]; [cbn in Hs; lia|]);
      cbn [Mondrian_Spec.top] in *; cbn [predict_from]; (rewrite (proj2 (Z.eqb_neq i (-1))) by (specialize (Hi i (or_introl eq_refl)); lia)).
    - destruct T as [n [T1 [T2 [T3 [T4 [T5 [T6 [T7 [_ [_ [_ T11]]]]]]]]]]]. cbn [Mondrian_Spec.top] in T1. rewrite T1. cbn [bind].
      destruct (outside_ok f i n pts T1 T3) as [E0 P0]. rewrite E0. cbn [bind]. set (eta := outside fc f i x) in *.
      assert (Tn : (0 <= tau rops n)%R) by (cbn [nle rops] in T5; apply Rle_iff in T5; change (num rops) with R in *; lra).
      assert (Br : nsub rops (nofZ rops 1) (exp (nmul rops (nopp rops (nsub rops (tau rops n) (nofZ rops 0))) eta)) = (1 - exp (- tau rops n * eta))%R).
      { cbn [nsub nmul nopp nofZ rops num]. now rewrite Rminus_0_r. }
      rewrite Br. replace (nsub rops (tau rops n) (nofZ rops 0)) with (tau rops n) by (cbn [nsub nofZ rops]; symmetry; apply Rminus_0_r).
      assert (Cs : forall a, 0 <= a < lc -> cnt rops n a = count rops a pts) by (intros a Ha; specialize (T11 a Ha); rewrite (rd_cnt rops lc Hlc n a T4 Ha) in T11; now injection T11).
      rewrite (smooth_real n (fun l => count rops l pts)) by (auto; intros; apply count_pos). cbn [bind].
      erewrite posterior_ok by (eauto; apply under_time; rewrite T2; exact U). cbn [bind]. unfold is_leaf. rewrite T7. cbn [Z.eqb Pos.eqb].
      rewrite (final_ok rops lc Hlc); [|change (labels lc) with (zrange lc); now rewrite map_length, zrange_length|rewrite map_length, zrange_length; reflexivity].
      f_equal. change (zrange lc) with (labels lc). apply map_ext_in. intros a Ha. unfold labels in Ha. apply in_map_iff in Ha. destruct Ha as [j [<- Hj]]. apply in_seq in Hj.
      unfold at_. change (nofZ rops 0) with 0%R. change (num rops) with R in *. rewrite !at_map by lia. cbn [nadd nmul nsub nofZ rops num smoothed_mean]. rewrite !at_map by lia. fold eta.
      assert (Tm : time f i = tau rops n) by (unfold time; now rewrite T1). rewrite Tm.
      rewrite (new_mean_real fc lc Hlc (x, 0) Hx _ n m (fun l => count rops l pts)); [|exact Cs|intros b Hb; apply count_pos|lia]. ring.
    - destruct T as [n [T1 [T2 [T3 [T4 [T5 [T6 [T7 [T8 [T9 [T10 [T11 [T12 [T13 T14]]]]]]]]]]]]]]. cbn [Mondrian_Spec.top] in T1. rewrite T1. cbn [bind].
      destruct (outside_ok f i n _ T1 T3) as [E0 P0]. rewrite E0. cbn [bind]. set (eta := outside fc f i x) in *.
      assert (Tn : (0 <= tau rops n)%R) by (cbn [nle rops] in T5; apply Rle_iff in T5; change (num rops) with R in *; lra).
      assert (Br : nsub rops (nofZ rops 1) (exp (nmul rops (nopp rops (nsub rops (tau rops n) (nofZ rops 0))) eta)) = (1 - exp (- tau rops n * eta))%R).
      { cbn [nsub nmul nopp nofZ rops num]. now rewrite Rminus_0_r. }
      rewrite Br. replace (nsub rops (tau rops n) (nofZ rops 0)) with (tau rops n) by (cbn [nsub nofZ rops]; symmetry; apply Rminus_0_r).
      destruct C as [[n' [C1 C2]] [C3 C4]]. rewrite T1 in C1. injection C1 as <-.
      set (cs := fun l0 => present rops l0 (points l) + present rops l0 (points r)).
      assert (Cs : forall a, 0 <= a < lc -> cnt rops n a = cs a) by (intros a Ha; specialize (C2 a Ha); rewrite (rd_cnt rops lc Hlc n a T4 Ha) in C2; now injection C2).
      assert (Ps : forall a, 0 <= a < lc -> 0 <= cs a) by (intros a Ha; unfold cs, present; destruct (0 <? _), (0 <? _); lia).
      rewrite (smooth_real n cs) by auto. cbn [bind].
      erewrite posterior_ok by (eauto; apply under_time; rewrite T2; exact U). cbn [bind]. unfold is_leaf. rewrite T7. rewrite (proj2 (Z.eqb_neq d (-1))) by lia.
      rewrite (rd_at rops x d) by (change (num rops) with R; lia). cbn [bind]. rewrite T9. cbn [bind]. rewrite T11, T12. cbn in Hs. rewrite app_length in Hs.
      assert (U' : under rops f i (tau rops n)) by (right; split; [apply Hi; now left|]; eauto).
      assert (Em : map (new_mean rops lc (exp (nmul rops discount_factor (nsub rops (tau rops n) pt))) n m) (zrange lc) =
        map (mean lc cs (exp (discount_factor * (time f i - pt))) m) (labels lc)).
      { change (labels lc) with (zrange lc). apply map_ext_in. intros a Ha. unfold zrange in Ha. apply in_map_iff in Ha. destruct Ha as [j [<- Hj]]. apply in_seq in Hj.
        unfold time. rewrite T1. apply (new_mean_real fc lc Hlc (x, 0) Hx); try lia; intros a Ha; auto. }
      rewrite Em. assert (Tm : time f i = tau rops n) by (unfold time; now rewrite T1).
      cbn [smoothed_mean]. fold eta. fold cs. rewrite Tm. set (m' := map (mean lc cs _ m) (labels lc)).
      change (nth (Z.to_nat d) x 0%R) with (at_ rops x d).
      assert (Lm' : length m' = Z.to_nat lc) by (unfold m'; change (labels lc) with (zrange lc); now rewrite map_length, zrange_length).
      assert (Fin : forall w : list R, forall l0, 0 <= l0 < lc ->
         (nth (Z.to_nat l0) (map (fun l1 => nth (Z.to_nat l1) s 0 + sep * (1 - exp (- tau rops n * eta)) * stray lc discount_factor cs eta (tau rops n) m l1) (labels lc)) 0 +
          nmul rops sep (nsub rops (nofZ rops 1) (1 - exp (- tau rops n * eta))) * nth (Z.to_nat l0) w 0 =
          nth (Z.to_nat l0) s 0 + sep * nth (Z.to_nat l0) (map (fun l1 => (1 - exp (- tau rops n * eta)) * stray lc discount_factor cs eta (tau rops n) m l1 + exp (- tau rops n * eta) * nth (Z.to_nat l1) w 0) (labels lc)) 0)%R).
      { intros w l0 Hl0. rewrite !at_map by exact Hl0. cbn [nmul nsub nofZ rops]. ring. }
      cbn [nle rops]. destruct (Rle_dec (at_ rops x d) v) as [Le|Le].
      + rewrite (Rle_bool_true _ _ Le). rewrite (IHl f i (tau rops n)); auto; try lia; [|intros j Hj; apply Hi; right; apply in_or_app; auto|change (labels lc) with (zrange lc); now rewrite map_length, zrange_length].
        f_equal. apply map_ext_in. intros a Ha. unfold labels in Ha. apply in_map_iff in Ha. destruct Ha as [j [<- Hj]]. apply in_seq in Hj. apply Fin. lia.
      + rewrite Rle_bool_false by (apply Rnot_le_lt; exact Le). rewrite (IHr f i (tau rops n)); auto; try lia; [|intros j Hj; apply Hi; right; apply in_or_app; auto|change (labels lc) with (zrange lc); now rewrite map_length, zrange_length].
        f_equal. apply map_ext_in. intros a Ha. unfold labels in Ha. apply in_map_iff in Ha. destruct Ha as [j [<- Hj]]. apply in_seq in Hj. apply Fin. lia.
  Qed.
End Smooth.
