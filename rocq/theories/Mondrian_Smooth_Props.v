(** * Properties of the Mondrian forest (src/mondrian.hpp): predictions for any point, in exact arithmetic *)
From Coq Require Import ZArith List Bool Lia Reals Lra Permutation.
From Flocq Require Import Core.
From Verif Require Import CppBase CppFacts NumOps Utils_Model Utils_Proofs MCNN_Num.
From Verif Require Import Mondrian_Model Mondrian_Spec Mondrian_Smooth_Spec Mondrian_Proofs Mondrian_Train Mondrian_Forest Mondrian_Num Mondrian_Predict Mondrian_Smooth_Proofs
  Mondrian_Reach Mondrian_Runs Mondrian_Props.
Import ListNotations.
Local Open Scope Z_scope.

Section Exact.
  Variable log_ : R -> R.
  Variable rnd : nat -> R.
  Variable tc fc lc mn : Z.
  Variable lifetime base_measure discount_factor : R.
  Hypothesis Sz : sizes tc fc lc mn.
  Hypothesis Hlife : (0 <= lifetime)%R.
  Hypothesis Hdraw : forall k, rdraw (rnd k).
  Local Notation reached := (reached rops exp log_ rnd tc fc lc mn lifetime base_measure discount_factor rfine).
  Local Notation trees := (trees rops tc fc lc mn lifetime).
  Local Notation predict := (predict rops exp tc fc lc mn base_measure discount_factor).
  Local Notation smoothed_mean f' x t := (smoothed_mean fc lc discount_factor f' 0 (repeat base_measure (Z.to_nat lc)) t x).

  Let L : laws rops (fun x => x) (fun _ => True) rfine rdraw fc.
  Proof. apply laws_rops. apply Sz. Qed.
  Let Hlife' : nle rops (nofZ rops 0) lifetime = true.
  Proof. now apply Rle_iff. Qed.
  Let leaf_sep : forall a pt, separated rops (Leaf a [pt]).
  Proof. intros. exact I. Qed.
  Let reach := reached_state rops exp log_ rnd tc fc lc mn lifetime base_measure discount_factor (fun x => x) (fun _ => True) rfine rdraw L Hdraw Sz Hlife'
    (separated rops) leaf_sep grows_separated.

  (** *** C84: the prediction for any point is the first label with the greatest mean *)
  Theorem mondrian_predict_exact : forall f h x sc, reached f h -> h <> [] -> Z.of_nat (length h) <= 2147483647 -> Z.of_nat (length x) = fc ->
    exists f' b ts lost, predict f x sc = Ok (f', b, sc) /\ trees f' h ts lost /\ 0 <= b < lc /\
      let ms := map (fun t => smoothed_mean f' x t) ts in
      (forall l, 0 <= l < lc -> (average ms l <= average ms b)%R) /\ (forall l, 0 <= l < b -> (average ms l < average ms b)%R).
  Proof.
    intros f h x sc Rc Nh Hn Hx. destruct (reach f h Rc Hn) as [ts [lost [S Lt]]]. specialize (Lt Nh).
    pose proof S as [H1 [H2 H3]]. pose proof Sz as [S1 [S2 S3]].
    assert (Lx : length x = Z.to_nat fc) by (rewrite <- Hx; symmetry; apply Nat2Z.id).
    destruct (predict_ok rops exp tc fc lc mn lifetime base_measure discount_factor ltac:(lia) ltac:(lia) ltac:(lia) x Lx f ts lost sc H1)
      as [f' [m [b [E [_ [H1' [_ [C [M [Lm [Em Hb]]]]]]]]]]].
    exists f', b, ts, lost. split; [exact E|]. split; [apply (state_trees rops tc fc lc mn lifetime (separated rops)); auto; split; auto|]. split; [exact Hb|].
    intros ms.
    rewrite (means_ok rops exp tc fc lc mn lifetime base_measure discount_factor ltac:(lia) ltac:(lia) ltac:(lia) x Lx f' ts lost H1') in M. injection M as M.
    assert (Tm : forall k t, nth_error ts k = Some t -> forall l, 0 <= l < lc ->
      at_ rops (tree_means rops exp fc lc mn base_measure discount_factor x f' (Z.of_nat k)) l = nth (Z.to_nat l) (smoothed_mean f' x t) 0%R).
    { intros k t Hk l Hl. pose proof H1' as [_ [_ [G3 [_ [G5 _]]]]]. destruct (G3 k t Hk) as [G6 G7]. 
      assert (Sub : forall j, In j (ids rops t) -> In j (all_ids rops ts)).
      { intros j Hj. apply in_concat. exists (ids rops t). split; [apply in_map; now apply nth_error_In with k|exact Hj]. }
      assert (ND : NoDup (all_ids rops ts)) by (destruct G5 as [_ [N _]]; now apply nodup_app in N).
      assert (Lt' : (length (ids rops t) <= Z.to_nat mn)%nat).
      { apply Nat.le_trans with (length (all_ids rops ts)); [|now apply (pool_len _ _ _ _ _ G5)].
        apply NoDup_incl_length; [now apply tree_nodup with ts k|exact Sub]. }
      rewrite Forall_forall in C.
      pose proof (walk_smooth fc lc lifetime discount_factor ltac:(lia) ltac:(lia) x Lx t f' (-1) 0%R (Datatypes.S (Datatypes.S (Z.to_nat mn))) 1%R (repeat base_measure (Z.to_nat lc)) (repeat 0%R (Z.to_nat lc))) as W.
      unfold tree_means, predict_tree. rewrite G6. cbn [bind]. change (nofZ rops 1) with 1%R. change (nofZ rops 0) with 0%R. change (num rops) with R in *. rewrite W; clear W.
      - unfold at_. change (nofZ rops 0) with 0%R. pose proof (at_map lc (fun l => (nth (Z.to_nat l) (repeat 0%R (Z.to_nat lc)) 0 + 1 * nth (Z.to_nat l) (smoothed_mean f' x t) 0)%R) l Hl) as A.
        etransitivity; [exact A|]. rewrite nth_repeat, Rplus_0_l, Rmult_1_l. reflexivity.
      - lia.
      - intros j Hj. pose proof (pool_in _ _ _ _ _ _ G5 (Sub j Hj)). lia.
      - exact G7.
      - lra.
      - left. auto.
      - apply C. now apply nth_error_In with k.
      - now rewrite repeat_length.
      - now rewrite repeat_length. }
    assert (Av : forall l, 0 <= l < lc -> nth_error m (Z.to_nat l) = Some (average ms l)).
    { intros l Hl. rewrite <- M.
      pose proof (rd_zrange _ (fun l => ndiv rops (fold_left (nadd rops) (map (fun k => at_ rops (tree_means rops exp fc lc mn base_measure discount_factor x f' k) l) (zrange tc)) (nofZ rops 0)) (nofZ rops tc)) lc l Hl) as W.
      apply rd_ok_iff in W. destruct W as [_ W]. etransitivity; [exact W|]. apply f_equal. unfold average. cbn [ndiv nadd nofZ rops num].
      assert (Ls : length ms = length ts) by (unfold ms; apply map_length). rewrite Ls, Lt. f_equal.
      pose proof (fold_rsum (map (fun k => at_ rops (tree_means rops exp fc lc mn base_measure discount_factor x f' k) l) (zrange tc)) 0) as F.
      change (num rops) with R in *. rewrite F, Rplus_0_l. f_equal. unfold ms. rewrite map_map.
      apply nth_error_ext. intros k. rewrite !nth_error_map. destruct (Nat.lt_ge_cases k (length ts)) as [Ck|Ck].
      - destruct (nth_error ts k) as [t|] eqn:Hk; [|apply nth_error_None in Hk; lia].
        pose proof (rd_zrange _ (fun k => k) tc (Z.of_nat k) ltac:(lia)) as W'. rewrite map_id in W'. apply rd_ok_iff in W'. destruct W' as [_ W']. rewrite Nat2Z.id in W'.
        rewrite W'. cbn [option_map]. rewrite (Tm k t Hk l Hl). reflexivity.
      - rewrite !(proj2 (nth_error_None _ _)); [reflexivity|lia|rewrite zrange_length; lia]. }
    destruct (index_max_ok R (fun a b => Rlt_bool b a) (fun y => y) m) as [b' [v [B1 [B2 [B3 B4]]]]].
    { intros y z _ _. apply Rlt_iff. }
    { intros ->. cbn in Lm. lia. }
    assert (Eb : b = Z.of_nat b').
    { change (num rops) with R in *. rewrite Lm, Z2Nat.id in B1 by lia. change (index_max (fun a b => nlt rops b a) m lc) with (index_max (fun a b => Rlt_bool b a) m lc) in Em. congruence. }
    pose proof (Av b Hb) as Vb. rewrite Eb, Nat2Z.id in Vb. rewrite <- Eb in Vb. assert (Ev : v = average ms b) by (assert (X : Some v = Some (average ms b)) by (etransitivity; [symmetry; exact B2|exact Vb]); now injection X). subst v.
    split; intros l Hl.
    - apply (B3 (Z.to_nat l)). apply Av. lia.
    - apply (B4 (Z.to_nat l)); [lia|]. apply Av. lia.
  Qed.

  (** A forest that has seen one point: all its trees are one leaf. *)
  Lemma one_point : forall f x label ts lost t, trees f [(x, label)] ts lost -> In t ts -> exists i n, t = Leaf i [(x, label)] /\ rd (nodes rops f) i = Ok n /\
    tau rops n = lifetime /\ bounding rops fc [(x, label)] (bound_lower rops n) (bound_upper rops n).
  Proof.
    intros f x label ts lost t [Lt [T _]] It. apply In_nth_error in It. destruct It as [k Hk]. destruct (T k t Hk) as [_ [T1 T2]].
    destruct t as [i pts|i d v a a'].
    - destruct T1 as [n [T1 [_ [T3 [_ [_ [_ [_ [_ [_ [T7 _]]]]]]]]]]]. cbn [top points] in *. apply Permutation_sym, Permutation_length_1_inv in T2. subst pts. exists i, n. auto.
    - exfalso. pose proof Sz as [_ [Sf _]].
      pose proof (tree_leaves rops fc lc lifetime _ _ _ _ ltac:(lia) T1) as C. rewrite (Permutation_length T2) in C. cbn [leaf_ids length] in C. rewrite app_length in C.
      pose proof (tree_size rops a). pose proof (tree_size rops a'). lia.
  Qed.
  (** Distance between two points. *)
  Definition away (x y : list R) : R := fold_right Rplus 0%R (map (fun d => Rabs (nth d y 0 - nth d x 0)%R) (seq 0 (Z.to_nat fc))).
  Lemma one_outside : forall f i n x label y, rd (nodes rops f) i = Ok n -> bounding rops fc [(x, label)] (bound_lower rops n) (bound_upper rops n) ->
    outside fc f i y = away x y.
  Proof.
    intros f i n x label y Hn [B1 [B2 B3]]. unfold outside, away. rewrite Hn. f_equal. apply map_ext_in. intros d Hd. apply in_seq in Hd.
    destruct (B3 (Z.of_nat d) ltac:(lia)) as [p [q [P [Q [B4 [B5 _]]]]]]. destruct P as [<-|[]]. destruct Q as [<-|[]].
    apply rd_ok_iff in B4, B5. rewrite Nat2Z.id in B4, B5. destruct B4 as [_ B4]. destruct B5 as [_ B5].
    apply nth_error_nth with (d := None) in B4, B5. unfold coord in B4, B5. cbn [fst] in B4, B5. rewrite Nat2Z.id in B4, B5. change (num rops) with R in *. change (nofZ rops 0) with 0%R in *. rewrite B4, B5. cbn [side].
    unfold Rabs, Rmax. destruct (Rle_dec 0 (nth d y 0 - nth d x 0)%R), (Rle_dec 0 (nth d x 0 - nth d y 0)%R), (Rcase_abs (nth d y 0 - nth d x 0)%R); lra.
  Qed.
  (** By how much the mean of the only known label exceeds that of the other labels, at distance [eta]. *)
  Definition lead (eta : R) : R :=
    ((1 - exp (- lifetime * eta)) * (1 - eta / (eta + discount_factor) * (1 - exp (- (eta + discount_factor) * lifetime)) / (1 - exp (- (eta * lifetime))))
     + exp (- lifetime * eta) * (1 - exp (discount_factor * lifetime)) * (1 - base_measure))%R.
  Lemma one_mean : forall f x label ts lost y l, trees f [(x, label)] ts lost -> 0 <= label < lc -> 0 <= l < lc -> 1 <= tc ->
    average (map (fun t => smoothed_mean f y t) ts) l = (if Z.eqb l label then base_measure + lead (away x y) else base_measure)%R.
  Proof.
    intros f x label ts lost y l T Hl Hll Ht.
    assert (Cn : forall l', count rops l' [(x, label)] = if l' =? label then 1 else 0).
    { intros l'. unfold count, with_label. cbn [filter snd]. rewrite Z.eqb_sym. now destruct (l' =? label). }
    assert (Zs : forall h : Z -> Z, (forall l', h l' = if l' =? label then 1 else 0) -> zsum (map h (labels lc)) = 1).
    { intros h Hh. rewrite (map_ext _ _ Hh). unfold labels. rewrite map_map. clear - Hl. unfold zsum.
      assert (G : forall n s, fold_right Z.add 0 (map (fun j => if Z.of_nat j =? label then 1 else 0) (seq s n)) = if (Z.of_nat s <=? label) && (label <? Z.of_nat (s + n)) then 1 else 0).
      { induction n as [|n IH]; intros s; cbn [seq map fold_right].
        - destruct (Z.leb_spec (Z.of_nat s) label), (Z.ltb_spec label (Z.of_nat (s + 0))); cbn [andb]; lia.
        - rewrite IH. destruct (Z.eqb_spec (Z.of_nat s) label), (Z.leb_spec (Z.of_nat (Datatypes.S s)) label), (Z.leb_spec (Z.of_nat s) label), (Z.ltb_spec label (Z.of_nat (Datatypes.S s + n))), (Z.ltb_spec label (Z.of_nat (s + Datatypes.S n))); cbn [andb]; lia. }
      rewrite G. destruct (Z.leb_spec (Z.of_nat 0) label), (Z.ltb_spec label (Z.of_nat (0 + Z.to_nat lc))); cbn [andb]; lia. }
    assert (A : forall t, In t ts -> nth (Z.to_nat l) (smoothed_mean f y t) 0%R = (if Z.eqb l label then base_measure + lead (away x y) else base_measure)%R).
    { intros t It. destruct (one_point f x label ts lost t T It) as [i [n [-> [Hn [Ht' B]]]]]. cbn [Mondrian_Smooth_Spec.smoothed_mean]. rewrite !at_map by exact Hll.
      rewrite (one_outside f i n x label y Hn B). unfold time. rewrite Hn, Ht', Rminus_0_r. unfold mean, stray.
      assert (Kn : forall l', known (fun l => count rops l [(x, label)]) l' = if l' =? label then 1 else 0) by (intros l'; unfold known; rewrite Cn; now destruct (l' =? label)).
      rewrite (Zs _ Kn), (Zs (fun l' => count rops l' [(x, label)]) Cn), (Zs (fun l' => if 0 <? count rops l' [(x, label)] then 1 else 0)) by (intros l'; rewrite Cn; now destruct (l' =? label)).
      rewrite Kn, Cn, !nth_const by lia. unfold lead. destruct (Z.eqb_spec l label) as [->|N]; cbn [Z.ltb Z.compare]; unfold Rdiv; rewrite !Rinv_1; ring. }
    unfold average. rewrite map_map. rewrite (map_ext_in _ _ _ A). rewrite map_length. destruct T as [Lt _].
    assert (Sm : forall (g : R) (s : list (mtree rops)), fold_right Rplus 0%R (map (fun _ => g) s) = (IZR (Z.of_nat (length s)) * g)%R).
    { intros g. induction s as [|t s IH]; [cbn; lra|]. cbn [map fold_right length]. rewrite IH, Nat2Z.inj_succ, succ_IZR. ring. }
    rewrite Sm, Lt. field. apply not_0_IZR. lia.
  Qed.
  (** *** C85: after one point, the prediction for [y] depends on the sign of [lead] *)
  Lemma one_label : forall f x label y sc, reached f [(x, label)] -> 1 <= tc -> 2 <= lc -> 0 <= label < lc -> Z.of_nat (length y) = fc ->
    exists f' b, predict f y sc = Ok (f', b, sc) /\ 0 <= b < lc /\ ((0 < lead (away x y))%R -> b = label) /\
      ((lead (away x y) < 0)%R -> b <> label) /\ ((lead (away x y) = 0)%R -> b = 0).
  Proof.
    intros f x label y sc Rc Ht Hlc Hl Hy.
    destruct (mondrian_predict_exact f [(x, label)] y sc Rc ltac:(discriminate) ltac:(cbn; lia) Hy) as [f' [b [ts [lost [E [T [Bb [M1 M2]]]]]]]].
    exists f', b. split; [exact E|]. split; [exact Bb|].
    pose proof (fun l Hll => one_mean f' x label ts lost y l T Hl Hll Ht) as Av. set (ms := map _ ts) in *.
    assert (Other : exists o, 0 <= o < lc /\ o <> label) by (destruct (Z.eq_dec label 0); [exists 1|exists 0]; lia).
    destruct Other as [o [Ho No]]. split; [|split]; intros Hd.
    - destruct (Z.eq_dec b label) as [|N]; [assumption|exfalso]. specialize (M1 label Hl). rewrite !Av in M1 by lia.
      rewrite Z.eqb_refl, (proj2 (Z.eqb_neq b label) N) in M1. lra.
    - intros ->. specialize (M1 o Ho). rewrite !Av in M1 by lia. rewrite Z.eqb_refl, (proj2 (Z.eqb_neq o label) No) in M1. lra.
    - destruct (Z.eq_dec b 0) as [|N]; [assumption|exfalso]. specialize (M2 0 ltac:(lia)).
      rewrite !Av in M2 by lia. destruct (0 =? label), (b =? label); lra.
  Qed.
  Lemma far : (0 < lifetime)%R -> (discount_factor < 0)%R -> exists eta, (0 < eta)%R /\ (lead eta < 0)%R.
  Proof.
    intros Hlt Hg. set (h := (- discount_factor)%R). set (w := exp (h * lifetime)). set (K := Rabs (1 - base_measure)).
    assert (Hh : (0 < h)%R) by (unfold h; lra).
    assert (Hw : (1 < w)%R) by (unfold w; rewrite <- exp_0; apply exp_increasing; nra).
    assert (HK : (0 <= K)%R) by apply Rabs_pos.
    set (c := (4 * (2 * w + K) / (h * lifetime * lifetime))%R). set (eta := (2 * h + 1 + c)%R).
    assert (Hd : (0 < h * lifetime * lifetime)%R) by (apply Rmult_lt_0_compat; nra).
    assert (Hc : (0 < c)%R) by (unfold c; apply Rdiv_lt_0_compat; lra).
    assert (Ec : (c * (h * lifetime * lifetime) = 4 * (2 * w + K))%R) by (unfold c; field; lra).
    exists eta. assert (He : (2 * h + 1 <= eta)%R) by (unfold eta; lra). split; [lra|]. unfold lead.
    set (u := exp (- lifetime * eta)).
    assert (Hu0 : (0 < u)%R) by apply exp_pos.
    assert (Hu1 : (u < 1)%R) by (unfold u; rewrite <- exp_0; apply exp_increasing; nra).
    replace (exp (- (eta * lifetime))) with u by (unfold u; f_equal; ring).
    replace (exp (- (eta + discount_factor) * lifetime)) with (u * w)%R by (unfold u, w, h; rewrite <- exp_plus; f_equal; ring).
    replace (exp (discount_factor * lifetime)) with (/ w)%R by (unfold w, h; rewrite <- exp_Ropp; f_equal; ring).
    replace (eta + discount_factor)%R with (eta - h)%R by (unfold h; ring).
    set (r := (eta / (eta - h))%R).
    replace ((1 - u) * (1 - r * (1 - u * w) / (1 - u)))%R with (1 - u - r * (1 - u * w))%R by (field; lra).
    assert (Er : (r * (eta - h) = eta)%R) by (unfold r; field; lra).
    assert (Hr1 : (h <= (r - 1) * eta)%R) by nra.
    assert (Hr2 : (0 < r <= 2)%R) by (split; nra).
    assert (Hb : (u * (1 - / w) * (1 - base_measure) <= u * K)%R).
    { rewrite Rmult_assoc. apply Rmult_le_compat_l; [lra|]. assert (0 < / w <= 1)%R by (split; [apply Rinv_0_lt_compat; lra|rewrite <- Rinv_1; apply Rinv_le_contravar; lra]).
      pose proof (Rle_abs (1 - base_measure)). fold K in H0. nra. }
    assert (Hu : (u * (2 * w + K) * eta < h)%R).
    { assert (X : (u * (lifetime * eta * (lifetime * eta)) < 4)%R).
      { assert (Y : (exp (lifetime * eta / 2) * exp (lifetime * eta / 2) * u = 1)%R) by (unfold u; rewrite <- !exp_plus, <- exp_0; f_equal; field).
        pose proof (exp_ineq1 (lifetime * eta / 2) ltac:(nra)) as Z0. set (v := exp (lifetime * eta / 2)) in *. set (z := (lifetime * eta)%R) in *.
        assert (0 < z)%R by (unfold z; nra). assert (z * z < 4 * (v * v))%R by nra. nra. }
      apply Rmult_lt_reg_r with (lifetime * lifetime * eta)%R; [apply Rmult_lt_0_compat; nra|].
      apply Rlt_le_trans with (4 * (2 * w + K))%R; [|rewrite <- Ec; unfold eta; nra].
      replace (u * (2 * w + K) * eta * (lifetime * lifetime * eta))%R with (u * (lifetime * eta * (lifetime * eta)) * (2 * w + K))%R by ring. apply Rmult_lt_compat_r; lra. }
    assert (Hfin : ((1 - r + u * (2 * w + K)) * eta < 0)%R) by nra.
    assert (1 - r + u * (2 * w + K) < 0)%R by nra. assert (r * (u * w) <= 2 * (u * w))%R by (apply Rmult_le_compat_r; nra). lra.
  Qed.
  (** *** C85: whatever the parameters, a forest trained with one label does not predict it everywhere *)
  Theorem mondrian_one_label_refuted : 1 <= tc -> 1 <= fc -> 2 <= lc -> (0 < lifetime)%R -> (base_measure < 1)%R ->
    exists x y label f f' b, reached f [(x, label)] /\ Z.of_nat (length y) = fc /\ predict f y None = Ok (f', b, None) /\ 0 <= label < lc /\ b <> label.
  Proof.
    intros Ht Hfc Hlc Hlt Hb. set (x := repeat 0%R (Z.to_nat fc)).
    assert (Lx : Z.of_nat (length x) = fc) by (unfold x; rewrite repeat_length; lia).
    assert (One : forall l, 0 <= l < lc -> exists f, reached f [(x, l)]).
    { intros l Hl. apply any_reached; [|constructor; [split; [exact Lx|split; [apply Forall_forall; intros v Hv; exact I|cbn [snd]; lia]]|constructor]|cbn; lia].
      intros f h x' label. exact (mondrian_train_total_exact log_ rnd tc fc lc mn lifetime base_measure discount_factor Sz Hlife Hdraw f h x' label). }
    destruct (Rtotal_order discount_factor 0) as [Hd|[Hd|Hd]].
    - destruct (far Hlt Hd) as [eta [E1 E2]]. destruct (One 0 ltac:(lia)) as [f Rf]. set (y := upd x 0%nat eta).
      assert (Ly : Z.of_nat (length y) = fc) by (unfold y; now rewrite upd_length).
      assert (Ay : away x y = eta).
      { unfold away, y, x. destruct (Z.to_nat fc) as [|k] eqn:Ek; [lia|]. cbn [repeat seq map upd nth fold_right]. rewrite Rminus_0_r, Rabs_pos_eq by lra.
        assert (G : forall s, (1 <= s)%nat -> forall m, fold_right Rplus 0%R (map (fun d => Rabs (nth d (eta :: repeat 0%R k) 0 - nth d (0%R :: repeat 0%R k) 0)%R) (seq s m)) = 0%R).
        { intros s Hs m. revert s Hs. induction m as [|m IH]; intros s Hs; [reflexivity|]. cbn [seq map fold_right]. rewrite IH by lia. destruct s; [lia|]. cbn [nth].
          rewrite Rminus_diag_eq by reflexivity. rewrite Rabs_R0. lra. }
        rewrite G by lia. lra. }
      destruct (one_label f x 0 y None Rf Ht Hlc ltac:(lia) Ly) as [f' [b [P [Bb [_ [P2 _]]]]]]. rewrite Ay in P2. exists x, y, 0, f, f', b. repeat (split; [assumption || lia|]). now apply P2.
    - destruct (One 1 ltac:(lia)) as [f Rf].
      destruct (mondrian_single_point log_ rnd tc fc lc mn lifetime base_measure discount_factor Sz Hlife Hdraw f x 1 None Rf Ht Hlc ltac:(lia) Lx Hb) as [f' [b [P [Bb [_ [_ P3]]]]]].
      exists x, x, 1, f, f', b. repeat (split; [assumption || lia|]). rewrite P3; [lia|]. rewrite Hd. ring.
    - destruct (One 0 ltac:(lia)) as [f Rf].
      destruct (mondrian_single_point log_ rnd tc fc lc mn lifetime base_measure discount_factor Sz Hlife Hdraw f x 0 None Rf Ht Hlc ltac:(lia) Lx Hb) as [f' [b [P [Bb [P1 _]]]]].
      exists x, x, 0, f, f', b. repeat (split; [assumption || lia|]). apply P1. now apply Rmult_lt_0_compat.
  Qed.
End Exact.
Print Assumptions mondrian_one_label_refuted.
Print Assumptions mondrian_predict_exact.

(** A point outside all boxes of a forest of two trees. *)
Example mondrian_predict_exact_example : exists f f' b ts lost, reached rops exp ln (fun _ => / 2)%R 2 2 2 9 1%R (/ 2)%R (-1)%R rfine f points_e /\
  predict rops exp 2 2 2 9 (/ 2)%R (-1)%R f [5%R; 0%R] None = Ok (f', b, None) /\ trees rops 2 2 2 9 1%R f' points_e ts lost /\
  forall l, 0 <= l < 2 -> let ms := map (fun t => smoothed_mean 2 2 (-1) f' 0 [/ 2; / 2]%R t [5%R; 0%R]) ts in (average ms l <= average ms b)%R.
Proof.
  destruct (points_e_reached (-1)%R) as [f R0].
  destruct (mondrian_predict_exact ln (fun _ => / 2)%R 2 2 2 9 1%R (/ 2)%R (-1)%R sizes_e life_e half_draw f points_e [5%R; 0%R] None R0) as [f' [b [ts [lost [E [T [_ [M _]]]]]]]]; [discriminate|cbn; lia|reflexivity|].
  exists f, f', b, ts, lost. auto.
Qed.
(** With the discount factor -1 and one point of label 1, a point at distance 3 is predicted 0, the point itself 1. *)
Lemma lead_far : (lead 1 (/ 2) (-1) 3 < 0)%R.
Proof.
  unfold lead. set (a := exp (-1)). assert (A : (a <= / 2)%R).
  { unfold a. pose proof (exp_ineq1 1 ltac:(lra)) as H. pose proof (exp_Ropp 1) as E. replace (- (1))%R with (-1)%R in E by lra. rewrite E. apply Rinv_le_contravar; lra. }
  assert (P : (0 < a)%R) by apply exp_pos.
  replace (exp (- (1) * 3)) with (a * a * a)%R by (unfold a; rewrite <- !exp_plus; f_equal; lra).
  replace (exp (- (3 * 1))) with (a * a * a)%R by (unfold a; rewrite <- !exp_plus; f_equal; lra).
  replace (exp (- (3 + -1) * 1)) with (a * a)%R by (unfold a; rewrite <- !exp_plus; f_equal; lra).
  replace (exp (-1 * 1)) with a by (unfold a; f_equal; lra).
  assert (a * a <= / 4)%R by nra. assert (a * a * a <= / 8)%R by nra.
  replace ((1 - a * a * a) * (1 - 3 / (3 + -1) * (1 - a * a) / (1 - a * a * a)))%R with (1 - a * a * a - 3 / 2 * (1 - a * a))%R by (field; lra).
  assert (0 < a * a * a)%R by (apply Rmult_lt_0_compat; nra). nra.
Qed.
Example mondrian_one_label_example : exists f f' f'', reached rops exp ln (fun _ => / 2)%R 2 2 2 9 1%R (/ 2)%R (-1)%R rfine f [([2%R; 1%R], 1)] /\
  predict rops exp 2 2 2 9 (/ 2)%R (-1)%R f [2%R; 1%R] None = Ok (f', 1, None) /\
  predict rops exp 2 2 2 9 (/ 2)%R (-1)%R f [4%R; 0%R] None = Ok (f'', 0, None).
Proof.
  destruct (one_reached (-1)%R 1 ltac:(lia)) as [f R0].
  destruct (mondrian_single_point ln (fun _ => / 2)%R 2 2 2 9 1%R (/ 2)%R (-1)%R sizes_e life_e half_draw f [2%R; 1%R] 1 None R0 ltac:(lia) ltac:(lia) ltac:(lia) eq_refl ltac:(lra)) as [f' [b [E [Hb [_ [H _]]]]]].
  rewrite (H ltac:(lra)) in E.
  destruct (one_label ln (fun _ => / 2)%R 2 2 2 9 1%R (/ 2)%R (-1)%R sizes_e life_e half_draw f [2%R; 1%R] 1 [4%R; 0%R] None R0 ltac:(lia) ltac:(lia) ltac:(lia) eq_refl) as [f'' [b' [E' [Hb' [_ [H' _]]]]]].
  assert (Aw : away 2 [2%R; 1%R] [4%R; 0%R] = 3%R).
  { unfold away. change (Z.to_nat 2) with 2%nat. cbn [seq map fold_right nth]. unfold Rabs. destruct (Rcase_abs (4 - 2)), (Rcase_abs (0 - 1)); lra. }
  rewrite Aw in H'. specialize (H' lead_far). assert (b' = 0) as -> by lia. exists f, f', f''. auto.
Qed.
