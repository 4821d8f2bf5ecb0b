(** * The exponential reservoir with an ideal uniform source *)
From Coq Require Import ZArith QArith Qround List Permutation Bool Lia.
From Verif Require Import CppBase CppFacts NumOps Reservoir_Model Reservoir_Spec Reservoir_Proofs Reservoir_Prob.
Import ListNotations.
Local Open Scope Z_scope.

Section Exp.
  Variable N : positive.
  Variable k : Z.
  Hypothesis Hk : 1 <= k <= 2147483647.
  (** All denominators up to [k] divide [N]. *)
  Hypothesis Hdiv : forall m, 1 <= m <= k -> (m | Z.pos N).

  Definition exp_after (d : list (Q * Q)) := exp_run qops k (enumerate 0 d).

  (** The sample of the positions [X], the other slots never written. *)
  Definition filled (X : list Z) : list (option Z) := map Some X ++ repeat None (Z.to_nat k - length X).

  Definition step (X : list Z) (r1 r2 : Q) (m : Z) : list Z :=
    if Qltb r1 (Qdiv (inject_Z (Z.of_nat (length X))) (inject_Z k))
    then upd X (Z.to_nat (Qfloor (r2 * inject_Z (Z.of_nat (length X))))) m else X ++ [m].

  Lemma filled_length : forall X, Z.of_nat (length X) <= k -> Z.of_nat (length (filled X)) = k.
  Proof. intros X H. unfold filled. rewrite app_length, map_length, repeat_length. lia. Qed.

  Lemma filled_upd : forall X i m, (i < length X)%nat -> upd (filled X) i (Some m) = filled (upd X i m).
  Proof.
    intros X i m Hi. unfold filled. rewrite upd_length. generalize (repeat (@None Z) (Z.to_nat k - length X)) as R.
    clear - Hi. revert i Hi. induction X as [|x X IH]; intros [|i] Hi R; cbn in *; try lia; auto. rewrite IH by lia. reflexivity.
  Qed.

  Lemma filled_app : forall X m, (Z.of_nat (length X) < k) -> upd (filled X) (length X) (Some m) = filled (X ++ [m]).
  Proof.
    intros X m Hl. unfold filled. rewrite app_length, map_app, <- app_assoc. cbn [length map app].
    replace (Z.to_nat k - length X)%nat with (S (Z.to_nat k - (length X + 1))) by lia. cbn [repeat].
    generalize (repeat (@None Z) (Z.to_nat k - (length X + 1))) as R. clear.
    induction X as [|x X IH]; intros R; cbn; auto. rewrite IH. reflexivity.
  Qed.

  Lemma grid_unit : forall r, In r (grid N) -> Qltb r (Qdiv (inject_Z k) (inject_Z k)) = true.
  Proof.
    intros r Hr. destruct (grid_range N r Hr) as [i [Hi ->]]. unfold Qltb. apply negb_true_iff.
    apply not_true_iff_false. rewrite Qle_bool_iff. intros C.
    unfold Qdiv in C. rewrite Qmult_inv_r in C by (intros E; unfold Qeq, inject_Z in E; cbn in E; lia).
    unfold Qle in C. cbn in C. lia.
  Qed.

  Lemma slot_ok : forall r n, In r (grid N) -> 1 <= n <= k ->
    n2int qops (nfloor qops (nmul qops r (nofZ qops n))) = Ok (Qfloor (r * inject_Z n)) /\
    0 <= Qfloor (r * inject_Z n) < n.
  Proof. destruct (Hdiv k) as [w Hw]; [lia|]. apply (floor_ok N k w Hk). lia. Qed.

  Lemma exp_step : forall s X r1 r2 m, In r1 (grid N) -> In r2 (grid N) ->
    counter s = Z.of_nat (length X) -> sample s = filled X -> Z.of_nat (length X) <= k ->
    exists s' i, exp_add qops k s r1 r2 m = Ok (s', i) /\ counter s' = Z.of_nat (length (step X r1 r2 m)) /\
      sample s' = filled (step X r1 r2 m) /\ Z.of_nat (length (step X r1 r2 m)) <= k.
  Proof.
    intros s X r1 r2 m V1 V2 Hc Hs Hl. unfold exp_add, exp_sample_index, step. rewrite Hc.
    pose proof (filled_length X Hl) as FL.
    cbn [num nlt ndiv nofZ qops].
    destruct (Qltb r1 _) eqn:Eq.
    - assert (1 <= Z.of_nat (length X)).
      { destruct X; [exfalso|cbn; lia]. destruct (grid_range N r1 V1) as [i [Hi ->]].
        unfold Qltb in Eq. apply negb_true_iff in Eq. revert Eq. apply not_false_iff_true. apply Qle_bool_iff.
        unfold Qle, Qdiv, Qmult. cbn. lia. }
      destruct (slot_ok r2 (Z.of_nat (length X)) V2) as [F1 F2]; [lia|]. cbn [n2int nfloor nmul nofZ qops] in F1.
      cbn [n2int nfloor nmul nofZ qops]. rewrite F1. cbn [bind].
      destruct (Z.leb_spec 0 (Qfloor (r2 * inject_Z (Z.of_nat (length X))))); [|lia].
      rewrite wr_ok by (rewrite Hs; lia). cbn [bind]. do 2 eexists. split; [reflexivity|]. cbn [counter sample].
      rewrite upd_length, Hs, filled_upd by lia. auto.
    - assert (Z.of_nat (length X) < k).
      { destruct (Z.eq_dec (Z.of_nat (length X)) k) as [E|]; [exfalso|lia]. rewrite E, grid_unit in Eq by auto. discriminate. }
      cbn [bind]. rewrite to_int_small by lia. destruct (Z.leb_spec 0 (Z.of_nat (length X))); [|lia].
      rewrite wr_ok by (rewrite Hs; lia). cbn [bind]. do 2 eexists. split; [reflexivity|]. cbn [counter sample].
      rewrite Nat2Z.id, Hs, filled_app, app_length by lia. cbn [length]. rewrite u32_small by lia. repeat split; lia.
  Qed.

  Lemma exp_run_snoc : forall d r1 r2, exp_after (d ++ [(r1, r2)]) =
    (do (s, is) <- exp_after d; do (s', i) <- exp_add qops k s r1 r2 (Z.of_nat (length d)); Ok (s', is ++ [i])).
  Proof.
    intros d r1 r2. unfold exp_after, exp_run. rewrite enumerate_app. cbn [enumerate]. rewrite rrun_app.
    destruct (run_with qops (exp_add qops k) (res_init k) (enumerate 0 d)) as [[s is]| | |]; cbn [bind run_with]; auto.
    destruct (exp_add _ _ _ _ _ _) as [[s' i]| | |]; cbn [bind]; auto.
  Qed.

  Lemma step_in : forall X r1 r2 m p, In r2 (grid N) -> Z.of_nat (length X) <= k -> In p (step X r1 r2 m) -> p = m \/ In p X.
  Proof.
    intros X r1 r2 m p V2 Hl. unfold step. destruct (Qltb _ _).
    - intros H. apply in_upd in H. tauto.
    - intros H. apply in_app_or in H. cbn in H. intuition.
  Qed.

  Lemma upd_nodup : forall (X : list Z) i m, NoDup X -> ~ In m X -> NoDup (upd X i m).
  Proof.
    induction X as [|x X IH]; intros [|i] m H1 H2; cbn; auto; inversion_clear H1; constructor; auto; cbn in H2.
    - tauto.
    - intros C. apply in_upd in C. destruct C as [->|C]; tauto.
    - apply IH; tauto.
  Qed.

  Lemma exp_state : forall m d, In d (all_draws N m) ->
    exists s is X, exp_after d = Ok (s, is) /\ sample s = filled X /\ counter s = Z.of_nat (length X) /\
      NoDup X /\ Z.of_nat (length X) <= k /\ (forall p, In p X -> 0 <= p < Z.of_nat m).
  Proof.
    induction m as [|m IH]; intros d Hd.
    - destruct Hd as [<-|[]]. exists (res_init k), [], []. cbn. unfold filled. cbn. rewrite Nat.sub_0_r.
      repeat split; try constructor; try lia; contradiction.
    - cbn [all_draws] in Hd. apply in_flat_map in Hd. destruct Hd as [d' [H1 H2]].
      apply in_map_iff in H2. destruct H2 as [[r1 r2] [<- H2]]. apply in_prod_iff in H2. destruct H2 as [V1 V2].
      destruct (IH d' H1) as [s [is [X [A1 [A2 [A3 [A4 [A5 A6]]]]]]]].
      destruct (all_draws_spec N m d' H1) as [L _].
      destruct (exp_step s X r1 r2 (Z.of_nat m) V1 V2 A3 A2 A5) as [s' [i [B1 [B2 [B3 B4]]]]].
      exists s', (is ++ [i]), (step X r1 r2 (Z.of_nat m)).
      rewrite exp_run_snoc, A1, L. cbn [bind]. rewrite B1. cbn [bind].
      repeat split; auto.
      + assert (HmX : ~ In (Z.of_nat m) X) by (intros C; specialize (A6 _ C); lia).
        unfold step. destruct (Qltb _ _); [now apply upd_nodup|].
        apply (Permutation_NoDup (l := Z.of_nat m :: X)); [|constructor; auto].
        apply Permutation_cons_append.
      + apply step_in in H; auto. destruct H as [->|H]; [lia|apply A6 in H; lia].
      + apply step_in in H; auto. destruct H as [->|H]; [lia|apply A6 in H; lia].
  Qed.

  Lemma all_in_filled : forall S X, all_in S (filled X) = forallb (fun p => memz p X) S.
  Proof.
    intros S X. rewrite <- all_in_map. unfold all_in, filled.
    induction S as [|p S IH]; [reflexivity|]. cbn [forallb]. rewrite IH. f_equal.
    rewrite existsb_app. generalize (Z.to_nat k - length X)%nat as n. intros n.
    assert (E : existsb (fun c => match c with Some q => q =? p | None => false end) (repeat (@None Z) n) = false)
      by (induction n; auto).
    rewrite E. apply orb_false_r.
  Qed.

  Definition exp_ev (S : list Z) (d : list (Q * Q)) : bool :=
    match exp_after d with Ok (s, _) => all_in S (sample s) | _ => false end.

  Definition rest (m : Z) (S : list Z) : list Z := filter (fun p => p <? m) S.

  (** One more element: the earlier positions of [S] survive in a fraction (k - r)/k of the
      outcomes, r their number. *)
  Lemma exp_ev_step : forall m S d w, In d (all_draws N m) -> Z.pos N = k * w -> NoDup S ->
    (forall p, In p S -> 0 <= p <= Z.of_nat m) ->
    count_if (fun p => exp_ev S (d ++ [p])) (list_prod (grid N) (grid N)) =
    if exp_ev (rest (Z.of_nat m) S) d then Z.pos N * w * (k - Z.of_nat (length (rest (Z.of_nat m) S))) else 0.
  Proof.
    intros m S d w Hd Hw NS HS. set (T := rest (Z.of_nat m) S).
    assert (NT : NoDup T) by now apply NoDup_filter.
    assert (HmT : ~ In (Z.of_nat m) T) by (unfold T, rest; rewrite filter_In, Z.ltb_lt; lia).
    destruct (exp_state m d Hd) as [s [is [X [A1 [A2 [A3 [A4 [A5 A6]]]]]]]].
    destruct (all_draws_spec N m d Hd) as [L _].
    assert (HmX : ~ In (Z.of_nat m) X) by (intros C; specialize (A6 _ C); lia).
    unfold exp_ev at 2. rewrite A1, A2, all_in_filled.
    assert (ST : forall Y, In (Z.of_nat m) Y -> (incl S Y <-> incl T Y)).
    { intros Y HY. split; intros H p Hp.
      - apply H. unfold T, rest in Hp. apply filter_In in Hp. tauto.
      - destruct (Z.eq_dec p (Z.of_nat m)) as [->|Hne]; auto. apply H. apply filter_In. split; auto.
        apply Z.ltb_lt. specialize (HS p Hp). lia. }
    assert (Ev : forall p, In p (list_prod (grid N) (grid N)) -> exp_ev S (d ++ [p]) =
      forallb (fun x => memz x (step X (fst p) (snd p) (Z.of_nat m))) T).
    { intros [r1 r2] Hp. apply in_prod_iff in Hp. destruct Hp as [V1 V2].
      destruct (exp_step s X r1 r2 (Z.of_nat m) V1 V2 A3 A2 A5) as [s' [i [B1 [B2 [B3 B4]]]]].
      unfold exp_ev. rewrite exp_run_snoc, A1, L. cbn [bind]. rewrite B1. cbn [bind fst snd]. rewrite B3, all_in_filled.
      apply eq_true_iff_eq. rewrite !sub_iff. apply ST. unfold step. destruct (Qltb r1 _) eqn:Eq.
      - assert (1 <= Z.of_nat (length X)).
        { destruct X; [exfalso|cbn; lia]. destruct (grid_range N r1 V1) as [j [Hj ->]].
          unfold Qltb in Eq. apply negb_true_iff in Eq. revert Eq. apply not_false_iff_true. apply Qle_bool_iff.
          unfold Qle, Qdiv, Qmult. cbn. lia. }
        destruct (slot_ok r2 (Z.of_nat (length X)) V2) as [_ F2]; [lia|].
        apply (nth_error_In _ (Z.to_nat (Qfloor (r2 * inject_Z (Z.of_nat (length X)))))). apply nth_error_upd_same. lia.
      - apply in_or_app. right. now left. }
    rewrite (count_ext _ _ _ _ Ev). clear Ev.
    destruct (forallb (fun p => memz p X) T) eqn:Es.
    - apply sub_iff in Es.
      destruct (Z.eq_dec (Z.of_nat (length X)) 0) as [E0|E0].
      + destruct X; [|cbn in E0; lia]. destruct T as [|t T']; [|exfalso; exact (Es t (or_introl eq_refl))].
        cbn [forallb length]. rewrite count_true_all, prod_length, grid_len. nia.
      + destruct (Hdiv (Z.of_nat (length X))) as [v Hv]; [lia|].
        rewrite (count_ext _ _ (fun p => negb (Qltb (fst p) (Qdiv (inject_Z (Z.of_nat (length X))) (inject_Z k))
                                       && hit X T (Qfloor (snd p * inject_Z (Z.of_nat (length X))))))).
        * rewrite count_negb. rewrite (count_prod _ _ (fun r => Qltb r (Qdiv (inject_Z (Z.of_nat (length X))) (inject_Z k))) (fun r => hit X T (Qfloor (r * inject_Z (Z.of_nat (length X)))))).
          rewrite (acc_count N (Z.of_nat (length X)) k w) by lia. rewrite (slot_count N (hit X T) (Z.of_nat (length X)) v) by lia.
          rewrite Nat2Z.id, hit_count by auto. rewrite prod_length, grid_len.
          replace (Z.of_nat (Pos.to_nat N * Pos.to_nat N)) with (Z.pos N * Z.pos N) by nia.
          transitivity (Z.pos N * (k * w) - (v * Z.of_nat (length X)) * w * Z.of_nat (length T)); [rewrite Hw at 2; ring|].
          rewrite <- Hv. ring.
        * intros [r1 r2] Hp. apply in_prod_iff in Hp. destruct Hp as [V1 V2]. cbn [fst snd]. unfold step.
          destruct (Qltb r1 _); cbn [andb negb].
          -- destruct (slot_ok r2 (Z.of_nat (length X)) V2) as [_ F2]; [lia|].
             apply eq_true_iff_eq. rewrite sub_iff, incl_upd by (auto; lia). unfold hit. rewrite negb_true_iff.
             rewrite <- not_true_iff_false, memz_in. reflexivity.
          -- apply sub_iff. intros p Hp. apply in_or_app. left. now apply Es.
    - rewrite (count_ext _ _ (fun _ => false)); [apply count_false|].
      intros [r1 r2] _. cbn [fst snd]. assert (Hn : ~ incl T X) by (rewrite <- sub_iff, Es; discriminate).
      apply not_true_iff_false. rewrite sub_iff. unfold step. destruct (Qltb r1 _).
      + now apply not_incl_upd.
      + intros C. apply Hn. intros p Hp. specialize (C p Hp). apply in_app_or in C. destruct C as [C|[<-|[]]]; auto. contradiction.
  Qed.
End Exp.

Lemma rest_before : forall S m i, (i <= m)%nat -> earlier (rest (Z.of_nat m) S) i = earlier S i.
Proof.
  intros S m i Hi. unfold earlier, rest. induction S as [|p S IH]; auto. cbn [filter].
  destruct (Z.ltb_spec p (Z.of_nat m)); rewrite ?count_cons; rewrite IH; auto.
  destruct (Z.ltb_spec p (Z.of_nat i)); lia.
Qed.

Lemma survive_ext : forall k S T n, (forall i, (i < n)%nat -> earlier S i = earlier T i) -> survive k S n = survive k T n.
Proof. intros k S T n. induction n as [|n IH]; intros H; auto. cbn [survive]. rewrite IH, H; auto. Qed.

Lemma exp_set_count : forall (N : positive) (k : Z) (n : nat), 1 <= k <= 2147483647 ->
  (forall m, 1 <= m <= k -> (m | Z.pos N)) ->
  forall S, NoDup S -> (forall p, In p S -> 0 <= p < Z.of_nat n) ->
  k ^ Z.of_nat n * count_if (exp_ev k S) (all_draws N n) = survive k S n * Z.of_nat (length (all_draws N n)).
Proof.
  intros N k n Hk Hdiv. destruct (Hdiv k) as [w Hw]; [lia|]. assert (Hw' : Z.pos N = k * w) by lia.
  induction n as [|n IH]; intros S NS HS.
  - destruct S as [|p S]; [reflexivity|]. specialize (HS p (or_introl eq_refl)). lia.
  - rewrite count_draws_S.
    rewrite (fold_const _ (exp_ev k (rest (Z.of_nat n) S)) (Z.pos N * w * (k - Z.of_nat (length (rest (Z.of_nat n) S))))).
    2:{ intros d Hd. apply (exp_ev_step N k Hk Hdiv); auto. intros p Hp. specialize (HS p Hp). lia. }
    specialize (IH (rest (Z.of_nat n) S) (NoDup_filter _ NS)).
    rewrite (survive_ext k (rest (Z.of_nat n) S) S) in IH by (intros; apply rest_before; lia).
    rewrite all_draws_len in *. rewrite Nat2Z.inj_succ, !Z.pow_succ_r by lia. cbn [survive].
    change (Z.of_nat (length (rest (Z.of_nat n) S))) with (earlier S n).
    specialize (IH ltac:(intros p Hp; unfold rest in Hp; apply filter_In in Hp; destruct Hp as [Hp Hlt]; apply Z.ltb_lt in Hlt; specialize (HS p Hp); lia)).
    set (c := count_if _ _) in *.
    transitivity ((k ^ Z.of_nat n * c) * ((k * w) * Z.pos N * (k - earlier S n))); [ring|]. rewrite IH, <- Hw'. ring.
Qed.

Lemma survive_one : forall k p n, 0 <= p < Z.of_nat n ->
  survive k [p] n = k ^ (p + 1) * (k - 1) ^ (Z.of_nat n - 1 - p).
Proof.
  intros k p n Hp.
  assert (H : forall j, survive k [p] (Z.to_nat (p + 1) + j) = k ^ (p + 1) * (k - 1) ^ Z.of_nat j).
  { induction j as [|j IH].
    - rewrite Nat.add_0_r, Z.pow_0_r, Z.mul_1_r. 
      assert (G : forall i, (i <= Z.to_nat (p + 1))%nat -> survive k [p] i = k ^ Z.of_nat i).
      { induction i as [|i IHi]; intros Hi; [reflexivity|]. cbn [survive]. rewrite IHi by lia.
        rewrite Nat2Z.inj_succ, Z.pow_succ_r by lia. unfold earlier, count_if. cbn [filter].
        destruct (Z.ltb_spec p (Z.of_nat i)); [lia|]. cbn [length]. change (Z.of_nat 0) with 0. ring. }
      rewrite G by lia. f_equal. lia.
    - rewrite Nat.add_succ_r. cbn [survive]. rewrite IH, Nat2Z.inj_succ, Z.pow_succ_r by lia.
      unfold earlier, count_if. cbn [filter].
      destruct (Z.ltb_spec p (Z.of_nat (Z.to_nat (p + 1) + j))); [|lia]. cbn [length]. change (Z.of_nat 1) with 1. ring. }
  replace n with (Z.to_nat (p + 1) + Z.to_nat (Z.of_nat n - 1 - p))%nat at 1 by lia. rewrite H. do 2 f_equal. lia.
Qed.
