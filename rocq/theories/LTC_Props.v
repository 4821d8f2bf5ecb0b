(** * Properties of lightweight temporal compression (C24-C27) *)
From Coq Require Import ZArith List Bool Lia Reals Lra.
From Flocq Require Import Core BinarySingleNaN.
From Verif Require Import CppBase CppFacts Dbl DblFacts NumFacts LTC_Model LTC_Spec LTC_Proofs.
Import ListNotations.
Local Open Scope Z_scope.

Definition points (os : list (option pt)) : list (Z * Z) := map (fun p => (ts p, val p)) (received os).

Lemma points_snoc : forall os p, map pair_of (received os ++ [p]) = points os ++ [(ts p, val p)].
Proof. intros. unfold points. rewrite map_app. reflexivity. Qed.

(** C24. Samples at every time unit, of any length: successive received points
    reconstruct the samples between them within eps plus the accumulated truncation, and
    the samples after the last received point are reconstructed by a line from a point
    [p] to a point at the current time. *)
Theorem ltc_error_bound :
  forall (eps maxv minv : Z) (x : Z -> Z), 0 <= eps <= 2 ^ 19 -> maxv <= 2 ^ 19 -> - 2 ^ 19 <= minv ->
  (forall t, minv <= x t <= maxv) ->
  forall (t0 : Z) (n : nat), 0 <= t0 -> t0 + 1 + Z.of_nat n < 2 ^ 31 ->
  exists s os p v, ltc_run eps maxv minv 1 ltc_init (sampled x t0 (S (S n))) = Ok (s, os) /\ length os = S (S n) /\
    consecutive (segment_ok x eps rounding_slack) (points os ++ [p; (t0 + 1 + Z.of_nat n, v)]) /\
    hd p (points os) = (t0, x t0).
Proof.
  intros eps maxv minv x He Hx Hm Hr t0 n H0 Hn.
  change (S (S n)) with (1 + (S n))%nat. rewrite sampled_app.
  assert (E0 : ltc_run eps maxv minv 1 ltc_init (sampled x t0 1) = Ok (st1 t0 (x t0), [None])) by reflexivity.
  rewrite (run_app _ _ _ _ _ _ _ _ _ E0). change (Z.of_nat 1) with 1.
  destruct (uinv_run eps maxv minv x He Hx Hm Hr (S n) (st1 t0 (x t0)) t0) as [s [os [R [Ln [I [K [[rest Hh] [C _]]]]]]]]; try lia.
  { now left. }
  rewrite R. cbn [bind]. exists s, ([None] ++ os), (pair_of (pend s)).
  assert (V : exists v, segment_ok x eps rounding_slack (pair_of (pend s)) (t0 + 1 + Z.of_nat n, v)).
  { destruct I as [Es|[a [v0 [m [U [L [tt [-> [Ha [Et [Hp [Hv [Hv0 Cn]]]]]]]]]]]]].
    - subst s. specialize (K ltac:(right; lia)). discriminate K.
    - exists U. destruct Cn as [C1 C']. replace (t0 + 1 + Z.of_nat n) with (a + m) by lia.
      apply (cone_segment eps maxv minv x He Hr a v0 m U L U Hp Hv); [now split|lia]. }
  destruct V as [v V]. exists v. split; [reflexivity|]. split; [cbn; lia|].
  rewrite points_snoc in C. change (points ([None] ++ os)) with (points os). split.
  - fold (pair_of (pend s)) in C. clear - C V. induction (points os) as [|q l IH]; [split; [exact V|exact I]|].
    destruct l as [|q' l].
    + cbn [app consecutive] in *. destruct C as [C1 _]. split; [exact C1|]. split; [exact V|exact I].
    + cbn [app] in *. destruct C as [C1 C2]. split; [exact C1|]. apply IH. exact C2.
  - apply (f_equal (map pair_of)) in Hh. rewrite points_snoc in Hh. destruct (points os) as [|q l]; cbn [app map hd] in *.
    + exact (f_equal (hd (0, 0)) Hh).
    + exact (f_equal (hd (0, 0)) Hh).
Qed.
Print Assumptions ltc_error_bound.

Example ltc_error_bound_ex :
  let xs t := nth (Z.to_nat t) [10; 11; 9; 10; 20; 30; 41; 0; 0] 0 in
  (do (s, os) <- ltc_run 3 32767 (-32768) 1 ltc_init (sampled xs 0 9); Ok (points os)) = Ok [(0, 10); (3, 10); (6, 41)].
Proof. vm_compute. reflexivity. Qed.

(** C24. At the end of a segment the slack is zero. *)
Theorem ltc_slack_zero_at_end : forall n, rounding_slack n n = 0%R.
Proof. intros. unfold rounding_slack. rewrite harm_self. ring. Qed.
Print Assumptions ltc_slack_zero_at_end.

(** C25. If the add at time [t] hands over the point [p], no straight line through [p]
    stays within eps, less the truncation slack, of the samples after [p] up to [t]. *)
Theorem ltc_transmits_only_if_needed :
  forall (eps maxv minv : Z) (x : Z -> Z), 0 <= eps <= 2 ^ 19 -> maxv <= 2 ^ 19 -> - 2 ^ 19 <= minv ->
  (forall t, minv + eps <= x t <= maxv - eps) ->
  forall (t0 : Z) (n : nat), 0 <= t0 -> t0 + Z.of_nat n < 2 ^ 31 ->
  forall s os i p, ltc_run eps maxv minv 1 ltc_init (sampled x t0 (S n)) = Ok (s, os) ->
    nth_error os i = Some (Some p) -> ~ line_exists x eps rounding_slack (ts p, val p) (t0 + Z.of_nat i).
Proof.
  intros eps maxv minv x He Hx Hm Hr t0 n H0 Hn s os i p R Hi.
  assert (Hr' : forall t, minv <= x t <= maxv) by (intros t; specialize (Hr t); lia).
  change (S n) with (1 + n)%nat in R. rewrite sampled_app in R.
  assert (E0 : ltc_run eps maxv minv 1 ltc_init (sampled x t0 1) = Ok (st1 t0 (x t0), [None])) by reflexivity.
  rewrite (run_app _ _ _ _ _ _ _ _ _ E0) in R. change (Z.of_nat 1) with 1 in R.
  destruct (uinv_run eps maxv minv x He Hx Hm Hr' n (st1 t0 (x t0)) t0) as [s' [os' [R' [_ [_ [_ [_ [_ T]]]]]]]]; try lia.
  { now left. }
  rewrite R' in R. cbn [bind] in R. injection R as <- <-. destruct i as [|i]; [discriminate|].
  replace (t0 + Z.of_nat (S i)) with (t0 + 1 + Z.of_nat i) by lia. apply T; auto.
  intros t. specialize (Hr t). lia.
Qed.
Print Assumptions ltc_transmits_only_if_needed.

(** C25. A linear signal is never transmitted. *)
Theorem ltc_linear_silent :
  forall (eps maxv minv v0 d t0 : Z) (n : nat), 0 <= eps <= 2 ^ 19 -> maxv <= 2 ^ 19 -> - 2 ^ 19 <= minv ->
  0 <= t0 -> t0 + Z.of_nat n < 2 ^ 31 ->
  minv <= v0 <= maxv -> minv <= v0 + d * Z.of_nat n <= maxv ->
  exists s, ltc_run eps maxv minv 1 ltc_init (sampled (fun t => v0 + d * (t - t0)) t0 (S n)) = Ok (s, repeat None (S n)).
Proof.
  intros eps maxv minv v0 d t0 n He Hx Hm H0 Hn R0 Rn.
  set (x := fun t => v0 + d * (t - t0)). change (S n) with (1 + n)%nat. rewrite sampled_app.
  assert (E0 : ltc_run eps maxv minv 1 ltc_init (sampled x t0 1) = Ok (fresh eps maxv minv x t0 v0 t0, [None])).
  { unfold fresh. rewrite Z.eqb_refl. cbn [sampled]. unfold ltc_run. rewrite add_first. cbn [bind].
    unfold x. now rewrite Z.sub_diag, Z.mul_0_r, Z.add_0_r. }
  rewrite (run_app _ _ _ _ _ _ _ _ _ E0). change (Z.of_nat 1) with 1.
  rewrite (run_quiet eps maxv minv 1 (fresh eps maxv minv x t0 v0) x n t0).
  - cbn [bind]. eexists. reflexivity.
  - intros i Hi. assert (B : forall k, t0 <= k <= t0 + Z.of_nat n -> minv <= x k <= maxv).
    { intros k Hk. unfold x. destruct (Z.le_gt_cases 0 d); nia. }
    apply linear_step with d; try lia; try (apply B; lia); reflexivity.
Qed.
Print Assumptions ltc_linear_silent.

Example ltc_linear_ex :
  (do (s, os) <- ltc_run 2 100 (-100) 1 ltc_init (sampled (fun t => 90 - 7 * (t - 5)) 5 20); Ok (received os)) = Ok [].
Proof. vm_compute. reflexivity. Qed.

(** C25 is false: a transmission although the line of slope 1/2 is within eps of all
    samples. *)
Theorem ltc_needless_transmission_refuted :
  exists (x : Z -> Z) s os, ltc_run 2 32767 (-32768) 1 ltc_init (sampled x 0 5) = Ok (s, os) /\
    nth_error os 4 = Some (Some (mkPt 0 0)) /\ line_exists x 2 no_slack (0, 0) 4.
Proof.
  exists (fun t => nth (Z.to_nat t) [0; 0; -1; 1; 4] 0). eexists _, _. split; [vm_compute; reflexivity|]. split; [reflexivity|].
  exists (/ 2)%R. cbn [fst snd]. intros u Hu. unfold no_slack. rewrite Z.sub_0_r.
  assert (C : u = 1 \/ u = 2 \/ u = 3 \/ u = 4) by lia.
  destruct C as [-> | [-> | [-> | ->]]];
    match goal with |- context [IZR (nth ?i ?l ?d)] => let v := eval vm_compute in (nth i l d) in change (nth i l d) with v end;
    apply Rabs_le; lra.
Qed.
Print Assumptions ltc_needless_transmission_refuted.

(** C25, C26 are false: for every eps and every B, N there is a signal of N + 3 samples
    where two successive points miss a sample between them by B - B*B/N: the lower limit
    stops moving as soon as its slope is below one, so a plateau after a ramp goes
    unnoticed. *)
Theorem ltc_error_unbounded_refuted :
  forall eps maxv minv B N, 1 <= eps < B -> 4 * B <= maxv <= 2 ^ 19 -> - 2 ^ 19 <= minv <= 0 -> B <= N < 2 ^ 31 - 3 ->
  exists (x : Z -> Z) s os, (forall t, 0 <= t -> minv <= x t <= maxv) /\
    ltc_run eps maxv minv 1 ltc_init (sampled x 0 (Z.to_nat (N + 3))) = Ok (s, os) /\
    points os = [(0, 0); (N, B)] /\
    (IZR (x B) - (line (0, 0) (N, B) B)%Z = IZR B - IZR B * IZR B / IZR N)%R.
Proof.
  intros eps maxv minv B N He Hx Hm HN. destruct (ramp_run eps maxv minv B N He Hx Hm HN) as [s [os [R P]]].
  exists (ramp B N), s, os. split.
  - intros t Ht. unfold ramp. destruct (Z.leb_spec t B); [lia|]. destruct (Z.leb_spec t N); [lia|]. destruct (t =? N + 1); lia.
  - split; [exact R|]. split; [unfold points; now rewrite P|].
    unfold ramp. rewrite Z.leb_refl. unfold line. cbn [fst snd]. rewrite !Z.sub_0_r.
    assert (IZR N <> 0)%R by (apply not_0_IZR; lia). field. auto.
Qed.
Print Assumptions ltc_error_unbounded_refuted.

Example ltc_error_unbounded_ex :
  let x t := if t <=? 20 then t else if t <=? 100 then 20 else if t =? 101 then 80 else 0 in
  (do (s, os) <- ltc_run 1 32767 (-32768) 1 ltc_init (sampled x 0 103); Ok (points os)) = Ok [(0, 0); (100, 20)] /\
  20 - 20 * 20 / 100 = 16.
Proof. split; vm_compute; reflexivity. Qed.

(** C26 is false for timestamps with gaps: the point is dated one unit before the new
    sample, whatever the time of the last one. *)
Theorem ltc_gap_refuted :
  exists l s os, l = [(0, 0); (10, 0); (20, 100); (30, 0); (40, 100)] /\
    ltc_run 1 32767 (-32768) 1 ltc_init l = Ok (s, os) /\
    points os = [(0, 0); (19, 0); (29, 100)] /\ In (20, 100) l /\ (100 - (line (19, 0) (29, 100) 20)%Z = 90)%R.
Proof.
  eexists _, _, _. split; [reflexivity|]. split; [vm_compute; reflexivity|]. split; [reflexivity|]. split; [cbn; tauto|].
  unfold line. cbn [fst snd]. change (20 - 19) with 1. change (29 - 19) with 10. lra.
Qed.
Print Assumptions ltc_gap_refuted.

(** C26 is false for time_unit_difference 2 with unit steps, even at the end of a
    segment. *)
Theorem ltc_time_unit_refuted :
  exists (x : Z -> Z) s os, ltc_run 3 32767 (-32768) 2 ltc_init (sampled x 0 7) = Ok (s, os) /\
    points os = [(0, 0); (4, 3)] /\ (IZR (x 4%Z) - (line (0, 0) (4, 3) 4)%Z = 4)%R.
Proof.
  exists (fun t => nth (Z.to_nat t) [0; 4; 0; 5; 7; 1000; -1000] 0). eexists _, _. split; [vm_compute; reflexivity|].
  split; [reflexivity|]. unfold line. cbn [fst snd]. change (4 - 0) with 4. change (nth (Z.to_nat 4) [0; 4; 0; 5; 7; 1000; -1000] 0) with 7. lra.
Qed.
Print Assumptions ltc_time_unit_refuted.

(** C27. Any increasing timestamps: no undefined behaviour, one answer per add, the first
    two silent, the received points strictly ordered in time, the first received point
    the first sample. *)
Theorem ltc_protocol :
  forall (eps maxv minv : Z) (l : list (Z * Z)), 0 <= eps <= 2 ^ 19 -> maxv <= 2 ^ 19 -> - 2 ^ 19 <= minv ->
  consecutive Z.lt (map fst l) -> (forall t v, In (t, v) l -> 0 <= t < 2 ^ 31 /\ minv <= v <= maxv) ->
  exists s os, ltc_run eps maxv minv 1 ltc_init l = Ok (s, os) /\ length os = length l /\
    (forall o, In o (firstn 2 os) -> o = None) /\
    consecutive (fun p q => ts p < ts q) (received os) /\
    (forall p, hd_error (received os) = Some p -> hd_error l = Some (ts p, val p)).
Proof.
  intros eps maxv minv [|[t v] l] He Hx Hm Hc Hl.
  - exists ltc_init, []. repeat split; [intros o []|discriminate].
  - destruct (Hl t v ltac:(now left)) as [Ht Hv].
    rewrite (run_step _ _ _ _ _ _ _ _ _ _ (add_first eps maxv minv t v)). cbn [bind].
    destruct (ginv_run eps maxv minv He Hx Hm l (st1 t v) t) as [s [os [R [Ln [[rest Hr] C]]]]].
    + left. exists v. split; [reflexivity|exact Hv].
    + lia.
    + exact Hc.
    + intros t' w Hi. destruct (Hl t' w ltac:(now right)). lia.
    + rewrite R. cbn [bind]. exists s, (None :: os). split; [reflexivity|]. split; [cbn; lia|]. split; [|split].
      * intros o [<-|Ho]; [reflexivity|]. destruct l as [|[t2 v2] l].
        { cbn in Ln. destruct os; [destruct Ho|discriminate]. }
        rewrite (run_step _ _ _ _ _ _ _ _ _ _ (add_second eps maxv minv He Hx Hm t v t2 v2 (proj2 (Hl t2 v2 ltac:(right; now left))))) in R.
        cbn [bind] in R. apply bind_inv in R. destruct R as [[s5 o5] [_ R]]. injection R as <- <-. cbn in Ho.
        destruct Ho as [<-|[]]. reflexivity.
      * cbn [received]. revert C. generalize (received os). induction l0 as [|p [|q l0] IH]; [intros _; exact I|intros _; exact I|].
        cbn [app] in *. intros [C1 C2]. split; [exact C1|]. apply IH. exact C2.
      * intros p Hp. cbn [received] in Hp. destruct (received os) as [|q r]; [discriminate|]. cbn in Hp, Hr. injection Hp as <-.
        injection Hr as -> _. reflexivity.
Qed.
Print Assumptions ltc_protocol.

Example ltc_protocol_ex :
  (do (s, os) <- ltc_run 3 32767 (-32768) 1 ltc_init [(0, 5); (2, 6); (7, 40); (8, 39); (20, -100)]; Ok os) =
    Ok [None; None; Some (mkPt 0 5); Some (mkPt 6 6); Some (mkPt 7 40)] /\
  get_value_to_transmit ltc_init = Undef Uninitialised.
Proof. split; vm_compute; reflexivity. Qed.
