From Coq Require Import ZArith QArith Qround List Permutation Bool Lia Reals Lra.
From Flocq Require Import Core BinarySingleNaN.
From Verif Require Import CppBase CppFacts Dbl DblFacts NumOps Reservoir_Model Reservoir_Spec.
Import ListNotations.
Local Open Scope Z_scope.

(** ** Lists of held positions *)
Lemma upd_app_len : forall A (l : list A) x y, upd (l ++ [x]) (length l) y = l ++ [y].
Proof. intros A l x y. induction l as [|a l IH]; cbn; [reflexivity|]. now rewrite IH. Qed.

Lemma nth_error_snoc : forall A (l : list A) x p,
  nth_error (l ++ [x]) p = if Nat.ltb p (length l) then nth_error l p
                           else if Nat.eqb p (length l) then Some x else None.
Proof.
  intros A l x p. destruct (Nat.ltb_spec p (length l)).
  - now apply nth_error_app1.
  - rewrite nth_error_app2 by lia. destruct (Nat.eqb_spec p (length l)).
    + subst. now rewrite Nat.sub_diag.
    + destruct (p - length l)%nat as [|k] eqn:E; [lia|]. cbn. now destruct k.
Qed.

Lemma in_upd : forall A (l : list A) i v x, In x (upd l i v) -> x = v \/ In x l.
Proof.
  induction l as [|a l IH]; intros [|i] v x; cbn; try tauto.
  - intros [H|H]; auto.
  - intros [H|H]; auto. destruct (IH _ _ _ H); auto.
Qed.

Lemma nodup_upd : forall A (l : list A) i v, NoDup l -> ~ In v l -> NoDup (upd l i v).
Proof.
  induction l as [|a l IH]; intros [|i] v Hn Hv; cbn; auto.
  - inversion Hn; subst. constructor; auto. intro. apply Hv. now right.
  - inversion Hn; subst. constructor.
    + intros C. apply in_upd in C. destruct C as [->|C]; auto. apply Hv. now left.
    + apply IH; auto. intro. apply Hv. now right.
Qed.

Section Holds.
  Context {A : Type}.
  Implicit Type (l : list (option A)) (stream : list A).

  Lemma holds_init : forall n, holds (repeat None n) (@nil A) [].
  Proof.
    intros n. split; [constructor|]. split; [intros p []|]. split; [cbn; lia|].
    intros i. rewrite repeat_length.
    assert (H : nth_error (@nil nat) i = None) by now destruct i. rewrite H. clear H.
    destruct (Nat.ltb_spec i n).
    - now apply nth_error_repeat.
    - apply nth_error_None. rewrite repeat_length. lia.
  Qed.

  Lemma holds_skip : forall l stream pos e, holds l stream pos -> holds l (stream ++ [e]) pos.
  Proof.
    intros l stream pos e [H1 [H2 [H3 H4]]]. split; auto. split.
    { intros p Hp. rewrite app_length. specialize (H2 p Hp). lia. }
    split; auto. intros i. rewrite H4. destruct (nth_error pos i) as [p|] eqn:Ep; auto.
    apply nth_error_In in Ep. specialize (H2 p Ep). rewrite nth_error_app1 by auto. reflexivity.
  Qed.

  Lemma holds_replace : forall l stream pos e i, holds l stream pos -> (i < length pos)%nat ->
    holds (upd l i (Some e)) (stream ++ [e]) (upd pos i (length stream)).
  Proof.
    intros l stream pos e i [H1 [H2 [H3 H4]]] Hi. split.
    { apply nodup_upd; auto. intros C. specialize (H2 _ C). lia. }
    split.
    { intros p Hp. rewrite app_length. cbn. apply in_upd in Hp. destruct Hp as [->|Hp]; [lia|].
      specialize (H2 p Hp). lia. }
    rewrite !upd_length. split; auto. intros j. rewrite !nth_error_upd.
    destruct (Nat.eqb_spec i j) as [->|Hne]; cbn [andb].
    - destruct (Nat.ltb_spec j (length l)); [|lia]. destruct (Nat.ltb_spec j (length pos)); [|lia].
      rewrite nth_error_snoc, Nat.ltb_irrefl, Nat.eqb_refl. reflexivity.
    - rewrite H4. destruct (nth_error pos j) as [p|] eqn:Ep; auto.
      apply nth_error_In in Ep. specialize (H2 p Ep). rewrite nth_error_app1 by auto. reflexivity.
  Qed.

  Lemma holds_append : forall l stream pos e, holds l stream pos -> (length pos < length l)%nat ->
    holds (upd l (length pos) (Some e)) (stream ++ [e]) (pos ++ [length stream]).
  Proof.
    intros l stream pos e [H1 [H2 [H3 H4]]] Hi. split.
    { apply (Permutation_NoDup (Permutation_cons_append _ _)).
      constructor; auto. intros C. specialize (H2 _ C). lia. }
    split.
    { intros p Hp. rewrite app_length. cbn. apply in_app_or in Hp. destruct Hp as [Hp|[<-|[]]]; [|lia].
      specialize (H2 p Hp). lia. }
    rewrite upd_length, app_length. cbn [length]. split; [lia|]. intros j. rewrite nth_error_upd, nth_error_snoc.
    destruct (Nat.eqb_spec (length pos) j) as [<-|Hne]; cbn [andb].
    - destruct (Nat.ltb_spec (length pos) (length l)); [|lia].
      rewrite Nat.ltb_irrefl, Nat.eqb_refl, nth_error_snoc, Nat.ltb_irrefl, Nat.eqb_refl. reflexivity.
    - rewrite H4. destruct (Nat.ltb_spec j (length pos)).
      + destruct (nth_error pos j) as [p|] eqn:Ep.
        * apply nth_error_In in Ep. specialize (H2 p Ep). rewrite nth_error_app1 by auto. reflexivity.
        * apply nth_error_None in Ep. lia.
      + destruct (Nat.eqb_spec j (length pos)); [lia|].
        rewrite (proj2 (nth_error_None pos j)) by lia. reflexivity.
  Qed.
End Holds.

(** ** Runs, for any arithmetic whose index computation stays in range *)
Section Gen.
  Variable O : ops.
  Context {A : Type}.
  Variable size : Z.
  Variable valid : num O -> Prop.
  Hypothesis Hsize : 1 <= size <= 2147483647.
  Hypothesis Hidx : forall r n, valid r -> 1 <= n <= size ->
    exists k, n2int O (nfloor O (nmul O r (nofZ O n))) = Ok k /\ 0 <= k < n.

  Lemma sidx_ok : forall c r1 r2, 0 <= c < 4294967296 -> valid r2 ->
    exists idx, sample_index O size c r1 r2 = Ok (idx, u32 (c + 1)) /\
      (c < size -> idx = c) /\ (idx = -1 \/ 0 <= idx < size).
  Proof.
    intros c r1 r2 Hc Hv. unfold sample_index.
    destruct (Z.ltb_spec c size).
    - exists c. cbn [bind]. rewrite to_int_small by lia. repeat split; auto. lia.
    - destruct (nlt O r1 _).
      + destruct (Hidx r2 size Hv ltac:(lia)) as [k [-> Hk]]. exists k. cbn [bind].
        repeat split; auto; lia.
      + exists (-1). cbn [bind]. repeat split; auto; lia.
  Qed.

  Lemma radd_ok : forall (s : @reservoir A) r1 r2 e,
    0 <= counter s < 4294967296 -> Z.of_nat (length (sample s)) = size -> valid r2 ->
    exists s' idx, radd O size s r1 r2 e = Ok (s', idx) /\ counter s' = u32 (counter s + 1) /\
      (counter s < size -> idx = counter s) /\
      ((idx = -1 /\ sample s' = sample s) \/
       (0 <= idx < size /\ sample s' = upd (sample s) (Z.to_nat idx) (Some e))).
  Proof.
    intros s r1 r2 e Hc Hl Hv. unfold radd.
    destruct (sidx_ok (counter s) r1 r2 Hc Hv) as [idx [-> [H1 H2]]]. cbn [bind].
    destruct H2 as [->|H2].
    - change (0 <=? -1) with false. do 2 eexists. split; [reflexivity|]. cbn. auto.
    - destruct (Z.leb_spec 0 idx); [|lia]. rewrite wr_ok by lia. cbn [bind].
      do 2 eexists. split; [reflexivity|]. cbn. auto.
  Qed.

  Lemma u32_mod : forall x, u32 (u32 x + 1) = u32 (x + 1).
  Proof. intros. unfold u32. now rewrite Zplus_mod_idemp_l. Qed.

  Lemma rrun_app : forall add (l1 l2 : list (A * (num O * num O))) s,
    run_with O add s (l1 ++ l2) =
    do (s1, i1) <- run_with O add s l1; do (s2, i2) <- run_with O add s1 l2; Ok (s2, i1 ++ i2).
  Proof.
    induction l1 as [|[e [r1 r2]] l1 IH]; intros l2 s.
    - cbn [app run_with bind]. destruct (run_with O add s l2) as [[? ?]| | |]; reflexivity.
    - cbn [app run_with]. destruct (add s r1 r2 e) as [[s1 i]| | |]; cbn [bind]; auto.
      rewrite IH. destruct (run_with O add s1 l1) as [[s2 is]| | |]; cbn [bind]; auto.
      destruct (run_with O add s2 l2) as [[s3 is2]| | |]; cbn [bind]; auto.
  Qed.

  Definition all_valid (l : list (A * (num O * num O))) : Prop :=
    forall e r1 r2, In (e, (r1, r2)) l -> valid r1 /\ valid r2.

  (** The counter and the length, for histories of any length. *)
  Lemma rrun_count : forall l, all_valid l ->
    exists s is, rrun O size l = Ok (s, is) /\ counter s = u32 (Z.of_nat (length l)) /\
      Z.of_nat (length (sample s)) = size /\ length is = length l /\
      forall i, In i is -> i = -1 \/ 0 <= i < size.
  Proof.
    induction l as [|[e [r1 r2]] l IH] using rev_ind; intros Hv.
    - exists (res_init size), []. unfold res_init. cbn. rewrite repeat_length.
      repeat split; auto; try lia.
    - destruct IH as [s [is [R1 [R2 [R3 [R4 R5]]]]]].
      { intros e' a b Hin. apply (Hv e' a b). apply in_or_app. auto. }
      unfold rrun in *. rewrite rrun_app, R1. cbn [bind run_with].
      destruct (Hv e r1 r2) as [_ V2]. { apply in_or_app. right. left. reflexivity. }
      destruct (radd_ok s r1 r2 e) as [s' [idx [-> [A1 [A2 A3]]]]]; auto.
      { rewrite R2. apply u32_range. }
      cbn [bind]. exists s', (is ++ [idx]). split; auto. split.
      { rewrite A1, R2, u32_mod, app_length. cbn [length]. do 2 f_equal. lia. }
      split. { destruct A3 as [[_ ->]|[_ ->]]; rewrite ?upd_length; auto. }
      rewrite !app_length, R4. split; auto. intros i Hi. apply in_app_or in Hi.
      destruct Hi as [Hi|[<-|[]]]; auto. tauto.
  Qed.

  Lemma rrun_holds : forall l, all_valid l -> Z.of_nat (length l) < 4294967296 ->
    exists s is pos, rrun O size l = Ok (s, is) /\ holds (sample s) (map fst l) pos /\
      counter s = Z.of_nat (length l) /\ Z.of_nat (length (sample s)) = size /\
      Z.of_nat (length pos) = Z.min (Z.of_nat (length l)) size /\
      (Z.of_nat (length l) <= size -> pos = seq 0 (length l)).
  Proof.
    induction l as [|[e [r1 r2]] l IH] using rev_ind; intros Hv Hlen.
    - exists (res_init size), [], []. split; [reflexivity|]. split; [apply holds_init|].
      cbn. rewrite repeat_length. repeat split; auto; lia.
    - rewrite app_length in Hlen. cbn [length] in Hlen.
      destruct IH as [s [is [pos [R1 [R2 [R3 [R4 [R5 R6]]]]]]]].
      { intros e' a b Hin. apply (Hv e' a b). apply in_or_app. auto. }
      { lia. }
      unfold rrun in *. rewrite rrun_app, R1. cbn [bind run_with].
      destruct (Hv e r1 r2) as [_ V2]. { apply in_or_app. right. left. reflexivity. }
      destruct (radd_ok s r1 r2 e) as [s' [idx [-> [A1 [A2 A3]]]]]; auto; [lia|].
      cbn [bind]. rewrite map_app. cbn [map fst].
      assert (Hc : counter s' = Z.of_nat (length (l ++ [(e, (r1, r2))]))).
      { rewrite A1, R3, app_length. cbn [length]. rewrite u32_small by lia. lia. }
      destruct (Z.ltb_spec (counter s) size).
      + assert (Hp : length pos = length l) by lia.
        destruct A3 as [[? _]|[_ A3]]; [lia|].
        exists s', (is ++ [idx]), (pos ++ [length (map fst l)]). split; auto.
        rewrite A3. rewrite (A2 H), R3. replace (Z.to_nat (Z.of_nat (length l))) with (length pos) by lia.
        split; [apply holds_append; auto; lia|]. split; auto.
        rewrite upd_length, !app_length, map_length. cbn [length]. split; auto. split; [lia|].
        intros _. rewrite R6 by lia. rewrite seq_app. reflexivity.
      + destruct A3 as [[_ A3]|[Hi A3]].
        * exists s', (is ++ [idx]), pos. rewrite A3. split; auto. split; [now apply holds_skip|].
          split; auto. rewrite app_length. cbn [length]. repeat split; auto; lia.
        * exists s', (is ++ [idx]), (upd pos (Z.to_nat idx) (length (map fst l))). rewrite A3.
          split; auto. split; [apply holds_replace; auto; lia|]. split; auto.
          rewrite !upd_length, app_length. cbn [length]. repeat split; auto; lia.
  Qed.

  Lemma radd_forced : forall l e r1 r2, all_valid l -> valid r2 ->
    u32 (Z.of_nat (length l)) < size ->
    exists s is s', rrun O size l = Ok (s, is) /\
      radd O size s r1 r2 e = Ok (s', u32 (Z.of_nat (length l))) /\
      nth_error (sample s') (Z.to_nat (u32 (Z.of_nat (length l)))) = Some (Some e).
  Proof.
    intros l e r1 r2 Hv Hv2 Hlt. destruct (rrun_count l Hv) as [s [is [R1 [R2 [R3 _]]]]].
    pose proof (u32_range (Z.of_nat (length l))) as Hr.
    destruct (radd_ok s r1 r2 e) as [s' [idx [A0 [A1 [A2 A3]]]]]; auto; [lia|].
    exists s, is, s'. split; auto. rewrite A2 in * by lia. rewrite R2 in *. split; auto.
    destruct A3 as [[? _]|[_ ->]]; [lia|]. apply nth_error_upd_same. lia.
  Qed.
End Gen.

(** ** Exponential reservoir *)
Section Exp.
  Context {A : Type}.
  Variable size : Z.
  Hypothesis Hsize : 1 <= size <= 2147483647.
  Notation add := (exp_add dops size).

  Lemma ddiv_self : B2R (ddiv (dofZ size) (dofZ size)) = 1%R /\
    is_finite (ddiv (dofZ size) (dofZ size)) = true.
  Proof.
    destruct (dofZ_exact size) as [E F]; [lia|]. unfold ddiv.
    assert (Hn : (IZR size <> 0)%R) by (apply not_0_IZR; lia).
    generalize (Bdiv_correct 53 1024 Hprec64 Hmax64 mode_NE (dofZ size) (dofZ size)).
    rewrite E. intros H. specialize (H Hn). 
    replace (IZR size / IZR size)%R with 1%R in H by (field; auto).
    rewrite round_generic in H; [|apply valid_rnd_N|apply (format_Z 1); vm_compute; discriminate].
    rewrite Rlt_bool_true in H.
    - destruct H as [H1 [H2 _]]. rewrite H1, H2. auto.
    - rewrite Rabs_R1. apply (bpow_lt radix2 0 1024). lia.
  Qed.

  Lemma ddiv_zero : forall r, unit_open r -> dlt r (ddiv (dofZ 0) (dofZ size)) = false.
  Proof.
    intros r [Fr Hr]. destruct (dofZ_exact size) as [E F]; [lia|].
    destruct (dofZ_exact 0) as [E0 F0]; [lia|].
    assert (Hn : (IZR size <> 0)%R) by (apply not_0_IZR; lia).
    generalize (Bdiv_correct 53 1024 Hprec64 Hmax64 mode_NE (dofZ 0) (dofZ size)).
    rewrite E, E0. intros H. specialize (H Hn).
    replace (0 / IZR size)%R with 0%R in H by (field; auto).
    rewrite round_0 in H by apply valid_rnd_N. rewrite Rlt_bool_true in H.
    - destruct H as [H1 [H2 _]]. destruct (dlt r (ddiv (dofZ 0) (dofZ size))) eqn:El; auto.
      assert (Fd : is_finite (ddiv (dofZ 0) (dofZ size)) = true) by (unfold ddiv; now rewrite H2).
      apply (dlt_true _ _ Fr Fd) in El. unfold ddiv in El. rewrite H1 in El. lra.
    - rewrite Rabs_R0. apply bpow_gt_0.
  Qed.

  Lemma exp_add_ok : forall (s : @reservoir A) r1 r2 e, unit_open r1 -> unit_open r2 ->
    0 <= counter s <= size -> Z.of_nat (length (sample s)) = size ->
    exists s' idx, add s r1 r2 e = Ok (s', idx) /\
      sample s' = upd (sample s) (Z.to_nat idx) (Some e) /\
      ((0 <= idx < counter s /\ counter s' = counter s) \/
       (idx = counter s /\ counter s < size /\ counter s' = counter s + 1)).
  Proof.
    intros s r1 r2 e V1 V2 Hc Hl. unfold exp_add, exp_sample_index. cbn [num nlt ndiv nofZ n2int nfloor nmul dops].
    destruct (Z.eq_dec (counter s) 0) as [H0|H0].
    - rewrite H0. rewrite ddiv_zero by auto. change (to_int 0) with 0. change (u32 (0 + 1)) with 1. cbn [bind].
      change (0 <=? 0) with true. cbn iota. rewrite wr_ok by lia. cbn [bind]. do 2 eexists.
      split; [reflexivity|]. cbn [sample counter]. split; auto. right. lia.
    - destruct (dlt r1 (ddiv (dofZ (counter s)) (dofZ size))) eqn:El.
      + destruct (floor_unit_open r2 (counter s) V2) as [k [-> [_ Hk]]]; [lia|]. cbn [bind].
        destruct (Z.leb_spec 0 k); [|lia]. rewrite wr_ok by lia. cbn [bind].
        do 2 eexists. split; [reflexivity|]. cbn [sample counter]. split; auto.
      + assert (Hlt : counter s < size).
        { destruct (Z.eq_dec (counter s) size) as [Heq|]; [|lia]. exfalso. rewrite Heq in El.
          destruct ddiv_self as [D1 D2]. destruct V1 as [F1 R1].
          assert (dlt r1 (ddiv (dofZ size) (dofZ size)) = true); [|congruence].
          apply dlt_true; auto. rewrite D1. lra. }
        rewrite to_int_small, u32_small by lia. cbn [bind].
        destruct (Z.leb_spec 0 (counter s)); [|lia]. rewrite wr_ok by lia. cbn [bind].
        do 2 eexists. split; [reflexivity|]. cbn [sample counter]. split; auto.
  Qed.

  Lemma exp_run_ok : forall l : list (A * (dbl * dbl)), draws_open l ->
    exists s is pos, exp_run dops size l = Ok (s, is) /\ holds (sample s) (map fst l) pos /\
      counter s = Z.of_nat (length pos) /\ counter s <= size /\
      Z.of_nat (length (sample s)) = size /\ length is = length l /\
      (forall i, In i is -> 0 <= i < size) /\
      (l <> [] -> In (length l - 1)%nat pos).
  Proof.
    induction l as [|[e [r1 r2]] l IH] using rev_ind; intros Hv.
    - exists (res_init size), [], []. split; [reflexivity|]. split; [apply holds_init|].
      cbn. rewrite repeat_length. repeat split; auto; try lia; try (intros i []; fail); try congruence.
    - destruct IH as [s [is [pos [R1 [R2 [R3 [R4 [R5 [R6 [R7 R8]]]]]]]]]].
      { intros e' a b Hin. apply (Hv e' a b). apply in_or_app. auto. }
      unfold exp_run in *. rewrite rrun_app, R1. cbn [bind run_with].
      destruct (Hv e r1 r2) as [V1 V2]. { apply in_or_app. right. left. reflexivity. }
      destruct (exp_add_ok s r1 r2 e) as [s' [idx [-> [A1 A2]]]]; auto; [lia|].
      cbn [bind]. rewrite map_app. cbn [map fst].
      destruct A2 as [[A2 A3]|[A2 [A3 A4]]].
      + exists s', (is ++ [idx]), (upd pos (Z.to_nat idx) (length (map fst l))). split; auto.
        rewrite A1. split; [apply holds_replace; auto; lia|].
        rewrite !upd_length, !app_length. cbn [length]. repeat split; auto; try lia.
        * apply in_app_or in H. destruct H as [H|[<-|[]]]; [now apply R7|lia].
        * apply in_app_or in H. destruct H as [H|[<-|[]]]; [now apply R7|lia].
        * intros _. rewrite map_length. replace (length l + 1 - 1)%nat with (length l) by lia.
          apply (nth_error_In _ (Z.to_nat idx)). apply nth_error_upd_same. lia.
      + exists s', (is ++ [idx]), (pos ++ [length (map fst l)]). split; auto.
        rewrite A1, A2. replace (Z.to_nat (counter s)) with (length pos) by lia.
        split; [apply holds_append; auto; lia|].
        rewrite upd_length, !app_length. cbn [length]. repeat split; auto; try lia.
        * apply in_app_or in H. destruct H as [H|[<-|[]]]; [now apply R7|lia].
        * apply in_app_or in H. destruct H as [H|[<-|[]]]; [now apply R7|lia].
        * intros _. rewrite map_length. replace (length l + 1 - 1)%nat with (length l) by lia.
          apply in_or_app. right. now left.
  Qed.
End Exp.

(** ** binary64 instance *)
Lemma dops_idx : forall size, 1 <= size <= 2147483647 -> forall r n, unit_open r -> 1 <= n <= size ->
  exists k, n2int dops (nfloor dops (nmul dops r (nofZ dops n))) = Ok k /\ 0 <= k < n.
Proof.
  intros size Hs r n Hr Hn. cbn. destruct (floor_unit_open r n Hr) as [k [H1 [_ H2]]]; [lia|]. eauto.
Qed.

Lemma one_mul : forall n, 0 <= n <= 2147483647 ->
  d2int (dfloor (dmul done (dofZ n))) = Ok n.
Proof.
  intros n Hn. destruct (dofZ_exact 1) as [E1 F1]; [lia|].
  destruct (dmul_unit done n) as [A [B C]]; auto; [unfold done; rewrite E1; lra|lia|].
  assert (V : B2R (dmul done (dofZ n)) = IZR n).
  { rewrite A. unfold done. rewrite E1, Rmult_1_l. apply round_generic; [apply valid_rnd_N|].
    apply format_Z. lia. }
  assert (T : Ztrunc (B2R (dfloor (dmul done (dofZ n)))) = n).
  { rewrite dfloor_val, Ztrunc_IZR, V. apply Zfloor_IZR. }
  rewrite d2int_ok; rewrite ?T; auto; try lia. now rewrite dfloor_fin.
Qed.

Lemma ratio_pos : forall n, 1 <= n <= 2147483647 ->
  dlt dzero (ddiv (dofZ n) (dofZ (u32 (n + 1)))) = true.
Proof.
  intros n Hn. rewrite u32_small by lia.
  destruct (dofZ_exact n) as [E F]; [lia|]. destruct (dofZ_exact (n + 1)) as [E' F']; [lia|].
  destruct (dofZ_exact 0) as [E0 F0]; [lia|].
  assert (Hz : (IZR (n + 1) <> 0)%R) by (apply not_0_IZR; lia).
  assert (P1 : (1 <= IZR n)%R) by (apply IZR_le; lia).
  assert (P2 : IZR (n + 1) = (IZR n + 1)%R) by (rewrite plus_IZR; reflexivity).
  generalize (Bdiv_correct 53 1024 Hprec64 Hmax64 mode_NE (dofZ n) (dofZ (n + 1))).
  rewrite E, E'. intros H. specialize (H Hz).
  assert (Hlo : (/ 2 <= IZR n / IZR (n + 1))%R).
  { apply Rmult_le_reg_r with (IZR (n + 1)); [lra|]. field_simplify; lra. }
  assert (Hhi : (IZR n / IZR (n + 1) <= 1)%R).
  { apply Rmult_le_reg_r with (IZR (n + 1)); [lra|]. field_simplify; lra. }
  assert (Rlo : (/ 2 <= round radix2 (SpecFloat.fexp 53 1024) (round_mode mode_NE) (IZR n / IZR (n + 1)))%R).
  { apply round_ge_generic; [apply fexp_correct; reflexivity | apply valid_rnd_N| |exact Hlo].
    change (/ 2)%R with (bpow radix2 (-1)). apply generic_format_bpow. vm_compute. discriminate. }
  assert (Rhi : (round radix2 (SpecFloat.fexp 53 1024) (round_mode mode_NE) (IZR n / IZR (n + 1)) <= 1)%R).
  { apply round_le_generic; [apply fexp_correct; reflexivity | apply valid_rnd_N| |exact Hhi].
    apply (format_Z 1). lia. }
  rewrite Rlt_bool_true in H.
  - destruct H as [H1 [H2 _]]. apply dlt_true; auto.
    + unfold ddiv. now rewrite H2.
    + unfold ddiv, dzero. rewrite H1, E0. lra.
  - rewrite Rabs_pos_eq by lra. apply Rle_lt_trans with 1%R; auto. apply (bpow_lt radix2 0 1024). lia.
Qed.

Lemma unit_zero : unit_open dzero.
Proof.
  destruct (dofZ_exact 0) as [E0 F0]; [lia|]. split; auto. unfold dzero. rewrite E0. lra.
Qed.

Lemma rand_one_ub : forall size, 1 <= size <= 2147483647 ->
  rrun dops size (repeat (tt, (dzero, dzero)) (Z.to_nat size) ++ [(tt, (dzero, done))]) = Undef OutOfBounds.
Proof.
  intros size Hs. unfold rrun. rewrite rrun_app.
  destruct (rrun_holds dops (A := unit) size unit_open Hs (dops_idx size Hs)
    (repeat (tt, (dzero, dzero)) (Z.to_nat size))) as [s [is [pos [R1 [R2 [R3 [R4 _]]]]]]].
  { intros e a b H. apply repeat_spec in H. injection H as -> -> ->. split; apply unit_zero. }
  { rewrite repeat_length. lia. }
  unfold rrun in R1. rewrite R1. cbn [bind run_with]. rewrite repeat_length in R3.
  unfold radd, sample_index. rewrite R3, Z2Nat.id by lia. rewrite Z.ltb_irrefl.
  cbn [num nlt ndiv nofZ dops]. rewrite ratio_pos by auto.
  cbn [n2int nfloor nmul nofZ dops]. rewrite one_mul by lia. cbn [bind].
  destruct (Z.leb_spec 0 size); [|lia]. rewrite wr_oob by lia. reflexivity.
Qed.

Lemma at_max : forall A size (s : @reservoir A) r1 r2 e, 1 <= size <= 2147483647 ->
  counter s = 4294967295 -> Z.of_nat (length (sample s)) = size -> unit_open r1 -> unit_open r2 ->
  exists s' idx, radd dops size s r1 r2 e = Ok (s', idx) /\ 0 <= idx < size /\ counter s' = 0.
Proof.
  intros A size s r1 r2 e Hs Hc Hl [F1 V1] V2. unfold radd, sample_index. rewrite Hc.
  destruct (Z.ltb_spec 4294967295 size); [lia|]. change (u32 (4294967295 + 1)) with 0.
  cbn [num nlt ndiv nofZ dops].
  assert (Hd : ddiv (dofZ size) (dofZ 0) = B754_infinity false).
  { destruct (dofZ_exact size) as [E F]; [lia|].
    assert (P1 : (1 <= IZR size)%R) by (apply IZR_le; lia).
    change (dofZ 0) with (B754_zero false : dbl). unfold ddiv, Bdiv. destruct (dofZ size) as [sg|sg| |sg m e' He]; try discriminate.
    - cbn in E. lra.
    - destruct sg; auto. exfalso. cbn in E. rewrite <- E in P1.
      assert (F2R (Float radix2 (Z.neg m) e') < 0)%R by (apply F2R_lt_0; reflexivity). lra. }
  rewrite Hd.
  assert (Hl1 : dlt r1 (B754_infinity false) = true).
  { destruct r1 as [sg|sg| |sg m e' He]; try discriminate; reflexivity. }
  rewrite Hl1. destruct (floor_unit_open r2 size V2) as [k [K1 [_ K2]]]; [lia|].
  cbn [n2int nfloor nmul nofZ dops]. rewrite K1. cbn [bind].
  destruct (Z.leb_spec 0 k); [|lia]. rewrite wr_ok by lia. cbn [bind]. do 2 eexists.
  split; [reflexivity|]. auto.
Qed.
