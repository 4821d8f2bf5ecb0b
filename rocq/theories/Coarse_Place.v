(** * Where the coarse Mondrian forest splits a leaf at the barycenter *)
From Coq Require Import ZArith List Bool Lia Reals Lra Permutation.
From Flocq Require Import Core BinarySingleNaN Plus_error.
From Verif Require Import CppBase CppFacts Dbl DblFacts NumOps NumFacts Utils_Model Utils_Spec Utils_Proofs MCNN_Num.
From Verif Require Import Mondrian_Model Mondrian_Spec Mondrian_Proofs Mondrian_Num.
From Verif Require Import Coarse_Model Coarse_Spec Coarse_Heap Coarse_Walk Coarse_Trim Coarse_Train Coarse_Forest Coarse_Center Coarse_Center_Laws Coarse_Center_Forest.
Import ListNotations.
Local Open Scope Z_scope.

(** A weight of zero is never picked. *)
Lemma zero_share : forall z (sum : dbl), ddiv (B754_zero z) sum = dnan \/ exists b, ddiv (B754_zero z) sum = B754_zero b.
Proof. intros z sum. destruct sum as [s|s| |s m e He]; cbn; eauto. Qed.
Lemma add_nan : forall x : dbl, dadd x dnan = dnan.
Proof. intros x. destruct x; reflexivity. Qed.
Lemma le_nan : forall x : dbl, dle x dnan = false.
Proof. intros x. destruct x as [s|[|]| |[|] m e He]; reflexivity. Qed.
Lemma picked : forall (w p : list (num dops)) n sum u i, w <> [] -> Z.of_nat (length w) = n -> ddraw u ->
  turn_array_into_probability dops w n sum = Ok p -> pick_from_distribution dops u p n = Ok i -> i < n ->
  forall q, nth_error w (Z.to_nat i) = Some q -> forall z, q <> B754_zero z.
Proof.
  intros w p n sum u i Ne Hn [Fu Hu] T P Hi q Hq z ->. unfold turn_array_into_probability in T. inv_bind T. clear E. rename v into sm. rewrite <- Hn, Nat2Z.id in T.
  destruct (turn_loop dops w sm Ne) as [p' [P1 [P2 P3]]]. assert (X : Ok p' = Ok p) by (rewrite <- P1; exact T). injection X as ->. clear T P1.
  destruct (pick_ok dops u p n) as [i' [Q1 [Q2 [Q3 Q4]]]]; [rewrite P2; exact Hn|]. rewrite P in Q1. injection Q1 as <-. destruct (Q4 Hi) as [y [Y1 Y2]].
  change (num dops) with dbl in *. rewrite P3 in Y1 by lia. injection Y1 as <-. pose proof (nth_error_nth _ _ (nofZ dops 0) Hq) as En.
  destruct (Z.to_nat i) as [|m] eqn:Ei; cbn [cfun] in Y2; rewrite En in Y2; cbn [nle nadd ndiv dops] in Y2.
  - destruct (zero_share z sm) as [X|[b X]]; rewrite X in Y2; [rewrite le_nan in Y2; discriminate|]. apply dle_true in Y2; auto. cbn in Y2. lra.
  - specialize (Q3 m _ ltac:(lia) (P3 m ltac:(lia))). cbn [nle dops] in Q3. destruct (zero_share z sm) as [X|[b X]]; rewrite X in Y2; [rewrite add_nan, le_nan in Y2; discriminate|].
    rewrite dadd_zero in Y2 by (auto; reflexivity). congruence.
Qed.

Section Place.
  Variable O : ops.
  Variable log_ : num O -> num O.
  Variable rnd : nat -> num O.
  Variable c : config O.
  Local Notation n_ := (nofZ O).
  Local Notation fc := (c_features O c).
  (** ** The weights of the dimensions *)
  Definition near (d : num O) : num O := if nlt O d (n_ 0) then nmul O (n_ (-1)) d else d.
  Lemma weights : forall bary (n : node O) x probs sum,
    forZ (Z.to_nat fc) 0
      (fun i '(probs, sum) =>
         do b <- rd bary i;
         do lo <- rdi (bound_lower O n) i;
         do hi <- rdi (bound_upper O n) i;
         do x <- rd x i;
         if nlt O lo b && nlt O b hi then
           let d := nsub O b x in
           let d := if nlt O d (n_ 0) then nmul O (n_ (-1)) d else d in
           Ok (probs ++ [d], nadd O sum d)
         else Ok (probs ++ [n_ 0], sum)) ([], n_ 0) = Ok (probs, sum) ->
    length probs = Z.to_nat fc /\
    forall i q, 0 <= i -> nth_error probs (Z.to_nat i) = Some q -> exists b lo hi xi, rd bary i = Ok b /\ rdi (bound_lower O n) i = Ok lo /\ rdi (bound_upper O n) i = Ok hi /\ rd x i = Ok xi /\
      q = if nlt O lo b && nlt O b hi then near (nsub O b xi) else n_ 0.
  Proof.
    intros bary n x probs sum H.
    pose (P := fun (k : Z) (st : list (num O) * num O) => 0 <= k /\ length (fst st) = Z.to_nat k /\
      forall i q, 0 <= i -> nth_error (fst st) (Z.to_nat i) = Some q -> exists b lo hi xi, rd bary i = Ok b /\ rdi (bound_lower O n) i = Ok lo /\ rdi (bound_upper O n) i = Ok hi /\ rd x i = Ok xi /\
        q = if nlt O lo b && nlt O b hi then near (nsub O b xi) else n_ 0).
    assert (F : P (0 + Z.of_nat (Z.to_nat fc)) (probs, sum)).
    { refine (forZ_inv_post _ P _ _ 0 _ _ _ _ H).
      - split; [lia|]. split; [reflexivity|]. intros i q _ X. cbn [fst] in X. destruct (Z.to_nat i); discriminate.
      - intros k [ps sm] st' Hk [K0 [Ln Q]] Hb. cbn [fst] in *. inv_bind Hb. inv_bind Hb. inv_bind Hb. inv_bind Hb.
        assert (Ep : exists w, fst st' = ps ++ [w] /\ w = if nlt O v0 v && nlt O v v1 then near (nsub O v v2) else n_ 0) by (destruct (_ && _); injection Hb as <-; eexists; split; reflexivity).
        destruct Ep as [w [Ep Ew]]. split; [lia|]. rewrite Ep. split; [rewrite app_length; cbn; lia|]. intros i q Hi Hq. destruct (Z.eq_dec i k) as [->|N].
        + rewrite nth_error_app2, Ln, Nat.sub_diag in Hq by lia. injection Hq as <-. exists v, v0, v1, v2. auto.
        + apply Q; [exact Hi|]. assert (Z.to_nat i < length (ps ++ [w]))%nat by (apply nth_error_Some; congruence). rewrite app_length in H0. cbn in H0. rewrite nth_error_app1 in Hq by lia. exact Hq. }
    destruct F as [_ [F1 F2]]. cbn [fst] in *. split; [rewrite F1; lia|exact F2].
  Qed.

  (** ** A leaf of a tree *)
  Variable k : Z.
  Variable lim : res Z.
  Lemma leaf_before : forall t s p rest D i cs, before O c k lim s p t rest D -> In (i, cs) (cleaves O t) -> exists p' rest' D', before O c k lim s p' (CLeaf i cs) rest' D'.
  Proof.
    induction t as [j cs0|j d v cs0 l IHl r IHr]; intros s p rest D i cs Bf I.
    - destruct I as [E|[]]. injection E as -> ->. eauto.
    - pose proof Bf as [K1 [K2 [K3 [K4 K5]]]]. destruct K1 as [m [U1 [U2 [U3 [U4 [U5 [B1 [B2 [B3 [B4 [B5 [B6 B7]]]]]]]]]]]].
      assert (Bi : 0 <= j < c_nodes O c) by (destruct K2 as [_ [_ [P _]]]; apply P, in_or_app; right; now left).
      assert (Up : forall rest', (forall q, In q rest -> In q rest') -> In j rest' -> above O (fr O s) rest' j (D + 1)).
      { intros rest' Sub Ii. apply above_up with m; auto. rewrite U2. clear -K3 Sub. induction K3; [constructor|]. econstructor; eauto. }
      cbn [cleaves] in I. apply in_app_or in I. destruct I as [I|I].
      + apply (IHl s j (rest ++ j :: cids O r) (D + 1)); [|exact I]. split; [exact B6|]. split; [|split; [|split; [|exact K5]]].
        * eapply cpool_perm; [|exact K2]. rewrite <- app_assoc. apply Permutation_app_head. cbn [app cids]. apply perm_skip, Permutation_app_comm.
        * apply Up; [intros; apply in_or_app; now left|apply in_or_app; right; now left].
        * right. split; [lia|]. apply in_or_app. right. now left.
      + apply (IHr s j (rest ++ j :: cids O l) (D + 1)); [|exact I]. split; [exact B7|]. split; [|split; [|split; [|exact K5]]].
        * eapply cpool_perm; [|exact K2]. rewrite <- app_assoc. apply Permutation_app_head. apply Permutation_refl.
        * apply Up; [intros; apply in_or_app; now left|apply in_or_app; right; now left].
        * right. split; [lia|]. apply in_or_app. right. now left.
  Qed.
End Place.

(** ** The place and the time of the split *)
Section Split.
  Variable O : ops.
  Variable c : config O.
  (** [b] is the value of the barycenter of the tree [k] in the dimension [d]. *)
  Definition center_at (s : coarse O) (k d : Z) (b : num O) : Prop :=
    (c_helper O c = SPLIT_HELPER_WEIGHTED /\ exists root bary, rd (roots O (fr O s)) k = Ok root /\ find_barycenter O c s root = Ok bary /\ rd bary d = Ok b) \/
    (c_helper O c = SPLIT_HELPER_AVG /\ exists x, rdi (sum_features O s) d = Ok x /\ b = ndiv O x (count_points O s)).
End Split.

Lemma averages : forall O (xs : list (option (num O))) (m : num O) n bary d b,
  forZ (Z.to_nat n) 0 (fun i acc => do x <- rdi xs i; Ok (acc ++ [ndiv O x m])) [] = Ok bary -> rd bary d = Ok b -> exists x, rdi xs d = Ok x /\ b = ndiv O x m.
Proof.
  intros O xs m n bary d b H Hb.
  pose (P := fun (k : Z) (st : list (num O)) => 0 <= k /\ length st = Z.to_nat k /\ forall d b, rd st d = Ok b -> exists x, rdi xs d = Ok x /\ b = ndiv O x m).
  assert (F : P (0 + Z.of_nat (Z.to_nat n)) bary).
  { refine (forZ_inv_post _ P _ _ 0 _ _ _ _ H).
    - split; [lia|]. split; [reflexivity|]. intros d0 b0 X. pose proof (rd_bounds _ _ _ _ X) as B. cbn in B. lia.
    - intros k st st' Hk [K0 [Ln Q]] X. inv_bind X. injection X as <-. split; [lia|]. split; [rewrite app_length; cbn; lia|]. intros d0 b0 Y. pose proof (rd_bounds _ _ _ _ Y) as B. rewrite app_length in B. cbn in B.
      apply rd_ok_iff in Y. destruct Y as [Y0 Y]. destruct (Z.eq_dec d0 k) as [->|N].
      + rewrite nth_error_app2, Ln, Nat.sub_diag in Y by lia. injection Y as <-. eauto.
      + rewrite nth_error_app1 in Y by lia. apply Q. apply rd_ok_iff. auto. }
  destruct F as [_ [_ F]]. now apply F.
Qed.

Lemma near_zero : forall b x : dbl, is_finite b = true -> is_finite x = true -> B2R b = B2R x -> exists z, near dops (dsub b x) = B754_zero z.
Proof.
  intros b x Fb Fx E. pose proof (Bminus_correct 53 1024 Hprec64 Hmax64 mode_NE b x Fb Fx) as C. change (Bminus mode_NE b x) with (dsub b x) in C. change (round_mode mode_NE) with ZnearestE in C.
  rewrite E, Rminus_diag_eq, rnd_0 in C by reflexivity. rewrite Rlt_bool_true in C by (rewrite Rabs_R0; apply bpow_gt_0). destruct C as [C1 [C2 _]].
  destruct (dsub b x) as [b'|b'| |b' m' e' He']; try discriminate.
  - unfold near. cbn [nlt nofZ dops]. exists b'. destruct b'; reflexivity.
  - exfalso. cbn [B2R] in C1. apply (F2R_neq_0 radix2 (Float radix2 (cond_Zopp b' (Zpos m')) e')) in C1; auto. destruct b'; discriminate.
Qed.
Lemma inside_finite : forall lo b hi : dbl, dlt lo b = true -> dlt b hi = true -> is_finite b = true.
Proof. intros lo b hi H1 H2. destruct b as [s|s| |s m e He]; try reflexivity; exfalso; [destruct s|]; destruct lo as [s1|[|]| |[|] m1 e1 H1']; try discriminate; destruct hi as [s2|[|]| |[|] m2 e2 H2']; discriminate. Qed.

(** A share of the way from [lo] to [hi], rounded. *)
Definition share (u lo hi : R) : R := rnd64 (u * rnd64 (hi - lo)).
Lemma share_le : forall u lo hi : dbl, (0 < B2R u < 1)%R -> (B2R lo <= B2R hi)%R -> (0 <= share (B2R u) (B2R lo) (B2R hi) <= B2R hi - B2R lo)%R.
Proof.
  intros u lo hi Hu Le. unfold share. set (x := (B2R hi - B2R lo)%R). set (r := rnd64 x). assert (X0 : (0 <= x)%R) by (unfold x; lra).
  assert (R0 : (0 <= r)%R) by (unfold r; rewrite <- rnd_0; now apply rnd_le). assert (Fr : generic_format radix2 fexp64 r) by (apply generic_format_round; [exact valid64|apply valid_rnd_N]).
  assert (Ur : (rnd64 (B2R u * r) <= r)%R) by (rewrite <- (rnd_id r) at 2 by exact Fr; apply rnd_le; nra).
  split; [rewrite <- rnd_0; apply rnd_le; nra|]. destruct (Rle_lt_dec r x) as [H|H]; [lra|].
  assert (Big : (bpow radix2 (53 + SpecFloat.emin 53 1024) < x)%R).
  { destruct (Rlt_le_dec (bpow radix2 (53 + SpecFloat.emin 53 1024)) x) as [G|G]; [exact G|exfalso].
    assert (Fx : generic_format radix2 fexp64 x).
    { unfold x, Rminus. change fexp64 with (FLT_exp (SpecFloat.emin 53 1024) 53). apply FLT_format_plus_small; [exact Hprec64|apply generic_format_B2R|apply generic_format_opp, generic_format_B2R|]. change (B2R hi + - B2R lo)%R with x. rewrite Rabs_pos_eq by exact X0. exact G. }
    apply (rnd_id x) in Fx. fold r in Fx. lra. }
  set (p := pred radix2 fexp64 r). assert (Fp : generic_format radix2 fexp64 p) by (apply generic_format_pred; auto; exact valid64).
  assert (Sp : succ radix2 fexp64 p = r) by (apply succ_pred; auto; exact valid64).
  assert (Fb : generic_format radix2 fexp64 (bpow radix2 (53 + SpecFloat.emin 53 1024))) by (change fexp64 with (FLT_exp (SpecFloat.emin 53 1024) 53); apply generic_format_FLT_bpow; [exact Hprec64|vm_compute; discriminate]).
  pose proof (bpow_gt_0 radix2 (53 + SpecFloat.emin 53 1024)) as B0. assert (Pb : (bpow radix2 (53 + SpecFloat.emin 53 1024) <= p)%R) by (apply pred_ge_gt; auto; [exact valid64|lra]).
  assert (Pr : (p < r)%R) by (apply pred_lt_id; lra).
  assert (Px : (p <= x)%R). { destruct (Rle_lt_dec p x) as [G|G]; [exact G|exfalso]. assert (r <= p)%R; [|lra]. rewrite <- (rnd_id p Fp). unfold r. apply rnd_le. lra. }
  apply Rle_trans with p; [|exact Px]. apply round_N_le_midp; [exact valid64|exact Fp|]. rewrite Sp. pose proof (below_one u (proj2 Hu)) as Hb.
  assert (U : (ulp radix2 fexp64 p <= p * bpow radix2 (1 - 53))%R).
  { pose proof (ulp_FLT_le radix2 (SpecFloat.emin 53 1024) 53 p) as G. change (FLT_exp (SpecFloat.emin 53 1024) 53) with fexp64 in G. rewrite Rabs_pos_eq in G by lra. apply G.
    apply Rle_trans with (2 := Pb). apply bpow_le. lia. }
  rewrite succ_eq_pos in Sp by lra. replace (bpow radix2 (1 - 53)) with (2 * bpow radix2 (-53))%R in U by (change 2%R with (bpow radix2 1); rewrite <- bpow_plus; reflexivity).
  assert (B53 : (0 < bpow radix2 (-53))%R) by apply bpow_gt_0. nra.
Qed.
(** The value at a share of the way lies between the two ends. *)
Lemma way : forall u lo hi : dbl, is_finite u = true -> (0 < B2R u < 1)%R -> is_finite lo = true -> is_finite hi = true -> (B2R lo <= B2R hi)%R -> is_finite (dsub hi lo) = true ->
  (B2R lo <= B2R (dadd (dmul u (dsub hi lo)) lo) <= B2R hi)%R /\ (B2R lo <= B2R (dadd lo (dmul (dsub hi lo) u)) <= B2R hi)%R.
Proof.
  intros u lo hi Fu Hu Fl Fh Le Fd. destruct (share_le u lo hi Hu Le) as [S1 S2]. unfold share in *.
  assert (Ed : B2R (dsub hi lo) = rnd64 (B2R hi - B2R lo)).
  { pose proof (Bminus_correct 53 1024 Hprec64 Hmax64 mode_NE hi lo Fh Fl) as C. change (Bminus mode_NE hi lo) with (dsub hi lo) in C. change (round_mode mode_NE) with ZnearestE in C.
    destruct (Rlt_bool _ _); [apply C|]. destruct C as [C1 _]. exfalso. destruct (dsub hi lo); try discriminate. }
  set (d := dsub hi lo) in *. clearbody d. rewrite <- Ed in *. pose proof (abs_lt d) as Ad. apply Rabs_lt_inv in Ad.
  assert (Pd : (0 <= B2R d)%R) by (rewrite Ed, <- rnd_0; apply rnd_le; lra).
  assert (Sd : (rnd64 (B2R u * B2R d) <= B2R d)%R) by (rewrite <- (rnd_dbl d) at 2; apply rnd_le; nra).
  assert (M : forall a b : dbl, is_finite a = true -> is_finite b = true -> (B2R a * B2R b = B2R u * B2R d)%R -> is_finite (dmul a b) = true /\ B2R (dmul a b) = rnd64 (B2R u * B2R d)).
  { intros a b Fa Fb Eab. pose proof (Bmult_correct 53 1024 Hprec64 Hmax64 mode_NE a b) as C. change (Bmult mode_NE a b) with (dmul a b) in C. change (round_mode mode_NE) with ZnearestE in C. rewrite Eab in C.
    rewrite Rlt_bool_true in C by (apply Rabs_def1; lra). destruct C as [C1 [C2 _]]. rewrite C1, C2, Fa, Fb. auto. }
  assert (K : forall a b : dbl, is_finite a = true -> is_finite b = true -> (B2R a + B2R b = B2R lo + rnd64 (B2R u * B2R d))%R -> (B2R lo <= B2R (dadd a b) <= B2R hi)%R).
  { intros a b Fa Fb Eab. pose proof (Bplus_correct 53 1024 Hprec64 Hmax64 mode_NE a b Fa Fb) as C. change (Bplus mode_NE a b) with (dadd a b) in C. change (round_mode mode_NE) with ZnearestE in C. rewrite Eab in C.
    assert (B : (B2R lo <= rnd64 (B2R lo + rnd64 (B2R u * B2R d)) <= B2R hi)%R) by (apply rnd_between; [apply rnd_dbl|apply rnd_dbl|lra]).
    pose proof (abs_lt lo) as A1. pose proof (abs_lt hi) as A2. apply Rabs_lt_inv in A1, A2. rewrite Rlt_bool_true in C by (apply Rabs_def1; lra). destruct C as [C1 _]. rewrite C1. exact B. }
  destruct (M u d Fu Fd eq_refl) as [M1 M2]. destruct (M d u Fd Fu (Rmult_comm _ _)) as [N1 N2].
  split; apply K; auto; rewrite ?M2, ?N2; ring.
Qed.

Section Main.
  Variable log_ : dbl -> dbl.
  Variable rnd : nat -> dbl.
  Variable c : config dops.
  Hypothesis Hd : forall k, ddraw (rnd k).
  Hypothesis Hlife : nlt dops (c_life dops c) (nofZ dops 0) = false.
  Hypothesis Hn : 0 < c_nodes dops c.
  Let Hmid : forall t0 t q, nlt dops t0 (nofZ dops 0) = false -> nlt dops t (nofZ dops 0) = false -> nlt dops (nadd dops t0 (nmul dops (nsub dops t t0) (rnd q))) (nofZ dops 0) = false.
  Proof. intros t0 t q H0 H. exact (mid_dops t0 t (rnd q) H0 H (Hd q)). Qed.

  Lemma split_place : forall k lim s p i cs rest D t0 n x label s', before dops c k lim s p (CLeaf i cs) rest D -> nlt dops t0 (nofZ dops 0) = false -> (forall l, 0 <= l < c_labels dops c -> 0 <= at_label l cs) ->
    Z.of_nat (length x) = c_features dops c -> get dops s i = Ok n -> split_barycenter dops log_ rnd c s i k x label t0 = Ok (s', true) ->
    exists d b lo hi xd q a na ni, 0 <= d < c_features dops c /\ center_at dops c s k d b /\ rdi (bound_lower dops n) d = Ok lo /\ rdi (bound_upper dops n) d = Ok hi /\ rd x d = Ok xd /\
      dlt lo b = true /\ dlt b hi = true /\ (is_finite xd = true -> B2R b <> B2R xd) /\
      get dops s' a = Ok na /\ get dops s' i = Ok ni /\ parent dops ni = a /\ split_dimension dops na = d /\
      split_value dops na = Some (dadd (dmul (rnd q) (dsub (if dlt xd b then b else xd) (if dlt b xd then b else xd))) (if dlt b xd then b else xd)) /\
      tau dops na = dadd t0 (dmul (dsub (tau dops n) t0) (rnd q)).
  Proof.
    intros k lim s p i cs rest D t0 n x label s' Bf Ht Hcs Hx Gn H. unfold split_barycenter in H. rewrite Gn in H. cbn [bind] in H. destruct (c_helper dops c =? SPLIT_HELPER_NONE); [discriminate|].
    inv_bind H. rename v into bary, E into Eb. inv_bind H. destruct v as [probs sum]. apply weights in E. destruct E as [Lp W]. destruct (draw_time dops log_ rnd s sum) as [e s0] eqn:Ed. apply draw_time_only in Ed.
    destruct (neq dops sum (nofZ dops 0)); [discriminate|]. inv_bind H. rename v into probs', E into Et. destruct (Coarse_Model.uniform dops rnd s0) as [u s1] eqn:Eu. inv_bind H. rename v into d, E into Ep. inv_bind H. rename v into b, E into Ebd. inv_bind H. rename v into xd, E into Exd.
    destruct (Coarse_Model.uniform dops rnd s1) as [u2 s2] eqn:Eu2. inv_bind H. rename v into s3, E into Es. injection H as <-.
    unfold Coarse_Model.uniform, Mondrian_Model.uniform in Eu, Eu2. injection Eu as Eu <-. injection Eu2 as Eu2 <-.
    assert (Dr : drawn_only dops s (with_fr dops (with_fr dops s0 (mkForest dops (nodes dops (fr dops s0)) (roots dops (fr dops s0)) (S (drawn dops (fr dops s0))))) (mkForest dops (nodes dops (fr dops s0)) (roots dops (fr dops s0)) (S (S (drawn dops (fr dops s0))))))) by (eapply drawn_only_trans; [exact Ed|repeat split]).
    pose proof Bf as [H1 [H2 _]]. destruct (stored_node dops c _ (fr dops s) p H1) as [m [M1 [M2 [M3 [M4 [M5 M6]]]]]]. cbn [Coarse_Spec.ctop] in M1. assert (m = n) by (unfold Coarse_Model.get in Gn; congruence). subst m.
    apply (split_at_ok dops rnd c tlaws_dops Hlife k lim x label Hx Hn clean_dops _ p i cs rest D) in Es; [|eapply before_drawn; [exact Dr|exact Bf]|rewrite <- Eu2; apply Hmid; auto|exact Hcs].
    destruct Es as [a [b' [left [all [xd' [Ex [Hl [[St _] [na [Ga Ta]]]]]]]]]]. pose proof (rd_bounds _ _ _ _ Exd) as Bd. rewrite Hx in Bd.
    destruct (nth_error probs (Z.to_nat d)) as [w|] eqn:Ew; [|apply nth_error_None in Ew; lia]. destruct (W d w ltac:(lia) Ew) as [b0 [lo [hi [xd0 [W1 [W2 [W3 [W4 W5]]]]]]]].
    assert (b0 = b) by congruence. assert (xd0 = xd) by congruence. subst b0 xd0.
    assert (Nz : forall z, w <> B754_zero z).
    { apply (picked probs probs' (c_features dops c) sum u d) with (5 := Ep); [|lia|rewrite <- Eu; apply Hd|exact Et|lia|exact Ew]. intros ->. cbn in Lp. lia. }
    cbn [nlt nsub dops] in W5. destruct (dlt lo b && dlt b hi) eqn:In; [|exfalso; apply (Nz false); rewrite W5; apply B2SF_inj; vm_compute; reflexivity]. apply andb_prop in In. destruct In as [I1 I2].
    exists d, b, lo, hi, xd, (S (drawn dops (fr dops s0))), a, na.
    assert (Kid : exists ni, get dops s3 i = Ok ni /\ parent dops ni = a /\ split_dimension dops na = d /\ split_value dops na = Some (dadd (dmul u2 (dsub (if dlt xd b then b else xd) (if dlt b xd then b else xd))) (if dlt b xd then b else xd))).
    { unfold cut_leaf in St. destruct (halves dops c all cs) as [c1 c2]. unfold fork_side in St. destruct left; destruct St as [m [U1 [U2 [U3 [U4 [U5 [B1 [B2 [B3 [B4 [B5 [B6 B7]]]]]]]]]]]]; cbn [Coarse_Spec.ctop] in *.
      - destruct B6 as [ni [V1 [V2 _]]]. exists ni. split; [exact V1|]. split; [exact V2|]. unfold Coarse_Model.get in Ga. assert (m = na) by congruence. subst m. auto.
      - destruct B7 as [ni [V1 [V2 _]]]. exists ni. split; [exact V1|]. split; [exact V2|]. unfold Coarse_Model.get in Ga. assert (m = na) by congruence. subst m. auto. }
    destruct Kid as [ni [V1 [V2 [V3 V4]]]]. exists ni. split; [lia|]. split.
    { unfold center_at. destruct (c_helper dops c =? SPLIT_HELPER_WEIGHTED) eqn:Hw; [left; apply Z.eqb_eq in Hw; split; [exact Hw|]; inv_bind Eb; eauto|].
      destruct (c_helper dops c =? SPLIT_HELPER_AVG) eqn:Ha; [|discriminate]. right. apply Z.eqb_eq in Ha. split; [exact Ha|]. eapply averages; eauto. }
    do 3 (split; [assumption|]). do 2 (split; [assumption|]). split.
    { intros Fx Eq. destruct (near_zero b xd (inside_finite _ _ _ I1 I2) Fx Eq) as [z Ez]. apply (Nz z). now rewrite W5. }
    do 4 (split; [assumption|]). split; [rewrite V4, <- Eu2; reflexivity|rewrite Ta, <- Eu2; reflexivity].
  Qed.
End Main.
