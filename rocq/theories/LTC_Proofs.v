(** * Proofs about lightweight temporal compression *)
From Coq Require Import ZArith List Bool Lia Reals Lra.
From Flocq Require Import Core Relative BinarySingleNaN.
From Verif Require Import CppBase CppFacts Dbl DblFacts NumFacts LTC_Model LTC_Spec.
Import ListNotations.
Local Open Scope Z_scope.

(** ** Rounded quotients of small integers *)
Lemma rnd_rel : forall x, x = 0%R \/ (bpow radix2 (-1022) <= Rabs x)%R ->
  (Rabs (rnd64 x - x) <= bpow radix2 (-53) * Rabs x)%R.
Proof.
  intros x [->|H].
  - rewrite rnd_0, Rminus_0_r, Rabs_R0. lra.
  - pose proof (relative_error_N_FLT radix2 (SpecFloat.emin 53 1024) 53 ltac:(lia) (fun x => negb (Z.even x)) x H) as E.
    change (/ 2 * bpow radix2 (- (53) + 1))%R with (/ 2 * bpow radix2 (-52))%R in E.
    replace (bpow radix2 (-53)) with (/ 2 * bpow radix2 (-52))%R; [exact E|].
    change (-52) with (1 + -53). rewrite bpow_plus. change (bpow radix2 1) with 2%R. lra.
Qed.

Lemma quot_big : forall p q, 0 < q < 2 ^ 31 -> IZR p = 0%R \/ (bpow radix2 (-31) <= Rabs (IZR p / IZR q))%R.
Proof.
  intros p q Hq. destruct (Z.eq_dec p 0) as [->|N]; [now left|right].
  assert (Q : (0 < IZR q)%R) by (apply IZR_lt; lia).
  unfold Rdiv. rewrite Rabs_mult, <- abs_IZR, Rabs_pos_eq by (left; now apply Rinv_0_lt_compat).
  assert (P : (1 <= IZR (Z.abs p))%R) by (apply IZR_le; lia).
  assert (B : (bpow radix2 (-31) <= / IZR q)%R).
  { change (bpow radix2 (-31)) with (/ IZR (2 ^ 31))%R. apply Rinv_le; [exact Q|]. apply IZR_le. lia. }
  pose proof (bpow_ge_0 radix2 (-31)). nra.
Qed.

Lemma quot_err : forall p q, 0 < q < 2 ^ 31 ->
  (Rabs (rnd64 (IZR p / IZR q) - IZR p / IZR q) <= bpow radix2 (-53) * (IZR (Z.abs p) / IZR q))%R.
Proof.
  intros p q Hq. assert (Q : (0 < IZR q)%R) by (apply IZR_lt; lia).
  replace (IZR (Z.abs p) / IZR q)%R with (Rabs (IZR p / IZR q))%R.
  2: { unfold Rdiv. rewrite Rabs_mult, abs_IZR. rewrite (Rabs_pos_eq (/ IZR q)); [reflexivity|]. left. now apply Rinv_0_lt_compat. }
  apply rnd_rel. destruct (quot_big p q Hq) as [E|E].
  - left. rewrite E. unfold Rdiv. ring.
  - right. apply Rle_trans with (2 := E). apply bpow_le. lia.
Qed.

Lemma quot_lt : forall p q p' q', Z.abs p <= 2 ^ 21 -> Z.abs p' <= 2 ^ 21 -> 0 < q < 2 ^ 31 -> 0 < q' < 2 ^ 31 ->
  p * q' < p' * q -> (rnd64 (IZR p / IZR q) < rnd64 (IZR p' / IZR q'))%R.
Proof.
  intros p q p' q' Hp Hp' Hq Hq' H.
  pose proof (quot_err p q Hq) as E1. pose proof (quot_err p' q' Hq') as E2.
  apply Rabs_le_inv in E1. apply Rabs_le_inv in E2.
  assert (Q : (0 < IZR q)%R) by (apply IZR_lt; lia). assert (Q' : (0 < IZR q')%R) by (apply IZR_lt; lia).
  assert (D : (bpow radix2 (-53) * (IZR (Z.abs p) / IZR q) + bpow radix2 (-53) * (IZR (Z.abs p') / IZR q')
                < IZR p' / IZR q' - IZR p / IZR q)%R).
  { apply Rmult_lt_reg_r with (IZR q * IZR q')%R; [now apply Rmult_lt_0_compat|].
    replace ((IZR p' / IZR q' - IZR p / IZR q) * (IZR q * IZR q'))%R with (IZR (p' * q - p * q'))
      by (rewrite minus_IZR, !mult_IZR; field; lra).
    replace ((bpow radix2 (-53) * (IZR (Z.abs p) / IZR q) + bpow radix2 (-53) * (IZR (Z.abs p') / IZR q')) * (IZR q * IZR q'))%R
      with (bpow radix2 (-53) * IZR (Z.abs p * q' + Z.abs p' * q))%R by (rewrite plus_IZR, !mult_IZR; field; lra).
    apply Rlt_le_trans with 1%R; [|apply IZR_le; lia].
    apply Rmult_lt_reg_l with (IZR (2 ^ 53)); [apply IZR_lt; lia|].
    change (bpow radix2 (-53)) with (/ IZR (2 ^ 53))%R. rewrite <- Rmult_assoc, Rinv_r by (apply IZR_neq; lia).
    rewrite Rmult_1_l, Rmult_1_r. apply IZR_lt. nia. }
  lra.
Qed.

Lemma quot_eq : forall p q p' q', 0 < q -> 0 < q' -> p * q' = p' * q -> (IZR p / IZR q = IZR p' / IZR q')%R.
Proof.
  intros p q p' q' Hq Hq' H.
  assert (Q : (0 < IZR q)%R) by (apply IZR_lt; lia). assert (Q' : (0 < IZR q')%R) by (apply IZR_lt; lia).
  apply Rmult_eq_reg_r with (IZR q * IZR q')%R; [|apply Rgt_not_eq; now apply Rmult_lt_0_compat].
  replace (IZR p / IZR q * (IZR q * IZR q'))%R with (IZR (p * q')) by (rewrite mult_IZR; field; lra).
  rewrite H, mult_IZR. field. lra.
Qed.

Lemma quot_lt_iff : forall p q p' q', Z.abs p <= 2 ^ 21 -> Z.abs p' <= 2 ^ 21 -> 0 < q < 2 ^ 31 -> 0 < q' < 2 ^ 31 ->
  ((rnd64 (IZR p / IZR q) < rnd64 (IZR p' / IZR q'))%R <-> p * q' < p' * q).
Proof.
  intros p q p' q' Hp Hp' Hq Hq'. split; [|now apply quot_lt].
  intros H. destruct (Z.lt_trichotomy (p * q') (p' * q)) as [L|[E|G]]; [exact L| |].
  - rewrite (quot_eq p q p' q') in H by (auto; lia). lra.
  - assert (rnd64 (IZR p' / IZR q') < rnd64 (IZR p / IZR q))%R by (apply quot_lt; auto; lia). lra.
Qed.

(** ** The derivatives *)
Lemma deriva_R : forall p l, Z.abs (val p - val l) <= 2 ^ 21 -> 0 < ts p - ts l < 2 ^ 31 ->
  exists d, deriva 1 p l = Ok d /\ is_finite d = true /\
    B2R d = rnd64 (IZR (val p - val l) / IZR (ts p - ts l)).
Proof.
  intros p l Hv Ht. unfold deriva. rewrite !sint_ok by lia. cbn [bind]. eexists. split; [reflexivity|].
  destruct (ddivZ (val p - val l) (ts p - ts l)) as [R F]; try lia.
  set (y := rnd64 (IZR (val p - val l) / IZR (ts p - ts l))) in *.
  destruct (dofZ_exact 1) as [R1 F1]; [lia|].
  assert (E : (B2R (ddiv (dofZ (val p - val l)) (dofZ (ts p - ts l))) / B2R (dofZ 1) = y)%R) by (rewrite R, R1; field).
  destruct (ddiv_R (ddiv (dofZ (val p - val l)) (dofZ (ts p - ts l))) (dofZ 1)) as [R2 F2]; auto.
  - rewrite R1. lra.
  - rewrite E. apply huge_Z with (2 ^ 21); [lia|]. rewrite (Rabs_pos_eq (IZR (2 ^ 21))) by (apply IZR_le; lia).
    assert (T : (0 < IZR (ts p - ts l))%R) by (apply IZR_lt; lia). assert (T1 : (1 <= IZR (ts p - ts l))%R) by (apply IZR_le; lia).
    assert (I : (0 < / IZR (ts p - ts l) <= 1)%R).
    { split; [now apply Rinv_0_lt_compat|]. rewrite <- Rinv_1. apply Rinv_le; lra. }
    assert (V : (- IZR (2 ^ 21) <= IZR (val p - val l) <= IZR (2 ^ 21))%R).
    { rewrite <- opp_IZR. split; apply IZR_le; lia. }
    assert (W : (- IZR (2 ^ 21) <= IZR (val p - val l) / IZR (ts p - ts l) <= IZR (2 ^ 21))%R).
    { unfold Rdiv. assert (0 < IZR (2 ^ 21))%R by (apply IZR_lt; lia). split; nra. }
    apply Rabs_le. split.
    + rewrite <- opp_IZR. apply rnd_ge_Z; [lia|]. rewrite opp_IZR. apply W.
    + apply rnd_le_Z; [lia|]. apply W.
  - split; [exact F2|]. rewrite R2, E. unfold y. apply rnd_id. apply generic_format_round; [exact valid64|apply valid_rnd_N].
Qed.

(** Value of the extended limit: [v] is the limit [n] time units after the start value
    [v0], extended by [k] units. *)
Definition ext (v0 n k v : Z) : Z :=
  Ztrunc (rnd64 (rnd64 (IZR k * rnd64 (IZR (v - v0) / IZR n)) + IZR v)).

Lemma d2int_ok2 : forall x : dbl, is_finite x = true -> -2147483648 <= Ztrunc (B2R x) <= 2147483647 ->
  d2int x = Ok (Ztrunc (B2R x)).
Proof.
  intros x F H. unfold d2int. rewrite F, Btrunc_val.
  destruct (Z.leb_spec (-2147483648) (Ztrunc (B2R x))); [|lia].
  destruct (Z.leb_spec (Ztrunc (B2R x)) 2147483647); [|lia]. reflexivity.
Qed.

Lemma rnd_between : forall x a b, Z.abs a <= 2 ^ 53 -> Z.abs b <= 2 ^ 53 -> (IZR a <= x <= IZR b)%R ->
  (IZR a <= rnd64 x <= IZR b)%R.
Proof. intros x a b Ha Hb H. split; [apply rnd_ge_Z|apply rnd_le_Z]; auto; apply H. Qed.

Lemma Ztrunc_between : forall x a b, (IZR a <= x <= IZR b)%R -> a <= Ztrunc x <= b.
Proof.
  intros x a b H. split.
  - rewrite <- (Ztrunc_IZR a). apply Ztrunc_le. apply H.
  - rewrite <- (Ztrunc_IZR b). apply Ztrunc_le. apply H.
Qed.

Lemma extend_ok : forall n o d v0 m, 0 < m < 2 ^ 31 -> Z.abs (val o - v0) <= 2 ^ 21 -> Z.abs (val o) <= 2 ^ 30 ->
  0 <= ts n - ts o < 2 ^ 31 ->
  is_finite d = true -> B2R d = rnd64 (IZR (val o - v0) / IZR m) ->
  -2147483648 <= ext v0 m (ts n - ts o) (val o) <= 2147483647 ->
  extend 1 n o d = Ok (ext v0 m (ts n - ts o) (val o)).
Proof.
  intros n o d v0 m Hm Hd Hv Ht Fd Rd He. unfold extend. rewrite sint_ok by lia. cbn [bind].
  change (1 =? 0) with false. cbv iota. rewrite Z.quot_1_r, sint_ok by lia. cbn [bind].
  set (k := ts n - ts o) in *. destruct (dofZ_exact k) as [Rk Fk]; [lia|]. destruct (dofZ_exact (val o)) as [Rv Fv]; [lia|].
  assert (S1 : (IZR (- 2 ^ 21) <= rnd64 (IZR (val o - v0) / IZR m) <= IZR (2 ^ 21))%R).
  { apply rnd_between; try lia. assert (Q : (1 <= IZR m)%R) by (apply IZR_le; lia).
    assert (I : (0 < / IZR m <= 1)%R). { split; [apply Rinv_0_lt_compat; lra|]. rewrite <- Rinv_1. apply Rinv_le; lra. }
    assert (V : (IZR (- 2 ^ 21) <= IZR (val o - v0) <= IZR (2 ^ 21))%R) by (split; apply IZR_le; lia).
    change (- 2 ^ 21) with (-2097152) in *. change (2 ^ 21) with 2097152 in *. unfold Rdiv. split; nra. }
  assert (Kr : (0 <= IZR k <= IZR (2 ^ 31))%R) by (split; apply IZR_le; lia).
  assert (P : (IZR (- 2 ^ 52) <= IZR k * rnd64 (IZR (val o - v0) / IZR m) <= IZR (2 ^ 52))%R).
  { change (- 2 ^ 52) with (- (2 ^ 31 * 2 ^ 21)). change (2 ^ 52) with (2 ^ 31 * 2 ^ 21). rewrite opp_IZR, mult_IZR.
    change (- 2 ^ 21) with (-2097152) in *. change (2 ^ 21) with 2097152 in *. change (2 ^ 31) with 2147483648 in *. split; nra. }
  destruct (dmul_R (dofZ k) d Fk Fd) as [Rm Fm].
  { rewrite Rk, Rd. apply huge_Z with (2 ^ 52); [lia|]. rewrite (Rabs_pos_eq (IZR (2 ^ 52))) by (apply IZR_le; lia).
    apply Rabs_le. rewrite <- opp_IZR. exact P. }
  rewrite Rk, Rd in Rm.
  assert (P2 := rnd_between _ (- 2 ^ 52) (2 ^ 52) ltac:(lia) ltac:(lia) P). rewrite <- Rm in P2.
  destruct (dadd_R (dmul (dofZ k) d) (dofZ (val o)) Fm Fv) as [Ra Fa].
  { rewrite Rv. apply huge_Z with (2 ^ 53); [lia|]. rewrite (Rabs_pos_eq (IZR (2 ^ 53))) by (apply IZR_le; lia).
    assert (V : (IZR (- 2 ^ 30) <= IZR (val o) <= IZR (2 ^ 30))%R) by (split; apply IZR_le; lia).
    apply Rabs_le. change (- 2 ^ 52) with (-4503599627370496) in *. change (2 ^ 52) with 4503599627370496 in *.
    change (- 2 ^ 30) with (-1073741824) in *. change (2 ^ 30) with 1073741824 in *. change (2 ^ 53) with 9007199254740992. lra. }
  rewrite Rv, Rm in Ra. rewrite d2int_ok2; auto; rewrite Ra; [reflexivity|exact He].
Qed.

(** One unit: the limit moves to one of the two integers around the extended line. *)
Lemma ext_unit : forall v0 n v, ext v0 n 1 v = Ztrunc (rnd64 (rnd64 (IZR (v - v0) / IZR n) + IZR v)).
Proof.
  intros. unfold ext. rewrite Rmult_1_l, (rnd_id (rnd64 _)); [reflexivity|].
  apply generic_format_round; [exact valid64|apply valid_rnd_N].
Qed.

Lemma quot_le_Z : forall a n b, 0 < n -> a <= b * n -> (IZR a / IZR n <= IZR b)%R.
Proof.
  intros a n b Hn H. assert (Q : (0 < IZR n)%R) by (apply IZR_lt; lia).
  apply Rmult_le_reg_r with (IZR n); auto. unfold Rdiv. rewrite Rmult_assoc, Rinv_l, Rmult_1_r by lra.
  rewrite <- mult_IZR. now apply IZR_le.
Qed.
Lemma quot_ge_Z : forall a n b, 0 < n -> b * n <= a -> (IZR b <= IZR a / IZR n)%R.
Proof.
  intros a n b Hn H. assert (Q : (0 < IZR n)%R) by (apply IZR_lt; lia).
  apply Rmult_le_reg_r with (IZR n); auto. unfold Rdiv. rewrite Rmult_assoc, Rinv_l, Rmult_1_r by lra.
  rewrite <- mult_IZR. now apply IZR_le.
Qed.

Lemma ext_le : forall v0 n v N, 0 < n -> Z.abs v <= 2 ^ 30 -> Z.abs N <= 2 ^ 30 -> v - v0 <= (N - v) * n -> ext v0 n 1 v <= N.
Proof.
  intros v0 n v N Hn Hv HN H. rewrite ext_unit, <- (Ztrunc_IZR N). apply Ztrunc_le.
  apply rnd_le_Z; [lia|].
  assert (rnd64 (IZR (v - v0) / IZR n) <= IZR (N - v))%R by (apply rnd_le_Z; [lia|now apply quot_le_Z]).
  rewrite (minus_IZR N v) in H0. lra.
Qed.
Lemma ext_ge : forall v0 n v N, 0 < n -> Z.abs v <= 2 ^ 30 -> Z.abs N <= 2 ^ 30 -> (N - v) * n <= v - v0 -> N <= ext v0 n 1 v.
Proof.
  intros v0 n v N Hn Hv HN H. rewrite ext_unit, <- (Ztrunc_IZR N). apply Ztrunc_le.
  apply rnd_ge_Z; [lia|].
  assert (IZR (N - v) <= rnd64 (IZR (v - v0) / IZR n))%R by (apply rnd_ge_Z; [lia|now apply quot_ge_Z]).
  rewrite (minus_IZR N v) in H0. lra.
Qed.
Lemma ext_mono : forall v0 n v v', 0 < n -> v <= v' -> ext v0 n 1 v <= ext v0 n 1 v'.
Proof.
  intros v0 n v v' Hn H. rewrite !ext_unit. apply Ztrunc_le, rnd_le. apply Rplus_le_compat; [|now apply IZR_le].
  apply rnd_le. unfold Rdiv. apply Rmult_le_compat_r; [left; apply Rinv_0_lt_compat; now apply IZR_lt|]. apply IZR_le. lia.
Qed.

(** The slope changes by at most 1/(n+1). *)
Lemma ext_slope : forall v0 n v, 0 < n -> Z.abs v <= 2 ^ 29 -> Z.abs (v - v0) <= 2 ^ 21 ->
  (Rabs (IZR (ext v0 n 1 v - v0) / IZR (n + 1) - IZR (v - v0) / IZR n) <= / IZR (n + 1))%R.
Proof.
  intros v0 n v Hn Hv Hd.
  assert (Q : (0 < IZR n)%R) by (apply IZR_lt; lia). assert (Q1 : (0 < IZR (n + 1))%R) by (apply IZR_lt; lia).
  pose proof (Z.div_mod (v - v0) n ltac:(lia)) as DM. pose proof (Z.mod_pos_bound (v - v0) n Hn) as MB.
  set (q := (v - v0) / n) in *. set (r := (v - v0) mod n) in *.
  assert (Hq : Z.abs q <= 2 ^ 21 + 1) by nia.
  assert (L : v + q <= ext v0 n 1 v) by (apply ext_ge; lia).
  assert (U : ext v0 n 1 v <= v + q + 1) by (apply ext_le; nia).
  set (e := ext v0 n 1 v) in *.
  replace (IZR (e - v0) / IZR (n + 1) - IZR (v - v0) / IZR n)%R
    with ((IZR ((e - v) * n - (v - v0)) / IZR n) / IZR (n + 1))%R.
  2: { rewrite plus_IZR in *. rewrite !minus_IZR, mult_IZR, minus_IZR. field. lra. }
  assert (B : (-1 <= IZR ((e - v) * n - (v - v0)) / IZR n <= 1)%R).
  { split; [apply (quot_ge_Z _ _ (-1))|apply (quot_le_Z _ _ 1)]; nia. }
  unfold Rdiv at 1. rewrite Rabs_mult, (Rabs_pos_eq (/ IZR (n + 1))) by (left; now apply Rinv_0_lt_compat).
  assert (0 < / IZR (n + 1))%R by now apply Rinv_0_lt_compat. apply Rabs_le in B. nra.
Qed.

(** Any gap: the limit ends within 3 of any integer interval around the extended line. *)
Lemma ext_gap : forall v0 n k v lo hi, 0 < n < 2 ^ 31 -> 0 <= k < 2 ^ 31 ->
  Z.abs v <= 2 ^ 20 -> Z.abs (v - v0) <= 2 ^ 21 -> Z.abs lo <= 2 ^ 20 -> Z.abs hi <= 2 ^ 20 ->
  (lo - v) * n <= k * (v - v0) <= (hi - v) * n -> lo - 3 <= ext v0 n k v <= hi + 3.
Proof.
  intros v0 n k v lo hi Hn Hk Hv Hd Hlo Hhi [H1 H2]. unfold ext.
  assert (Q : (0 < IZR n)%R) by (apply IZR_lt; lia). assert (K : (0 <= IZR k)%R) by (apply IZR_le; lia).
  pose proof (quot_err (v - v0) n Hn) as E. set (s := (IZR (v - v0) / IZR n)%R) in *.
  assert (KS : (IZR (lo - v) <= IZR k * s <= IZR (hi - v))%R).
  { unfold s. replace (IZR k * (IZR (v - v0) / IZR n))%R with (IZR (k * (v - v0)) / IZR n)%R by (rewrite mult_IZR; field; lra).
    split; [apply quot_ge_Z|apply quot_le_Z]; lia. }
  assert (KE : (Rabs (IZR k * rnd64 s - IZR k * s) <= 1)%R).
  { replace (IZR k * rnd64 s - IZR k * s)%R with (IZR k * (rnd64 s - s))%R by ring.
    rewrite Rabs_mult, (Rabs_pos_eq (IZR k)) by auto.
    apply Rle_trans with (IZR k * (bpow radix2 (-53) * (IZR (Z.abs (v - v0)) / IZR n)))%R; [now apply Rmult_le_compat_l|].
    assert (A : (IZR (Z.abs (v - v0)) / IZR n <= IZR (2 ^ 21))%R) by (apply quot_le_Z; nia).
    assert (A0 : (0 <= IZR (Z.abs (v - v0)) / IZR n)%R) by (apply (quot_ge_Z _ _ 0); lia).
    assert (K2 : (IZR k <= IZR (2 ^ 31))%R) by (apply IZR_le; lia).
    change (bpow radix2 (-53)) with (/ 9007199254740992)%R. change (2 ^ 21) with 2097152 in A. change (2 ^ 31) with 2147483648 in K2. nra. }
  apply Rabs_le_inv in KE. rewrite minus_IZR in KS. rewrite minus_IZR in KS.
  assert (M : (IZR (lo - v - 1) <= rnd64 (IZR k * rnd64 s) <= IZR (hi - v + 1))%R).
  { apply rnd_between; try lia. rewrite plus_IZR, !minus_IZR. lra. }
  assert (F : lo - 1 <= Ztrunc (rnd64 (rnd64 (IZR k * rnd64 s) + IZR v)) <= hi + 1); [|lia].
  apply Ztrunc_between, rnd_between; try lia. rewrite plus_IZR, !minus_IZR in M. rewrite plus_IZR, minus_IZR. lra.
Qed.

(** ** One add *)
Definition st (a v0 t U L : Z) (tt : option pt) : ltc :=
  mkLtc (Some (mkPt a v0)) (Some (mkPt t U)) (Some (mkPt t L)) (Some (mkPt t U)) (Some (mkPt t L)) tt 2.
Definition st1 (a v0 : Z) : ltc := mkLtc (Some (mkPt a v0)) None None None None None 1.

Lemma dlt_quot : forall x y p q p' q', is_finite x = true -> is_finite y = true ->
  B2R x = rnd64 (IZR p / IZR q) -> B2R y = rnd64 (IZR p' / IZR q') ->
  Z.abs p <= 2 ^ 21 -> Z.abs p' <= 2 ^ 21 -> 0 < q < 2 ^ 31 -> 0 < q' < 2 ^ 31 ->
  dlt x y = (p * q' <? p' * q).
Proof.
  intros x y p q p' q' Fx Fy Rx Ry Hp Hp' Hq Hq'.
  pose proof (dlt_true x y Fx Fy) as D. rewrite Rx, Ry in D.
  pose proof (quot_lt_iff p q p' q' Hp Hp' Hq Hq') as I.
  destruct (Z.ltb_spec (p * q') (p' * q)) as [H|H].
  - now apply D, I.
  - destruct (dlt x y); [|reflexivity]. exfalso. assert (p * q' < p' * q) by now apply I, D. lia.
Qed.

Section Step.
  Variables (eps maxv minv : Z).
  Hypothesis Heps : 0 <= eps <= 2 ^ 19.
  Hypothesis Hmax : maxv <= 2 ^ 19.
  Hypothesis Hmin : - 2 ^ 19 <= minv.

  Definition up (w : Z) : Z := cmin (w + eps) maxv.
  Definition low (w : Z) : Z := cmax (w - eps) minv.

  Lemma up_spec : forall w, minv <= w <= maxv -> w <= up w <= maxv /\ up w <= w + eps.
  Proof. intros w H. unfold up, cmin. destruct (Z.gtb_spec (w + eps) maxv); lia. Qed.
  Lemma low_spec : forall w, minv <= w <= maxv -> minv <= low w <= w /\ w - eps <= low w.
  Proof. intros w H. unfold low, cmax. destruct (Z.ltb_spec (w - eps) minv); lia. Qed.

  Lemma add_first : forall t w, add eps maxv minv 1 ltc_init t w = Ok (st1 t w, false).
  Proof. reflexivity. Qed.

  Lemma add_second : forall a v0 t w, minv <= w <= maxv ->
    add eps maxv minv 1 (st1 a v0) t w = Ok (st a v0 t (up w) (low w) None, false).
  Proof.
    intros a v0 t w Hw. unfold add, add_fuel, st1, update. cbn [counter]. change (1 =? 0) with false. cbv iota.
    rewrite !sint_ok by lia. reflexivity.
  Qed.

  (** What a third or later add does, in integers. *)
  Definition must (v0 n k U L w : Z) : bool :=
    ((U - v0) * (n + k) <? (low w - v0) * n) || ((up w - v0) * n <? (L - v0) * (n + k)).
  Definition nextU (v0 n k U w : Z) : Z := if (U - v0) * (n + k) <? (up w - v0) * n then ext v0 n k U else up w.
  Definition nextL (v0 n k L w : Z) : Z := if (low w - v0) * n <? (L - v0) * (n + k) then ext v0 n k L else low w.

  Lemma next_range : forall v0 n k U L w, minv <= w <= maxv -> 0 < n -> 0 < k -> n + k < 2 ^ 31 ->
    Z.abs v0 <= 2 ^ 19 + 3 -> Z.abs U <= 2 ^ 19 + 3 -> Z.abs L <= 2 ^ 19 + 3 ->
    must v0 n k U L w = false ->
    low w - 3 <= nextU v0 n k U w <= up w + 3 /\ low w - 3 <= nextL v0 n k L w <= up w + 3.
  Proof.
    intros v0 n k U L w Hw Hn Hk Hs H0 HU HL Hm. destruct (up_spec w Hw). destruct (low_spec w Hw).
    apply orb_false_iff in Hm. destruct Hm as [M1 M2]. apply Z.ltb_ge in M1, M2.
    unfold nextU, nextL. split.
    - destruct (Z.ltb_spec ((U - v0) * (n + k)) ((up w - v0) * n)); [|lia]. apply ext_gap; lia.
    - destruct (Z.ltb_spec ((low w - v0) * n) ((L - v0) * (n + k))); [|lia]. apply ext_gap; lia.
  Qed.

  Lemma add_step : forall a v0 n k U L tt w, minv <= w <= maxv -> 0 < n -> 0 < k -> n + k < 2 ^ 31 ->
    Z.abs v0 <= 2 ^ 19 + 3 -> Z.abs U <= 2 ^ 19 + 3 -> Z.abs L <= 2 ^ 19 + 3 ->
    - 2 ^ 31 <= a -> a + n + k < 2 ^ 31 ->
    add eps maxv minv 1 (st a v0 (a + n) U L tt) (a + n + k) w =
    Ok (if must v0 n k U L w
        then (st (a + n + k - 1) (Z.quot (U + L) 2) (a + n + k) (up w) (low w) (Some (mkPt a v0)), true)
        else (st a v0 (a + n + k) (nextU v0 n k U w) (nextL v0 n k L w) tt, false)).
  Proof.
    intros a v0 n k U L tt w Hw Hn Hk Hs H0 HU HL Ha Hb.
    pose proof (up_spec w Hw) as Hup. pose proof (low_spec w Hw) as Hlow.
    unfold add. cbn [add_fuel]. unfold st at 1. cbn [counter]. change (2 =? 0) with false. cbv iota.
    unfold update at 1. rewrite !sint_ok by lia. cbn [bind counter]. change (2 =? 1) with false. cbv iota.
    fold (up w). fold (low w).
    unfold need_transmit. cbn [st last_transmit_point UL LL new_ul new_ll to_transmit counter getp bind].
    destruct (deriva_R (mkPt (a + n) U) (mkPt a v0)) as [d1 [E1 [F1 R1]]]; cbn [val ts]; try lia.
    destruct (deriva_R (mkPt (a + n) L) (mkPt a v0)) as [d2 [E2 [F2 R2]]]; cbn [val ts]; try lia.
    destruct (deriva_R (mkPt (a + n + k) (up w)) (mkPt a v0)) as [d3 [E3 [F3 R3]]]; cbn [val ts]; try lia.
    destruct (deriva_R (mkPt (a + n + k) (low w)) (mkPt a v0)) as [d4 [E4 [F4 R4]]]; cbn [val ts]; try lia.
    rewrite E1, E2, E3, E4. cbn [bind]. cbn [val ts] in R1, R2, R3, R4.
    replace (a + n - a) with n in * by lia. replace (a + n + k - a) with (n + k) in * by lia.
    rewrite (dlt_quot d1 d4 _ _ _ _ F1 F4 R1 R4) by lia.
    unfold dgt. fold (dlt d3 d2). fold (dlt d4 d2). rewrite (dlt_quot d3 d2 _ _ _ _ F3 F2 R3 R2) by lia.
    fold (must v0 n k U L w). destruct (must v0 n k U L w) eqn:M.
    - cbn [bind negb UL LL getp val]. rewrite !sint_ok by lia. cbn [bind]. cbn [add_fuel counter].
      change (1 =? 0) with false. cbv iota. unfold update. rewrite !sint_ok by lia. cbn [bind counter].
      change (1 =? 1) with true. cbv iota. unfold set_ul_and_ll. cbn. fold (up w) (low w). reflexivity.
    - destruct (next_range v0 n k U L w) as [N1 N2]; auto.
      rewrite (dlt_quot d1 d3 _ _ _ _ F1 F3 R1 R3), (dlt_quot d4 d2 _ _ _ _ F4 F2 R4 R2) by lia.
      unfold nextU, nextL in *.
      assert (Ek : ts (mkPt (a + n + k) (up w)) - ts (mkPt (a + n) U) = k) by (cbn; lia).
      assert (Ek2 : ts (mkPt (a + n + k) (low w)) - ts (mkPt (a + n) L) = k) by (cbn; lia).
      destruct (Z.ltb_spec ((U - v0) * (n + k)) ((up w - v0) * n)) as [C1|C1].
      + rewrite (extend_ok (mkPt (a + n + k) (up w)) (mkPt (a + n) U) d1 v0 n); try rewrite Ek; cbn [val]; auto; try lia.
        cbn [bind ts].
        destruct (Z.ltb_spec ((low w - v0) * n) ((L - v0) * (n + k))) as [C2|C2].
        * rewrite (extend_ok (mkPt (a + n + k) (low w)) (mkPt (a + n) L) d2 v0 n); try rewrite Ek2; cbn [val]; auto; lia.
        * reflexivity.
      + cbn [bind].
        destruct (Z.ltb_spec ((low w - v0) * n) ((L - v0) * (n + k))) as [C2|C2].
        * rewrite (extend_ok (mkPt (a + n + k) (low w)) (mkPt (a + n) L) d2 v0 n); try rewrite Ek2; cbn [val]; auto; lia.
        * reflexivity.
  Qed.
End Step.

Lemma harm_self : forall n, harmonic_from_to n n = 0%R.
Proof. intros n. unfold harmonic_from_to. now rewrite Z.sub_diag. Qed.
Lemma harm_succ : forall j n, j <= n -> harmonic_from_to j (n + 1) = (harmonic_from_to j n + / IZR (n + 1))%R.
Proof.
  intros j n H. unfold harmonic_from_to. replace (Z.to_nat (n + 1 - j)) with (S (Z.to_nat (n - j))) by lia.
  cbn [harmonic]. replace (j + Z.of_nat (S (Z.to_nat (n - j)))) with (n + 1) by lia. reflexivity.
Qed.
Lemma harm_nonneg : forall j n, 0 <= j -> (0 <= harmonic_from_to j n)%R.
Proof.
  intros j n H. unfold harmonic_from_to. induction (Z.to_nat (n - j)) as [|m IH]; cbn [harmonic]; [lra|].
  assert (0 < / IZR (j + Z.of_nat (S m)))%R by (apply Rinv_0_lt_compat, IZR_lt; lia). lra.
Qed.

Lemma quot_mid : forall L U, L <= U -> L <= Z.quot (U + L) 2 <= U.
Proof.
  intros L U H. pose proof (Z.quot_rem' (U + L) 2). pose proof (Z.rem_bound_abs (U + L) 2 ltac:(lia)).
  destruct (Z.le_gt_cases 0 (U + L)).
  - pose proof (Z.rem_nonneg (U + L) 2 ltac:(lia) ltac:(lia)). lia.
  - pose proof (Z.rem_nonpos (U + L) 2 ltac:(lia) ltac:(lia)). lia.
Qed.

Lemma quot_mid_bound : forall L U B, Z.abs L <= B -> Z.abs U <= B -> Z.abs (Z.quot (U + L) 2) <= B.
Proof.
  intros L U B H1 H2. destruct (Z.le_gt_cases L U).
  - pose proof (quot_mid L U ltac:(lia)). lia.
  - pose proof (quot_mid U L ltac:(lia)). rewrite Z.add_comm. lia.
Qed.

Definition pend (s : ltc) : pt := match last_transmit_point s with Some p => p | None => mkPt 0 0 end.
Definition pair_of (p : pt) : Z * Z := (ts p, val p).

Lemma run_step : forall eps maxv minv u s t v l s1 b,
  add eps maxv minv u s t v = Ok (s1, b) ->
  ltc_run eps maxv minv u s ((t, v) :: l) =
    do o <- (if b then do p <- get_value_to_transmit s1; Ok (Some p) else Ok None);
    do (s, os) <- ltc_run eps maxv minv u s1 l;
    Ok (s, o :: os).
Proof. intros. cbn [ltc_run]. now rewrite H. Qed.

(** ** Any increasing timestamps: no undefined behaviour, order of the points *)
Section Protocol.
  Variables (eps maxv minv : Z).
  Hypothesis Heps : 0 <= eps <= 2 ^ 19.
  Hypothesis Hmax : maxv <= 2 ^ 19.
  Hypothesis Hmin : - 2 ^ 19 <= minv.

  Definition ginv (s : ltc) (t : Z) : Prop :=
    (exists v, s = st1 t v /\ minv <= v <= maxv) \/
    (exists a v0 U L tt, s = st a v0 t U L tt /\ 0 <= a < t /\ Z.abs v0 <= 2 ^ 19 + 3 /\
       Z.abs U <= 2 ^ 19 + 3 /\ Z.abs L <= 2 ^ 19 + 3).

  Lemma ginv_step : forall s t t' w, ginv s t -> 0 <= t < t' -> t' < 2 ^ 31 -> minv <= w <= maxv ->
    exists s' b, add eps maxv minv 1 s t' w = Ok (s', b) /\ ginv s' t' /\
      (if b then get_value_to_transmit s' = Ok (pend s) /\ ts (pend s) < ts (pend s') else pend s' = pend s) .
  Proof.
    intros s t t' w [[v [-> Hv]]|[a [v0 [U [L [tt [-> [Ha [H0 [HU HL]]]]]]]]]] Ht Ht' Hw.
    - rewrite (add_second eps maxv minv Heps Hmax Hmin t v t' w Hw). eexists _, _. split; [reflexivity|].
      split; [|reflexivity]. right. exists t, v, (up eps maxv w), (low eps minv w), None.
      pose proof (up_spec eps maxv minv Heps w Hw). pose proof (low_spec eps maxv minv Heps w Hw). repeat split; lia.
    - pose proof (add_step eps maxv minv Heps Hmax Hmin a v0 (t - a) (t' - t) U L tt w Hw) as A.
      replace (a + (t - a)) with t in A by lia. replace (t + (t' - t)) with t' in A by lia.
      rewrite A by lia. clear A.
      pose proof (up_spec eps maxv minv Heps w Hw) as S1. pose proof (low_spec eps maxv minv Heps w Hw) as S2.
      destruct (must eps maxv minv v0 (t - a) (t' - t) U L w) eqn:M; eexists _, _; (split; [reflexivity|]).
      + split; [|split; [reflexivity|cbn; lia]]. right. eexists _, _, _, _, _. split; [reflexivity|].
        pose proof (quot_mid_bound L U _ HL HU). repeat split; lia.
      + split; [|reflexivity]. right. eexists _, _, _, _, _. split; [reflexivity|].
        pose proof (next_range eps maxv minv Heps Hmax Hmin v0 (t - a) (t' - t) U L w Hw ltac:(lia) ltac:(lia) ltac:(lia)
          H0 HU HL M) as [N1 N2]. repeat split; lia.
  Qed.

  Lemma ginv_run : forall l s t, ginv s t -> 0 <= t ->
    consecutive Z.lt (t :: map fst l) -> (forall t' w, In (t', w) l -> t' < 2 ^ 31 /\ minv <= w <= maxv) ->
    exists s' os, ltc_run eps maxv minv 1 s l = Ok (s', os) /\ length os = length l /\
      (exists rest, received os ++ [pend s'] = pend s :: rest) /\
      consecutive (fun p q => ts p < ts q) (received os ++ [pend s']).
  Proof.
    induction l as [|[t' w] l IH]; intros s t G Ht Hc Hl.
    - exists s, []. repeat split. now exists [].
    - destruct (Hl t' w ltac:(now left)) as [Ht' Hw]. cbn [map fst consecutive] in Hc. destruct Hc as [Hlt Hc].
      destruct (ginv_step s t t' w G ltac:(lia) Ht' Hw) as [s1 [b [E [G1 B]]]].
      rewrite (run_step _ _ _ _ _ _ _ _ _ _ E).
      destruct (IH s1 t' G1 ltac:(lia)) as [s' [os [R [L [[rest Hr] C]]]]].
      { exact Hc. } { intros t2 w2 H2. apply Hl. now right. }
      destruct b.
      + destruct B as [B1 B2]. rewrite B1. cbn [bind]. rewrite R. cbn [bind]. exists s', (Some (pend s) :: os).
        split; [reflexivity|]. split; [cbn; lia|]. cbn [received app]. rewrite Hr in *. split; [eauto|].
        split; [exact B2|exact C].
      + cbn [bind]. rewrite R. cbn [bind]. exists s', (None :: os). split; [reflexivity|]. split; [cbn; lia|].
        cbn [received]. rewrite <- B. split; [eauto|exact C].
  Qed.
End Protocol.

(** ** Unit steps: the cone *)
Section Unit.
  Variables (eps maxv minv : Z) (x : Z -> Z).
  Hypothesis Heps : 0 <= eps <= 2 ^ 19.
  Hypothesis Hmax : maxv <= 2 ^ 19.
  Hypothesis Hmin : - 2 ^ 19 <= minv.
  Hypothesis Hx : forall t, minv <= x t <= maxv.

  Let bu (t : Z) : Z := up eps maxv (x t).
  Let bl (t : Z) : Z := low eps minv (x t).
  Definition slope (v0 v n : Z) : R := (IZR (v - v0) / IZR n)%R.

  Definition cone (a v0 n U L : Z) : Prop :=
    minv <= L <= U /\ U <= maxv /\
    (forall j, 1 <= j <= n -> (slope v0 U n <= slope v0 (bu (a + j)) j + harmonic_from_to j n)%R) /\
    (forall j, 1 <= j <= n -> (slope v0 (bl (a + j)) j - harmonic_from_to j n <= slope v0 L n)%R) /\
    (exists j, 1 <= j <= n /\ (slope v0 (bu (a + j)) j - harmonic_from_to j n <= slope v0 U n)%R) /\
    (exists j, 1 <= j <= n /\ (slope v0 L n <= slope v0 (bl (a + j)) j + harmonic_from_to j n)%R).

  Lemma bu_spec : forall t, x t <= bu t <= maxv /\ bu t <= x t + eps.
  Proof. intros. apply (up_spec eps maxv minv Heps (x t) (Hx t)). Qed.
  Lemma bl_spec : forall t, minv <= bl t <= x t /\ x t - eps <= bl t.
  Proof. intros. apply (low_spec eps maxv minv Heps (x t) (Hx t)). Qed.

  Lemma slope_le : forall v0 v v' n n', 0 < n -> 0 < n' -> (v - v0) * n' <= (v' - v0) * n -> (slope v0 v n <= slope v0 v' n')%R.
  Proof.
    intros v0 v v' n n' Hn Hn' H. unfold slope.
    assert (Q : (0 < IZR n)%R) by (apply IZR_lt; lia). assert (Q' : (0 < IZR n')%R) by (apply IZR_lt; lia).
    apply Rmult_le_reg_r with (IZR n * IZR n')%R; [now apply Rmult_lt_0_compat|].
    replace (IZR (v - v0) / IZR n * (IZR n * IZR n'))%R with (IZR ((v - v0) * n')) by (rewrite mult_IZR; field; lra).
    replace (IZR (v' - v0) / IZR n' * (IZR n * IZR n'))%R with (IZR ((v' - v0) * n)) by (rewrite mult_IZR; field; lra).
    now apply IZR_le.
  Qed.
  Lemma slope_lt : forall v0 v v' n n', 0 < n -> 0 < n' -> (v - v0) * n' < (v' - v0) * n -> (slope v0 v n < slope v0 v' n')%R.
  Proof.
    intros v0 v v' n n' Hn Hn' H. unfold slope.
    assert (Q : (0 < IZR n)%R) by (apply IZR_lt; lia). assert (Q' : (0 < IZR n')%R) by (apply IZR_lt; lia).
    apply Rmult_lt_reg_r with (IZR n * IZR n')%R; [now apply Rmult_lt_0_compat|].
    replace (IZR (v - v0) / IZR n * (IZR n * IZR n'))%R with (IZR ((v - v0) * n')) by (rewrite mult_IZR; field; lra).
    replace (IZR (v' - v0) / IZR n' * (IZR n * IZR n'))%R with (IZR ((v' - v0) * n)) by (rewrite mult_IZR; field; lra).
    now apply IZR_lt.
  Qed.

  Lemma cone_first : forall a v0, cone a v0 1 (bu (a + 1)) (bl (a + 1)).
  Proof.
    intros a v0. pose proof (bu_spec (a + 1)). pose proof (bl_spec (a + 1)). split; [lia|]. split; [lia|].
    split; [|split; [|split; exists 1; rewrite harm_self; split; lia || lra]];
      intros j Hj; assert (j = 1) by lia; subst; rewrite harm_self; lra.
  Qed.

  Lemma cone_next : forall a v0 n U L, 0 < n -> minv <= v0 <= maxv -> cone a v0 n U L ->
    must eps maxv minv v0 n 1 U L (x (a + n + 1)) = false ->
    cone a v0 (n + 1) (nextU eps maxv v0 n 1 U (x (a + n + 1))) (nextL eps minv v0 n 1 L (x (a + n + 1))).
  Proof.
    intros a v0 n U L Hn H0 [C1 [C2 [C3 [C4 [C5 C6]]]]] M.
    apply orb_false_iff in M. destruct M as [M1 M2]. apply Z.ltb_ge in M1, M2.
    pose proof (bu_spec (a + n + 1)) as Sb. pose proof (bl_spec (a + n + 1)) as Sl.
    unfold bu in Sb. unfold bl in Sl. set (b := up eps maxv (x (a + n + 1))) in *. set (c := low eps minv (x (a + n + 1))) in *.
    assert (Q1 : (0 < / IZR (n + 1))%R) by (apply Rinv_0_lt_compat, IZR_lt; lia).
    unfold nextU, nextL. fold b c.
    assert (EU : exists U', (if (U - v0) * (n + 1) <? (b - v0) * n then ext v0 n 1 U else b) = U' /\ c <= U' <= b /\
      ext v0 n 1 L <= U' /\ (slope v0 U' (n + 1) <= slope v0 U n + / IZR (n + 1))%R /\
      (((U - v0) * (n + 1) < (b - v0) * n /\ (slope v0 U n - / IZR (n + 1) <= slope v0 U' (n + 1))%R) \/ U' = b)).
    { destruct (Z.ltb_spec ((U - v0) * (n + 1)) ((b - v0) * n)) as [K|K].
      - exists (ext v0 n 1 U). pose proof (ext_slope v0 n U Hn ltac:(lia) ltac:(lia)) as E.
        apply Rabs_le_inv in E. fold (slope v0 (ext v0 n 1 U) (n + 1)) in E. fold (slope v0 U n) in E.
        split; [reflexivity|]. split; [split; [apply ext_ge; lia|apply ext_le; lia]|].
        split; [apply ext_mono; lia|]. split; [lra|]. left. split; [exact K|lra].
      - exists b. split; [reflexivity|]. split; [lia|]. split; [apply ext_le; lia|]. split; [|now right].
        pose proof (slope_le v0 b U (n + 1) n ltac:(lia) Hn ltac:(lia)). lra. }
    assert (EL : exists L', (if (c - v0) * n <? (L - v0) * (n + 1) then ext v0 n 1 L else c) = L' /\ c <= L' /\
      (L' = ext v0 n 1 L \/ L' = c) /\ (slope v0 L n - / IZR (n + 1) <= slope v0 L' (n + 1))%R /\
      (((c - v0) * n < (L - v0) * (n + 1) /\ (slope v0 L' (n + 1) <= slope v0 L n + / IZR (n + 1))%R) \/ L' = c)).
    { destruct (Z.ltb_spec ((c - v0) * n) ((L - v0) * (n + 1))) as [K|K].
      - exists (ext v0 n 1 L). pose proof (ext_slope v0 n L Hn ltac:(lia) ltac:(lia)) as E.
        apply Rabs_le_inv in E. fold (slope v0 (ext v0 n 1 L) (n + 1)) in E. fold (slope v0 L n) in E.
        split; [reflexivity|]. split; [apply ext_ge; lia|]. split; [now left|]. split; [lra|]. left. split; [exact K|lra].
      - exists c. split; [reflexivity|]. split; [lia|]. split; [now right|]. split; [|now right].
        pose proof (slope_le v0 L c n (n + 1) Hn ltac:(lia) ltac:(lia)). lra. }
    destruct EU as [U' [-> [U1 [U2 [U3 U4]]]]]. destruct EL as [L' [-> [L1 [L2 [L3 L4]]]]].
    split; [split; [lia|destruct L2 as [->| ->]; lia]|]. split; [lia|].
    assert (Eb : b = bu (a + (n + 1))) by (unfold b, bu; do 2 f_equal; lia).
    assert (Ec : c = bl (a + (n + 1))) by (unfold c, bl; do 2 f_equal; lia).
    split; [|split; [|split]].
    - intros j Hj. destruct (Z.eq_dec j (n + 1)) as [->|N].
      + rewrite harm_self, <- Eb, Rplus_0_r. apply slope_le; nia.
      + rewrite harm_succ by lia. specialize (C3 j ltac:(lia)). lra.
    - intros j Hj. destruct (Z.eq_dec j (n + 1)) as [->|N].
      + rewrite harm_self, <- Ec, Rminus_0_r. apply slope_le; nia.
      + rewrite harm_succ by lia. specialize (C4 j ltac:(lia)). lra.
    - destruct U4 as [[_ U4]|U4].
      + destruct C5 as [j [Hj C5]]. exists j. split; [lia|]. rewrite harm_succ by lia. lra.
      + exists (n + 1). split; [lia|]. rewrite harm_self, <- Eb, U4. lra.
    - destruct L4 as [[_ L4]|L4].
      + destruct C6 as [j [Hj C6]]. exists j. split; [lia|]. rewrite harm_succ by lia. lra.
      + exists (n + 1). split; [lia|]. rewrite harm_self, <- Ec, L4. lra.
  Qed.

  (** A line to any point between the limits reconstructs the samples. *)
  Lemma cone_segment : forall a v0 n U L m, 0 < n -> (Z.abs (v0 - x a) <= eps) -> cone a v0 n U L -> L <= m <= U ->
    segment_ok x eps rounding_slack (a, v0) (a + n, m).
  Proof.
    intros a v0 n U L m Hn Ha [C1 [C2 [C3 [C4 _]]]] Hm. split; [cbn; lia|].
    intros t Ht. cbn [fst snd] in *. unfold line. cbn [fst snd]. set (j := t - a) in *.
    replace (a + n - a) with n by lia.
    assert (Q : (0 < IZR n)%R) by (apply IZR_lt; lia).
    destruct (Z.eq_dec j 0) as [E|N].
    - assert (t = a) by lia. subst t. rewrite E. unfold rounding_slack. rewrite Rmult_0_l, Rplus_0_r.
      unfold Rdiv. rewrite Rmult_0_l, Rmult_0_r, Rplus_0_r, <- minus_IZR, <- abs_IZR. now apply IZR_le.
    - assert (J : (0 < IZR j)%R) by (apply IZR_lt; lia).
      assert (E : (IZR v0 + (IZR m - IZR v0) * (IZR j / IZR n) = IZR v0 + IZR j * slope v0 m n)%R).
      { unfold slope. rewrite minus_IZR. field. lra. }
      rewrite E. unfold rounding_slack.
      specialize (C3 j ltac:(lia)). specialize (C4 j ltac:(lia)).
      pose proof (slope_le v0 m U n n Hn Hn ltac:(nia)) as SU. pose proof (slope_le v0 L m n n Hn Hn ltac:(nia)) as SL.
      replace (a + j) with t in * by lia.
      pose proof (bu_spec t) as Sb. pose proof (bl_spec t) as Sl.
      assert (Eu : (IZR j * slope v0 (bu t) j = IZR (bu t) - IZR v0)%R) by (unfold slope; rewrite minus_IZR; field; lra).
      assert (El : (IZR j * slope v0 (bl t) j = IZR (bl t) - IZR v0)%R) by (unfold slope; rewrite minus_IZR; field; lra).
      assert (Bu : (IZR (bu t) <= IZR (x t) + IZR eps)%R) by (rewrite <- plus_IZR; apply IZR_le; lia).
      assert (Bl : (IZR (x t) - IZR eps <= IZR (bl t))%R) by (rewrite <- minus_IZR; apply IZR_le; lia).
      apply Rabs_le. split; nra.
  Qed.

  (** When the limits exclude the new sample, no line was possible. *)
  Lemma cone_must : forall a v0 n U L, 0 < n -> cone a v0 n U L ->
    (forall t, minv <= x t - eps /\ x t + eps <= maxv) ->
    must eps maxv minv v0 n 1 U L (x (a + n + 1)) = true ->
    ~ line_exists x eps rounding_slack (a, v0) (a + n + 1).
  Proof.
    intros a v0 n U L Hn [_ [_ [_ [_ [[j [Hj C5]] [k [Hk C6]]]]]]] Hc M [s Hs]. cbn [fst snd] in Hs.
    assert (Bu : forall t, bu t = x t + eps). { intros t. unfold bu, up, cmin. specialize (Hc t). destruct (Z.gtb_spec (x t + eps) maxv); lia. }
    assert (Bl : forall t, bl t = x t - eps). { intros t. unfold bl, low, cmax. specialize (Hc t). destruct (Z.ltb_spec (x t - eps) minv); lia. }
    assert (Hs' : forall i, 1 <= i <= n + 1 ->
      (slope v0 (bl (a + i)) i + harmonic_from_to i (n + 1) <= s <= slope v0 (bu (a + i)) i - harmonic_from_to i (n + 1))%R).
    { intros i Hi. specialize (Hs (a + i) ltac:(lia)). replace (a + i - a) with i in Hs by lia. replace (a + n + 1 - a) with (n + 1) in Hs by lia.
      unfold rounding_slack in Hs. apply Rabs_le_inv in Hs. rewrite Bu, Bl. unfold slope. rewrite !minus_IZR, plus_IZR.
      assert (I : (0 < IZR i)%R) by (apply IZR_lt; lia).
      split; apply Rmult_le_reg_r with (IZR i); auto.
      - replace (((IZR (x (a + i)) - IZR eps - IZR v0) / IZR i + harmonic_from_to i (n + 1)) * IZR i)%R
          with (IZR (x (a + i)) - IZR eps - IZR v0 + harmonic_from_to i (n + 1) * IZR i)%R by (field; lra). lra.
      - replace (((IZR (x (a + i)) + IZR eps - IZR v0) / IZR i - harmonic_from_to i (n + 1)) * IZR i)%R
          with (IZR (x (a + i)) + IZR eps - IZR v0 - harmonic_from_to i (n + 1) * IZR i)%R by (field; lra). lra. }
    assert (Q1 : (0 < / IZR (n + 1))%R) by (apply Rinv_0_lt_compat, IZR_lt; lia).
    pose proof (Hs' j ltac:(lia)) as Sj. pose proof (Hs' k ltac:(lia)) as Sk. pose proof (Hs' (n + 1) ltac:(lia)) as Sn.
    rewrite harm_succ in Sj, Sk by lia. rewrite harm_self in Sn.
    apply orb_true_iff in M. replace (a + (n + 1)) with (a + n + 1) in Sn by lia.
    destruct M as [M|M]; apply Z.ltb_lt in M; [fold (bl (a + n + 1)) in M|fold (bu (a + n + 1)) in M].
    - pose proof (slope_lt v0 U (bl (a + n + 1)) n (n + 1) Hn ltac:(lia) M). lra.
    - pose proof (slope_lt v0 (bu (a + n + 1)) L (n + 1) n ltac:(lia) Hn ltac:(lia)). lra.
  Qed.

  Definition uinv (s : ltc) (t : Z) : Prop :=
    s = st1 t (x t) \/
    exists a v0 n U L tt, s = st a v0 t U L tt /\ 0 <= a /\ t = a + n /\ 0 < n /\
      Z.abs (v0 - x a) <= eps /\ minv <= v0 <= maxv /\ cone a v0 n U L.

  Lemma uinv_step : forall s t, uinv s t -> 0 <= t -> t + 1 < 2 ^ 31 ->
    exists s' b, add eps maxv minv 1 s (t + 1) (x (t + 1)) = Ok (s', b) /\ uinv s' (t + 1) /\ counter s' = 2 /\
      (if b then get_value_to_transmit s' = Ok (pend s) /\
         segment_ok x eps rounding_slack (pair_of (pend s)) (pair_of (pend s')) /\
         ((forall t, minv <= x t - eps /\ x t + eps <= maxv) -> ~ line_exists x eps rounding_slack (pair_of (pend s)) (t + 1))
       else pend s' = pend s).
  Proof.
    intros s t [->|[a [v0 [n [U [L [tt [-> [Ha [-> [Hn [Hv [H0 C]]]]]]]]]]]]] Ht Ht'.
    - rewrite (add_second eps maxv minv Heps Hmax Hmin) by apply Hx. eexists _, _. split; [reflexivity|]. split; [|split; reflexivity].
      right. exists t, (x t), 1, (bu (t + 1)), (bl (t + 1)), None. pose proof (Hx t).
      split; [reflexivity|]. do 5 (split; [lia|]). apply cone_first.
    - pose proof C as [C1 [C2 _]].
      rewrite (add_step eps maxv minv Heps Hmax Hmin a v0 n 1 U L tt _ (Hx _)) by lia.
      destruct (must eps maxv minv v0 n 1 U L (x (a + n + 1))) eqn:M; eexists _, _; (split; [reflexivity|]).
      + pose proof (quot_mid L U ltac:(lia)) as Q.
        pose proof (cone_segment a v0 n U L (Z.quot (U + L) 2) Hn Hv C Q) as SG. split.
        * right. exists (a + n), (Z.quot (U + L) 2), 1, (bu (a + n + 1)), (bl (a + n + 1)), (Some (mkPt a v0)).
          split; [unfold bu, bl; f_equal; lia|]. split; [lia|]. split; [lia|]. split; [lia|]. split; [|split; [lia|apply cone_first]].
          destruct SG as [_ SG]. specialize (SG (a + n)). cbn [fst snd] in SG. specialize (SG ltac:(lia)).
          unfold line in SG. cbn [fst snd] in SG. replace (a + n - a) with n in SG by lia.
          unfold rounding_slack in SG. rewrite harm_self in SG.
          assert (QR : (0 < IZR n)%R) by (apply IZR_lt; lia).
          unfold Rdiv in SG. rewrite Rinv_r in SG by lra. rewrite !Rmult_1_r, Rmult_0_r, Rplus_0_r in SG.
          replace (IZR v0 + (IZR (Z.quot (U + L) 2) - IZR v0) - IZR (x (a + n)))%R
            with (IZR (Z.quot (U + L) 2 - x (a + n))) in SG by (rewrite minus_IZR; ring).
          rewrite <- abs_IZR in SG. now apply le_IZR in SG.
        * split; [reflexivity|]. split; [reflexivity|]. split; [|intros Hc; now apply (cone_must a v0 n U L)].
          unfold pair_of, pend. cbn [last_transmit_point st ts val]. now replace (a + n + 1 - 1) with (a + n) by lia.
      + split; [|split; reflexivity]. right. eexists a, v0, (n + 1), _, _, tt. split; [reflexivity|].
        split; [lia|]. split; [lia|]. split; [lia|]. split; [exact Hv|]. split; [exact H0|]. now apply cone_next.
  Qed.

  Lemma uinv_run : forall k s t, uinv s t -> 0 <= t -> t + Z.of_nat k < 2 ^ 31 ->
    exists s' os, ltc_run eps maxv minv 1 s (sampled x (t + 1) k) = Ok (s', os) /\ length os = k /\
      uinv s' (t + Z.of_nat k) /\ (counter s = 2 \/ (0 < k)%nat -> counter s' = 2) /\
      (exists rest, received os ++ [pend s'] = pend s :: rest) /\
      consecutive (segment_ok x eps rounding_slack) (map pair_of (received os ++ [pend s'])) /\
      ((forall t, minv <= x t - eps /\ x t + eps <= maxv) -> forall i p, nth_error os i = Some (Some p) ->
         ~ line_exists x eps rounding_slack (pair_of p) (t + 1 + Z.of_nat i)).
  Proof.
    induction k as [|k IH]; intros s t I Ht Hk.
    - exists s, []. cbn [sampled ltc_run]. split; [reflexivity|]. split; [reflexivity|]. rewrite Z.add_0_r. split; [exact I|].
      split; [intros [K|K]; [exact K|lia]|]. split; [now exists []|]. split; [exact Logic.I|]. intros _ [|i] p E; discriminate.
    - destruct (uinv_step s t I Ht ltac:(lia)) as [s1 [b [E [I1 [K1 B]]]]].
      cbn [sampled]. rewrite (run_step _ _ _ _ _ _ _ _ _ _ E).
      destruct (IH s1 (t + 1) I1 ltac:(lia) ltac:(lia)) as [s' [os [R [Ln [I' [K2 [[rest Hr] [C Nx]]]]]]]].
      replace (t + Z.of_nat (S k)) with (t + 1 + Z.of_nat k) by lia.
      destruct b.
      + destruct B as [B1 [B2 B3]]. rewrite B1. cbn [bind]. rewrite R. cbn [bind]. exists s', (Some (pend s) :: os).
        split; [reflexivity|]. split; [cbn; lia|]. split; [exact I'|]. split; [intros _; apply K2; now left|]. cbn [received app]. rewrite Hr in *. split; [eauto|].
        split; [cbn [map] in *; split; [exact B2|exact C]|].
        intros Hc [|i] p Ep; cbn in Ep.
        * injection Ep as <-. replace (t + 1 + Z.of_nat 0) with (t + 1) by lia. now apply B3.
        * replace (t + 1 + Z.of_nat (S i)) with (t + 1 + 1 + Z.of_nat i) by lia. now apply Nx.
      + cbn [bind]. rewrite R. cbn [bind]. exists s', (None :: os). split; [reflexivity|]. split; [cbn; lia|]. split; [exact I'|].
        split; [intros _; apply K2; now left|]. cbn [received]. rewrite <- B. split; [eauto|]. split; [exact C|].
        intros Hc [|i] p Ep; cbn in Ep; [discriminate|].
        replace (t + 1 + Z.of_nat (S i)) with (t + 1 + 1 + Z.of_nat i) by lia. now apply Nx.
  Qed.
End Unit.

(** ** Runs without transmission *)
Lemma run_app : forall eps maxv minv u l1 l2 s s1 os1, ltc_run eps maxv minv u s l1 = Ok (s1, os1) ->
  ltc_run eps maxv minv u s (l1 ++ l2) = do (s2, os2) <- ltc_run eps maxv minv u s1 l2; Ok (s2, os1 ++ os2).
Proof.
  intros eps maxv minv u. induction l1 as [|[t v] l1 IH]; intros l2 s s1 os1 H.
  - cbn in H. injection H as <- <-. cbn [app]. destruct (ltc_run eps maxv minv u s l2) as [[]| | |]; reflexivity.
  - cbn [ltc_run app] in *. destruct (add eps maxv minv u s t v) as [[s' b]| | |]; try discriminate. cbn [bind] in *.
    destruct (if b then do p <- get_value_to_transmit s'; Ok (Some p) else Ok None) as [o| | |]; try discriminate. cbn [bind] in *.
    destruct (ltc_run eps maxv minv u s' l1) as [[s'' os]| | |] eqn:E; try discriminate. cbn [bind] in *. injection H as <- <-.
    rewrite (IH l2 _ _ _ E). destruct (ltc_run eps maxv minv u s'' l2) as [[]| | |]; reflexivity.
Qed.

Lemma sampled_app : forall x k m t, sampled x t (k + m) = sampled x t k ++ sampled x (t + Z.of_nat k) m.
Proof.
  induction k as [|k IH]; intros m t; cbn [Nat.add sampled app]; [now rewrite Z.add_0_r|].
  rewrite IH. do 3 f_equal. lia.
Qed.

Lemma run_quiet : forall eps maxv minv u (S : Z -> ltc) x k t,
  (forall i, t <= i < t + Z.of_nat k -> add eps maxv minv u (S i) (i + 1) (x (i + 1)) = Ok (S (i + 1), false)) ->
  ltc_run eps maxv minv u (S t) (sampled x (t + 1) k) = Ok (S (t + Z.of_nat k), repeat None k).
Proof.
  intros eps maxv minv u St x. induction k as [|k IH]; intros t H.
  - cbn [sampled ltc_run repeat]. now rewrite Z.add_0_r.
  - cbn [sampled]. rewrite (run_step _ _ _ _ _ _ _ _ _ _ (H t ltac:(lia))). cbn [bind].
    rewrite IH by (intros; apply H; lia). cbn [bind repeat]. do 3 f_equal. lia.
Qed.

Lemma received_none : forall k os, received (repeat None k ++ os) = received os.
Proof. induction k as [|k IH]; intros os; cbn [repeat app received]; auto. Qed.

Section Quiet.
  Variables (eps maxv minv : Z).
  Hypothesis Heps : 0 <= eps <= 2 ^ 19.
  Hypothesis Hmax : maxv <= 2 ^ 19.
  Hypothesis Hmin : - 2 ^ 19 <= minv.

  (** The state while the limits are those of the last sample. *)
  Definition fresh (x : Z -> Z) (t0 v0 t : Z) : ltc :=
    if t =? t0 then st1 t0 v0 else st t0 v0 t (up eps maxv (x t)) (low eps minv (x t)) None.

  Lemma linear_step : forall x t0 v0 d t, minv <= v0 <= maxv -> 0 <= t0 <= t -> t + 1 < 2 ^ 31 ->
    x t = v0 + d * (t - t0) -> x (t + 1) = v0 + d * (t + 1 - t0) ->
    minv <= x t <= maxv -> minv <= x (t + 1) <= maxv ->
    add eps maxv minv 1 (fresh x t0 v0 t) (t + 1) (x (t + 1)) = Ok (fresh x t0 v0 (t + 1), false).
  Proof.
    intros x t0 v0 d t H0 Ht0 Ht E1 E2 R1 R2. unfold fresh.
    rewrite (proj2 (Z.eqb_neq (t + 1) t0)) by lia. destruct (Z.eqb_spec t t0) as [->|N].
    - now apply add_second.
    - pose proof (up_spec eps maxv minv Heps _ R1) as U1. pose proof (low_spec eps maxv minv Heps _ R1) as L1.
      pose proof (up_spec eps maxv minv Heps _ R2) as U2. pose proof (low_spec eps maxv minv Heps _ R2) as L2.
      assert (V1 : up eps maxv (x t) = x t + eps \/ up eps maxv (x t) = maxv)
        by (unfold up, cmin; destruct (Z.gtb_spec (x t + eps) maxv); auto).
      assert (W1 : low eps minv (x t) = x t - eps \/ low eps minv (x t) = minv)
        by (unfold low, cmax; destruct (Z.ltb_spec (x t - eps) minv); auto).
      pose proof (add_step eps maxv minv Heps Hmax Hmin t0 v0 (t - t0) 1 (up eps maxv (x t)) (low eps minv (x t)) None _ R2) as A.
      replace (t0 + (t - t0)) with t in A by lia. rewrite A by lia. clear A.
      set (n := t - t0) in *. assert (Hn : 0 < n) by lia. replace (t + 1 - t0) with (n + 1) in E2 by lia.
      unfold must, nextU, nextL.
      rewrite (proj2 (Z.ltb_ge ((up eps maxv (x t) - v0) * (n + 1)) ((low eps minv (x (t + 1)) - v0) * n))) by nia.
      rewrite (proj2 (Z.ltb_ge ((up eps maxv (x (t + 1)) - v0) * n) ((low eps minv (x t) - v0) * (n + 1)))) by nia.
      rewrite (proj2 (Z.ltb_ge ((up eps maxv (x t) - v0) * (n + 1)) ((up eps maxv (x (t + 1)) - v0) * n))) by (destruct V1; nia).
      rewrite (proj2 (Z.ltb_ge ((low eps minv (x (t + 1)) - v0) * n) ((low eps minv (x t) - v0) * (n + 1)))) by (destruct W1; nia).
      reflexivity.
  Qed.
End Quiet.

(** ** Truncation *)
Lemma ext_stuck : forall n v, 0 <= v < n -> v < 2 ^ 19 -> ext 0 n 1 v = v.
Proof.
  intros n v Hv Hb. rewrite ext_unit, Z.sub_0_r.
  assert (Q : (0 < IZR n)%R) by (apply IZR_lt; lia).
  assert (F : generic_format radix2 fexp64 (IZR ((v + 1) * 2 ^ 20 - 1) * bpow radix2 (-20))).
  { change fexp64 with (FLT_exp (SpecFloat.emin 53 1024) 53). apply generic_format_FLT.
    exists (Float radix2 ((v + 1) * 2 ^ 20 - 1) (-20)); [reflexivity| |vm_compute; discriminate].
    cbn [Fnum]. change (Z.pow radix2 53) with (2 ^ 53). lia. }
  assert (F2 : generic_format radix2 fexp64 (IZR (2 ^ 20 - 1) * bpow radix2 (-20))).
  { change fexp64 with (FLT_exp (SpecFloat.emin 53 1024) 53). apply generic_format_FLT.
    exists (Float radix2 (2 ^ 20 - 1) (-20)); [reflexivity| |vm_compute; discriminate].
    cbn [Fnum]. change (Z.pow radix2 53) with (2 ^ 53). lia. }
  assert (B : (bpow radix2 (-20) = / IZR (2 ^ 20))%R) by reflexivity.
  assert (P : (0 < IZR (2 ^ 20))%R) by (apply IZR_lt; lia).
  assert (A : (0 <= rnd64 (IZR v / IZR n) <= IZR (2 ^ 20 - 1) * bpow radix2 (-20))%R).
  { split; [apply (rnd_ge_Z 0); [lia|]; apply (quot_ge_Z _ _ 0); lia|].
    rewrite <- (rnd_id _ F2). apply rnd_le. rewrite B.
    apply Rmult_le_reg_r with (IZR n * IZR (2 ^ 20))%R; [now apply Rmult_lt_0_compat|].
    replace (IZR v / IZR n * (IZR n * IZR (2 ^ 20)))%R with (IZR (v * 2 ^ 20)) by (rewrite mult_IZR; field; lra).
    replace (IZR (2 ^ 20 - 1) * / IZR (2 ^ 20) * (IZR n * IZR (2 ^ 20)))%R with (IZR ((2 ^ 20 - 1) * n)) by (rewrite mult_IZR; field; lra).
    apply IZR_le. nia. }
  assert (L : (IZR v <= rnd64 (rnd64 (IZR v / IZR n) + IZR v))%R) by (apply rnd_ge_Z; [lia|lra]).
  assert (U : (rnd64 (rnd64 (IZR v / IZR n) + IZR v) < IZR (v + 1))%R).
  { apply Rle_lt_trans with (IZR ((v + 1) * 2 ^ 20 - 1) * bpow radix2 (-20))%R.
    - rewrite <- (rnd_id _ F). apply rnd_le. apply Rle_trans with (IZR (2 ^ 20 - 1) * bpow radix2 (-20) + IZR v)%R; [lra|].
      rewrite B. right. rewrite !minus_IZR, mult_IZR, plus_IZR. field. lra.
    - rewrite B, minus_IZR, mult_IZR. apply Rmult_lt_reg_r with (IZR (2 ^ 20)); auto.
      rewrite Rmult_assoc, Rinv_l by lra. lra. }
  rewrite Ztrunc_floor.
  - apply Zfloor_imp. split; [exact L|exact U].
  - apply Rle_trans with (2 := L). apply IZR_le. lia.
Qed.

Section Plateau.
  Variables (eps maxv minv B N : Z).
  Hypothesis Heps : 1 <= eps < B.
  Hypothesis Hmax : 4 * B <= maxv <= 2 ^ 19.
  Hypothesis Hmin : - 2 ^ 19 <= minv <= 0.
  Hypothesis HN : B <= N < 2 ^ 31 - 3.

  (** A ramp up to [B], a plateau until [N], then two jumps. *)
  Definition ramp (t : Z) : Z :=
    if t <=? B then t else if t <=? N then B else if t =? N + 1 then 4 * B else 0.

  Lemma ramp_up : forall t, 0 <= t <= N -> ramp t = Z.min t B.
  Proof. intros t H. unfold ramp. destruct (Z.leb_spec t B), (Z.leb_spec t N); lia. Qed.

  Lemma ramp_quiet : forall t, 0 <= t < N ->
    add eps maxv minv 1 (fresh eps maxv minv ramp 0 0 t) (t + 1) (ramp (t + 1)) =
      Ok (fresh eps maxv minv ramp 0 0 (t + 1), false).
  Proof.
    intros t Ht. pose proof (ramp_up t ltac:(lia)) as E1. pose proof (ramp_up (t + 1) ltac:(lia)) as E2.
    destruct (Z.le_gt_cases (t + 1) B) as [C|C].
    - apply linear_step with 1; try lia.
    - unfold fresh. rewrite (proj2 (Z.eqb_neq t 0)), (proj2 (Z.eqb_neq (t + 1) 0)) by lia.
      assert (R1 : ramp t = B) by lia. assert (R2 : ramp (t + 1) = B) by lia. rewrite R1, R2.
      assert (U : up eps maxv B = B + eps) by (unfold up, cmin; destruct (Z.gtb_spec (B + eps) maxv); lia).
      assert (L : low eps minv B = B - eps) by (unfold low, cmax; destruct (Z.ltb_spec (B - eps) minv); lia).
      pose proof (add_step eps maxv minv ltac:(lia) ltac:(lia) ltac:(lia) 0 0 t 1 (up eps maxv B) (low eps minv B) None B) as A.
      rewrite !Z.add_0_l in A. rewrite A by lia. clear A. unfold must, nextU, nextL. rewrite U, L, !Z.sub_0_r.
      rewrite (proj2 (Z.ltb_ge ((B + eps) * (t + 1)) ((B - eps) * t))) by nia.
      rewrite (proj2 (Z.ltb_ge ((B + eps) * t) ((B - eps) * (t + 1)))) by nia.
      rewrite (proj2 (Z.ltb_ge ((B + eps) * (t + 1)) ((B + eps) * t))) by nia.
      rewrite (proj2 (Z.ltb_lt ((B - eps) * t) ((B - eps) * (t + 1)))) by nia.
      cbn [orb]. rewrite ext_stuck by lia. reflexivity.
  Qed.

  Lemma ramp_run : exists s os,
    ltc_run eps maxv minv 1 ltc_init (sampled ramp 0 (Z.to_nat (N + 3))) = Ok (s, os) /\
    received os = [mkPt 0 0; mkPt N B].
  Proof.
    replace (Z.to_nat (N + 3)) with (1 + (Z.to_nat N + 2))%nat by lia. rewrite sampled_app.
    assert (E0 : ltc_run eps maxv minv 1 ltc_init (sampled ramp 0 1) = Ok (fresh eps maxv minv ramp 0 0 0, [None])).
    { cbn [sampled]. unfold ltc_run. rewrite add_first. cbn [bind]. unfold ramp. now rewrite (proj2 (Z.leb_le 0 B)) by lia. }
    rewrite (run_app _ _ _ _ _ _ _ _ _ E0). change (0 + Z.of_nat 1) with 1. rewrite sampled_app.
    pose proof (run_quiet eps maxv minv 1 (fresh eps maxv minv ramp 0 0) ramp (Z.to_nat N) 0
      ltac:(intros; apply ramp_quiet; lia)) as Q. rewrite Z.add_0_l in Q.
    rewrite (run_app _ _ _ _ _ _ _ _ _ Q). rewrite !Z2Nat.id by lia. rewrite Z.add_0_l. cbn [sampled].
    unfold fresh. rewrite (proj2 (Z.eqb_neq N 0)) by lia. rewrite (ramp_up N), Z.min_r by lia.
    assert (U : up eps maxv B = B + eps) by (unfold up, cmin; destruct (Z.gtb_spec (B + eps) maxv); lia).
    assert (L : low eps minv B = B - eps) by (unfold low, cmax; destruct (Z.ltb_spec (B - eps) minv); lia).
    assert (R1 : ramp (1 + N) = 4 * B).
    { unfold ramp. rewrite (proj2 (Z.leb_gt (1 + N) B)), (proj2 (Z.leb_gt (1 + N) N)) by lia. now rewrite (proj2 (Z.eqb_eq (1 + N) (N + 1))) by lia. }
    assert (R2 : ramp (1 + N + 1) = 0).
    { unfold ramp. rewrite (proj2 (Z.leb_gt (1 + N + 1) B)), (proj2 (Z.leb_gt (1 + N + 1) N)) by lia. now rewrite (proj2 (Z.eqb_neq (1 + N + 1) (N + 1))) by lia. }
    rewrite R1, R2, U, L.
    pose proof (add_step eps maxv minv ltac:(lia) ltac:(lia) ltac:(lia) 0 0 N 1 (B + eps) (B - eps) None (4 * B)) as A1.
    rewrite !Z.add_0_l in A1. specialize (A1 ltac:(lia) ltac:(lia) ltac:(lia) ltac:(lia) ltac:(lia) ltac:(lia) ltac:(lia) ltac:(lia) ltac:(lia)).
    assert (L4 : 3 * B < low eps minv (4 * B)) by (unfold low, cmax; destruct (Z.ltb_spec (4 * B - eps) minv); lia).
    assert (L4' : low eps minv (4 * B) <= 4 * B) by (unfold low, cmax; destruct (Z.ltb_spec (4 * B - eps) minv); lia).
    assert (U4 : 4 * B <= up eps maxv (4 * B) <= maxv) by (apply (up_spec eps maxv minv ltac:(lia) (4 * B)); lia).
    assert (M1 : must eps maxv minv 0 N 1 (B + eps) (B - eps) (4 * B) = true).
    { unfold must. apply orb_true_iff. left. apply Z.ltb_lt. nia. }
    rewrite M1 in A1. replace (N + 1 - 1) with N in A1 by lia.
    replace (Z.quot (B + eps + (B - eps)) 2) with B in A1 by (replace (B + eps + (B - eps)) with (B * 2) by ring; now rewrite Z.quot_mul by lia).
    rewrite (Z.add_comm 1 N).
    rewrite (run_step _ _ _ _ _ _ _ _ _ _ A1). cbn [get_value_to_transmit st to_transmit getp bind].
    pose proof (add_step eps maxv minv ltac:(lia) ltac:(lia) ltac:(lia) N B 1 1 (up eps maxv (4 * B)) (low eps minv (4 * B)) (Some (mkPt 0 0)) 0
      ltac:(lia) ltac:(lia) ltac:(lia) ltac:(lia) ltac:(lia) ltac:(lia) ltac:(lia) ltac:(lia) ltac:(lia)) as A2.
    assert (M2 : must eps maxv minv B 1 1 (up eps maxv (4 * B)) (low eps minv (4 * B)) 0 = true).
    { unfold must. apply orb_true_iff. right. apply Z.ltb_lt. pose proof (up_spec eps maxv minv ltac:(lia) 0 ltac:(lia)). lia. }
    rewrite M2 in A2.
    rewrite (run_step _ _ _ _ _ _ _ _ _ _ A2). cbn [get_value_to_transmit st to_transmit getp bind ltc_run].
    eexists _, _. split; [reflexivity|]. cbn [app received]. rewrite received_none. reflexivity.
  Qed.
End Plateau.
