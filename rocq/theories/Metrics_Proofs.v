(** * Proofs about the metrics *)
From Coq Require Import ZArith List Bool Lia Reals Lra Permutation.
From Flocq Require Import Core BinarySingleNaN.
From Verif Require Import CppBase CppFacts Dbl DblFacts NumOps NumFacts Reservoir_Spec Reservoir_Prob Metrics_Model Metrics_Spec.
Import ListNotations.
Local Open Scope Z_scope.

Lemma at_most_app : forall B l o, at_most B (l ++ [o]) ->
  at_most B l /\ Z.of_nat (length (observations (l ++ [o]))) <= B.
Proof.
  intros B l o H. split.
  - intros n. destruct (le_lt_dec n (length l)) as [Hn|Hn].
    + specialize (H n). rewrite firstn_app in H. replace (n - length l)%nat with 0%nat in H by lia.
      cbn [firstn] in H. now rewrite app_nil_r in H.
    + specialize (H (length l)). rewrite firstn_app, Nat.sub_diag in H. cbn [firstn] in H.
      rewrite app_nil_r, firstn_all in H. rewrite firstn_all2 by lia. exact H.
  - specialize (H (length (l ++ [o]))). now rewrite firstn_all in H.
Qed.

Lemma obs_app : forall l o, observations (l ++ [o]) = observe (observations l) o.
Proof. intros. unfold observations. rewrite fold_left_app. reflexivity. Qed.

Lemma count_le : forall A (p : A -> bool) l, 0 <= count_if p l <= Z.of_nat (length l).
Proof.
  intros A p l. unfold count_if. assert (length (filter p l) <= length l)%nat; [|lia].
  induction l as [|x l IH]; cbn; [lia|]. destruct (p x); cbn; lia.
Qed.
Lemma count_repeat : forall A (p : A -> bool) x n, count_if p (repeat x n) = if p x then Z.of_nat n else 0.
Proof.
  intros A p x n. induction n as [|n IH]; cbn [repeat].
  - now destruct (p x).
  - rewrite count_cons, IH. destruct (p x); lia.
Qed.

(** ** Error metric *)
Lemma err_run_app : forall l m o, err_run m (l ++ [o]) = bind (err_run m l) (fun m' => err_step m' o).
Proof.
  induction l as [|a l IH]; intros m o; cbn [app err_run].
  - cbn [bind]. now destruct (err_step m o).
  - rewrite bind_assoc. destruct (err_step m a); auto. cbn [bind]. apply IH.
Qed.

Notation wrong := (fun o : Z * Z => negb (fst o =? snd o)).

Lemma err_state : forall l, Forall inc_ok l -> at_most 2147483647 l ->
  err_run err_init l = Ok (mkErr (Z.of_nat (length (observations l))) (count_if wrong (observations l))).
Proof.
  induction l as [|o l IH] using rev_ind; intros Hi Hm; [reflexivity|].
  apply Forall_app in Hi. destruct Hi as [Hi Ho]. inversion Ho as [|? ? Ho' _]; subst.
  destruct (at_most_app _ _ _ Hm) as [Hm' Hl]. rewrite err_run_app, IH by auto. cbn [bind].
  rewrite obs_app in *. pose proof (count_le _ wrong (observations l)) as Hc.
  destruct o as [t p|c|]; cbn [err_step observe] in *.
  - unfold err_update. cbn [err_count err_errors]. rewrite app_length in *. cbn [length] in *.
    rewrite count_app. rewrite count_cons. cbn [fst snd].
    change (count_if wrong []) with 0.
    rewrite sint_ok by lia. cbn [bind]. destruct (t =? p); cbn [negb]; rewrite sint_ok by lia; cbn [bind]; do 2 f_equal; lia.
  - unfold err_increase. cbn [err_count err_errors]. rewrite app_length, repeat_length in *. cbn [inc_ok] in Ho'.
    rewrite count_app, count_repeat. cbn [fst snd Z.eqb negb]. rewrite sint_ok by lia. cbn [bind].
    rewrite sint_ok by lia. cbn [bind]. do 2 f_equal; lia.
  - reflexivity.
Qed.

(** ** Kappa metric *)
Lemma kappa_run_app : forall L l m o, kappa_run L m (l ++ [o]) = bind (kappa_run L m l) (fun m' => kappa_step L m' o).
Proof.
  induction l as [|a l IH]; intros m o; cbn [app kappa_run].
  - cbn [bind]. now destruct (kappa_step L m o).
  - rewrite bind_assoc. destruct (kappa_step L m a); auto. cbn [bind]. apply IH.
Qed.

Notation both i j := (fun o : Z * Z => (fst o =? i) && (snd o =? j)).

(** The matrix holds the counts. *)
Definition table (L : Z) (obs : list (Z * Z)) (m : kappam) : Prop :=
  total m = Z.of_nat (length obs) /\
  Z.of_nat (length (confusion m)) = L /\
  (forall i, 0 <= i < L -> exists r, rd (confusion m) i = Ok r /\ Z.of_nat (length r) = L /\
     forall j, 0 <= j < L -> rd r j = Ok (count_if (both i j) obs)).

Lemma table_cell : forall L obs m i j, table L obs m -> 0 <= i < L -> 0 <= j < L ->
  cell m i j = Ok (count_if (both i j) obs).
Proof.
  intros L obs m i j [_ [_ H]] Hi Hj. unfold cell. destruct (H i Hi) as [r [H1 [_ H2]]].
  rewrite H1. cbn [bind]. auto.
Qed.

Lemma rd_repeat : forall A (x : A) n i, 0 <= i < Z.of_nat n -> rd (repeat x n) i = Ok x.
Proof.
  intros A x n i H. apply rd_ok_iff. split; [lia|]. apply nth_error_repeat. lia.
Qed.

Lemma table_reset : forall L, 0 <= L -> table L [] (kappa_reset L).
Proof.
  intros L H. split; [reflexivity|]. split; [cbn; rewrite repeat_length; lia|].
  intros i Hi. exists (repeat 0 (Z.to_nat L)). cbn [kappa_reset confusion]. rewrite rd_repeat by lia.
  split; [reflexivity|]. split; [rewrite repeat_length; lia|]. intros j Hj. rewrite rd_repeat by lia. reflexivity.
Qed.

Lemma table_add : forall L obs m t p c, table L obs m -> 0 <= t < L -> 0 <= p < L -> 0 <= c ->
  Z.of_nat (length obs) + c <= 2147483647 ->
  exists m', cell_add m t p c = Ok m' /\ table L (obs ++ repeat (t, p) (Z.to_nat c)) m'.
Proof.
  intros L obs m t p c [T1 [T2 T3]] Ht Hp Hc Hl. unfold cell_add.
  destruct (T3 t Ht) as [r [R1 [R2 R3]]]. rewrite R1. cbn [bind]. rewrite R3 by auto. cbn [bind].
  pose proof (count_le _ (both t p) obs) as Hq.
  rewrite sint_ok by lia. cbn [bind]. rewrite wr_ok by lia. cbn [bind]. rewrite wr_ok by lia. cbn [bind].
  rewrite T1. rewrite sint_ok by lia. cbn [bind]. eexists. split; [reflexivity|].
  split; [|split]; cbn [total confusion].
  - rewrite app_length, repeat_length. lia.
  - now rewrite upd_length.
  - intros i Hi. rewrite rd_upd by lia. destruct (Z.eqb_spec t i) as [<-|N].
    + eexists. split; [reflexivity|]. rewrite upd_length. split; [exact R2|]. intros j Hj.
      rewrite rd_upd by lia. rewrite count_app, count_repeat. cbn [fst snd]. rewrite Z.eqb_refl.
      destruct (Z.eqb_spec p j) as [<-|N].
      * cbn [andb]. f_equal. lia.
      * rewrite R3 by auto. cbn [andb]. f_equal. lia.
    + destruct (T3 i Hi) as [r' [Q1 [Q2 Q3]]]. exists r'. split; [exact Q1|]. split; [exact Q2|].
      intros j Hj. rewrite Q3 by auto. rewrite count_app, count_repeat. cbn [fst snd].
      destruct (Z.eqb_spec t i); [lia|]. cbn [andb]. f_equal. lia.
Qed.

Lemma kappa_state : forall L l, 1 <= L -> Forall (call_ok L) l -> at_most 2147483647 l ->
  exists m, kappa_run L (kappa_reset L) l = Ok m /\ table L (observations l) m.
Proof.
  intros L l HL. induction l as [|o l IH] using rev_ind; intros Hi Hm.
  - exists (kappa_reset L). split; [reflexivity|]. apply table_reset. lia.
  - apply Forall_app in Hi. destruct Hi as [Hi Ho]. inversion Ho as [|? ? Ho' _]; subst.
    destruct (at_most_app _ _ _ Hm) as [Hm' Hl]. destruct (IH Hi Hm') as [m [R T]].
    rewrite kappa_run_app, R. cbn [bind]. rewrite obs_app in *.
    destruct o as [t p|c|]; cbn [kappa_step observe call_ok] in *.
    + rewrite app_length in Hl. cbn [length] in Hl.
      destruct (table_add L _ m t p 1 T) as [m' [A B]]; try lia. exists m'. auto.
    + rewrite app_length, repeat_length in Hl.
      destruct (table_add L _ m 0 1 c T) as [m' [A B]]; try lia. exists m'. auto.
    + eexists. split; [reflexivity|]. apply table_reset. lia.
Qed.

Lemma obs_labels : forall L l, Forall (call_ok L) l ->
  forall o, In o (observations l) -> 0 <= fst o < L /\ 0 <= snd o < L.
Proof.
  intros L l. induction l as [|c l IH] using rev_ind; intros Hi o; [intros []|].
  apply Forall_app in Hi. destruct Hi as [Hi Ho]. inversion Ho as [|? ? Ho' _]; subst.
  rewrite obs_app. destruct c as [t p|c|]; cbn [observe call_ok] in *.
  - intros H. apply in_app_or in H. destruct H as [H|[<-|[]]]; [now apply IH|]. exact Ho'.
  - intros H. apply in_app_or in H. destruct H as [H|H]; [now apply IH|].
    apply repeat_spec in H. subst. cbn [fst snd]. lia.
  - intros [].
Qed.

(** ** Sums of counts *)
Lemma count_fibers : forall A (l : list A) (f : A -> Z) (q : A -> bool) n,
  (forall x, In x l -> 0 <= f x < Z.of_nat n) ->
  zsum (fun j => count_if (fun x => q x && (f x =? j)) l) n = count_if q l.
Proof.
  intros A l f q n. induction l as [|x l IH]; intros H.
  - rewrite (zsum_ext _ (fun _ => 0)), zsum_zero; auto.
  - rewrite count_cons, <- IH by (intros; apply H; now right).
    rewrite (zsum_ext _ (fun j => (if f x =? j then (if q x then 1 else 0) else 0) + count_if (fun x => q x && (f x =? j)) l)).
    + rewrite zsum_add, zsum_single; [reflexivity|]. apply H. now left.
    + intros j Hj. rewrite count_cons. f_equal. destruct (q x), (f x =? j); reflexivity.
Qed.

Section Sums.
  Variable L : Z.
  Variable obs : list (Z * Z).
  Hypothesis HL : 1 <= L.
  Hypothesis lab : forall o, In o obs -> 0 <= fst o < L /\ 0 <= snd o < L.
  Let n := Z.of_nat (length obs).
  Let K := Z.to_nat L.
  Definition rr (i : Z) : Z := count_if (fun o => fst o =? i) obs.
  Definition cc (i : Z) : Z := count_if (fun o => snd o =? i) obs.
  Definition dd (i : Z) : Z := count_if (both i i) obs.
  Definition DD : Z := zsum dd K.
  Definition SS : Z := zsum (fun i => rr i * cc i) K.

  Lemma row_sum : forall i, zsum (fun j => count_if (both i j) obs) K = rr i.
  Proof.
    intros i. unfold rr. apply (count_fibers _ obs snd (fun o => fst o =? i)).
    intros x Hx. specialize (lab x Hx). unfold K. lia.
  Qed.
  Lemma col_sum : forall i, zsum (fun j => count_if (both j i) obs) K = cc i.
  Proof.
    intros i. unfold cc. rewrite <- (count_fibers _ obs fst (fun o => snd o =? i) K).
    - apply zsum_ext. intros j _. apply count_ext. intros x _. apply andb_comm.
    - intros x Hx. specialize (lab x Hx). unfold K. lia.
  Qed.
  Lemma rr_sum : zsum rr K = n.
  Proof.
    unfold n. rewrite <- (count_true_all _ obs). rewrite <- (count_fibers _ obs fst (fun _ => true) K).
    - reflexivity.
    - intros x Hx. specialize (lab x Hx). unfold K. lia.
  Qed.
  Lemma cc_sum : zsum cc K = n.
  Proof.
    unfold n. rewrite <- (count_true_all _ obs). rewrite <- (count_fibers _ obs snd (fun _ => true) K).
    - reflexivity.
    - intros x Hx. specialize (lab x Hx). unfold K. lia.
  Qed.
  Lemma dd_sum : DD = count_if (fun o => fst o =? snd o) obs.
  Proof.
    unfold DD. rewrite <- (count_fibers _ obs fst (fun o => fst o =? snd o) K).
    - apply zsum_ext. intros i _. apply count_ext. intros [a b] _. cbn [fst snd].
      destruct (Z.eqb_spec a i), (Z.eqb_spec b i), (Z.eqb_spec a b); cbn; auto; lia.
    - intros x Hx. specialize (lab x Hx). unfold K. lia.
  Qed.

  Lemma rr_pos : forall i, 0 <= rr i <= n. Proof. intros. apply count_le. Qed.
  Lemma cc_pos : forall i, 0 <= cc i <= n. Proof. intros. apply count_le. Qed.
  Lemma dd_pos : forall i, 0 <= dd i <= n. Proof. intros. apply count_le. Qed.
  Lemma DD_pos : 0 <= DD <= n. Proof. rewrite dd_sum. apply count_le. Qed.
  Lemma SS_pos : 0 <= SS.
  Proof. apply zsum_nonneg. intros i _. pose proof (rr_pos i). pose proof (cc_pos i). nia. Qed.

  Lemma incl_excl : forall i, rr i + cc i <= n + dd i.
  Proof.
    intros i. unfold rr, cc, dd, n. clear. induction obs as [|o l IH]; [cbn; lia|].
    rewrite !count_cons. cbn [length]. destruct (fst o =? i), (snd o =? i); cbn [andb]; lia.
  Qed.

  (** 2 S <= n^2 + n D *)
  Lemma SS_upper : 2 * SS <= n * n + n * DD.
  Proof.
    assert (H : zsum (fun i => 4 * (rr i * cc i)) K <= zsum (fun i => n * (rr i + cc i) + (2 * n) * dd i) K).
    { apply zsum_le. intros i _. pose proof (rr_pos i). pose proof (cc_pos i). pose proof (dd_pos i).
      pose proof (incl_excl i).
      revert H H0 H1 H2. generalize (rr i) (cc i) (dd i) n. clear. intros r c d m Hr Hc Hd Hi.
      assert (4 * (r * c) <= (r + c) * (r + c)) by (pose proof (Z.square_nonneg (r - c)); lia).
      assert ((r + c) * (r + c) <= (r + c) * (m + d)) by (apply Z.mul_le_mono_nonneg_l; lia).
      assert ((r + c) * d <= (2 * m) * d) by (apply Z.mul_le_mono_nonneg_r; lia). lia. }
    rewrite zsum_scal, zsum_add, !zsum_scal, zsum_add, rr_sum, cc_sum in H.
    fold SS in H. fold DD in H. lia.
  Qed.

  Lemma SS_le : SS <= n * n.
  Proof.
    unfold SS. apply Z.le_trans with (zsum (fun i => n * cc i) K).
    - apply zsum_le. intros i _. pose proof (rr_pos i). pose proof (cc_pos i). nia.
    - rewrite zsum_scal, cc_sum. lia.
  Qed.

  Lemma obs_cons : 0 < n -> exists x l, obs = x :: l.
  Proof. unfold n. destruct obs as [|x l]; [cbn; lia|eauto]. Qed.

  (** n^2 - S = sum over i of r_i (n - c_i): zero only if everything is in one cell. *)
  Lemma SS_full : 0 < n -> SS = n * n -> exists a, forall o, In o obs -> o = (a, a).
  Proof.
    intros Hn HS.
    assert (H0 : zsum (fun i => rr i * (n - cc i)) K = 0).
    { rewrite (zsum_ext _ (fun i => n * rr i + (-1) * (rr i * cc i))) by (intros; ring).
      rewrite zsum_add, !zsum_scal, rr_sum. fold SS. lia. }
    assert (Hz : forall i, 0 <= i < L -> rr i * (n - cc i) = 0).
    { intros i Hi. pose proof (zsum_term (fun i => rr i * (n - cc i)) K i) as T.
      cbn beta in T. rewrite H0 in T. pose proof (rr_pos i). pose proof (cc_pos i).
      assert (0 <= rr i * (n - cc i)) by nia. unfold K in T.
      assert (rr i * (n - cc i) <= 0); [|lia]. apply T; [|lia].
      intros j _. pose proof (rr_pos j). pose proof (cc_pos j). nia. }
    destruct (obs_cons Hn) as [[a b] [l E]].
    destruct (lab (a, b)) as [La Lb]; [rewrite E; now left|]. cbn [fst snd] in *.
    assert (Ra : 0 < rr a).
    { unfold rr. rewrite E, count_cons. cbn [fst]. rewrite Z.eqb_refl. pose proof (count_le _ (fun o => fst o =? a) l). lia. }
    assert (Ca : cc a = n) by (specialize (Hz a La); nia).
    exists a.
    assert (Sn : forall o, In o obs -> snd o = a).
    { intros o Ho. destruct (Z.eq_dec (snd o) a) as [|N]; auto. exfalso.
      assert (count_if (fun o => snd o =? a) obs < n); [|unfold cc in Ca; lia].
      clear - Ho N. subst n. induction obs as [|x t IH]; [destruct Ho|]. rewrite count_cons. cbn [length].
      destruct Ho as [->|Ho].
      - destruct (Z.eqb_spec (snd o) a); [lia|]. pose proof (count_le _ (fun o => snd o =? a) t). lia.
      - specialize (IH Ho). destruct (snd x =? a); lia. }
    assert (Fn : forall o, In o obs -> fst o = a).
    { intros o Ho. destruct (Z.eq_dec (fst o) a) as [|N]; auto. exfalso.
      destruct (lab o Ho) as [Lo _]. specialize (Hz (fst o) Lo).
      assert (0 < rr (fst o)).
      { unfold rr. clear - Ho. induction obs as [|x t IH]; [destruct Ho|]. rewrite count_cons.
        destruct Ho as [->|Ho].
        - rewrite Z.eqb_refl. pose proof (count_le _ (fun o0 => fst o0 =? fst o) t). lia.
        - specialize (IH Ho). destruct (fst x =? fst o); lia. }
      assert (cc (fst o) = 0).
      { unfold cc. rewrite (count_ext _ _ (fun _ => false)); [apply count_false|].
        intros x Hx. rewrite (Sn x Hx). apply Z.eqb_neq. lia. }
      nia. }
    intros [x y] Ho. specialize (Sn _ Ho). specialize (Fn _ Ho). cbn in *. congruence.
  Qed.

  Lemma SS_full_conv : forall a, (forall o, In o obs -> o = (a, a)) -> 0 < n -> SS = n * n.
  Proof.
    intros a H Hn. assert (La : 0 <= a < L).
    { destruct (obs_cons Hn) as [o [l E]].
      assert (I : In o obs) by (rewrite E; now left). destruct (lab o I) as [P _]. rewrite (H o I) in P. exact P. }
    unfold SS. rewrite (zsum_ext _ (fun i => if a =? i then n * n else 0)).
    - rewrite zsum_single; [reflexivity|]. unfold K. lia.
    - intros i _. unfold rr, cc.
      rewrite (count_ext _ (fun o => fst o =? i) (fun _ => a =? i)) by (intros o Ho; now rewrite (H o Ho)).
      rewrite (count_ext _ (fun o => snd o =? i) (fun _ => a =? i)) by (intros o Ho; now rewrite (H o Ho)).
      destruct (a =? i); [now rewrite count_true_all | now rewrite count_false].
  Qed.

  (** The double loop. *)
  Lemma kappa_val : forall O B m, exactZ O B -> n * n <= B -> table L obs m ->
    kappa O L m = Ok (ndiv O (nofZ O (n * DD - SS)) (nofZ O (n * n - SS))).
  Proof.
    intros O B m E HB T. unfold kappa. fold K.
    pose proof E as [EA [ES EM]]. pose proof rr_sum as Rs. pose proof cc_sum as Cs. pose proof SS_le as Sl.
    pose proof DD_pos as Dp. pose proof SS_pos as Sp.
    assert (Hn : 0 <= n) by (unfold n; lia).
    assert (nB : n <= B) by nia.
    destruct (forZ_inv _ (fun i '(d, s) => d = nofZ O (zsum dd (Z.to_nat i)) /\
        s = nofZ O (zsum (fun i => rr i * cc i) (Z.to_nat i)))
      (fun (i : Z) '(diag, colrow) =>
       do d <- cell m i i;
       do (sum_col, sum_row) <- forZ K 0 (fun j '(sum_col, sum_row) =>
         do a <- cell m i j; do b <- cell m j i;
         Ok (nadd O sum_col (nofZ O a), nadd O sum_row (nofZ O b))) (nofZ O 0, nofZ O 0);
       Ok (nadd O diag (nofZ O d), nadd O colrow (nmul O sum_col sum_row))) K 0 (nofZ O 0, nofZ O 0))
      as [[d s] [F [Hd Hs]]].
    - split; reflexivity.
    - intros i [d s] Hi [-> ->]. assert (Hi' : 0 <= i < L) by (unfold K in Hi; lia).
      rewrite (table_cell L obs m i i) by auto. cbn [bind].
      destruct (forZ_inv _ (fun j '(a, b) => a = nofZ O (zsum (fun j => count_if (both i j) obs) (Z.to_nat j)) /\
          b = nofZ O (zsum (fun j => count_if (both j i) obs) (Z.to_nat j)))
        (fun j '(sum_col, sum_row) =>
         do a <- cell m i j; do b <- cell m j i;
         Ok (nadd O sum_col (nofZ O a), nadd O sum_row (nofZ O b))) K 0 (nofZ O 0, nofZ O 0))
        as [[a b] [G [Ha Hb]]].
      + split; reflexivity.
      + intros j [a b] Hj [-> ->]. assert (Hj' : 0 <= j < L) by (unfold K in Hj; lia).
        rewrite (table_cell L obs m i j), (table_cell L obs m j i) by auto. cbn [bind].
        eexists. split; [reflexivity|]. replace (Z.to_nat (j + 1)) with (S (Z.to_nat j)) by lia.
        cbn [zsum]. rewrite Z2Nat.id by lia.
        assert (Q : forall f : Z -> Z, (forall k, 0 <= f k) -> zsum f (Z.to_nat j) + f j <= zsum f K).
        { intros f P. assert (zsum f (S (Z.to_nat j)) <= zsum f K) by (apply zsum_mono; [lia|auto]).
          cbn [zsum] in H. rewrite Z2Nat.id in H by lia. exact H. }
        pose proof (row_sum i) as RI. pose proof (col_sum i) as CI. pose proof (rr_pos i). pose proof (cc_pos i).
        split; apply EA.
        * apply zsum_nonneg. intros; apply count_le.
        * apply count_le.
        * specialize (Q (fun j => count_if (both i j) obs)). cbn beta in Q. rewrite RI in Q.
          assert (forall k, 0 <= count_if (both i k) obs) by (intros; apply count_le). specialize (Q H1). lia.
        * apply zsum_nonneg. intros; apply count_le.
        * apply count_le.
        * specialize (Q (fun j => count_if (both j i) obs)). cbn beta in Q. rewrite CI in Q.
          assert (forall k, 0 <= count_if (both k i) obs) by (intros; apply count_le). specialize (Q H1). lia.
      + rewrite G. cbn [bind]. rewrite Z.add_0_l, Nat2Z.id in Ha, Hb. rewrite row_sum in Ha. rewrite col_sum in Hb. subst a b.
        eexists. split; [reflexivity|]. replace (Z.to_nat (i + 1)) with (S (Z.to_nat i)) by lia.
        cbn [zsum]. rewrite Z2Nat.id by lia. pose proof (rr_pos i). pose proof (cc_pos i). pose proof (dd_pos i).
        assert (P1 : rr i * cc i <= n * n) by nia.
        rewrite EM by nia. split; apply EA.
        * apply zsum_nonneg. intros; apply dd_pos.
        * apply dd_pos.
        * assert (Q : zsum dd (S (Z.to_nat i)) <= zsum dd K).
          { apply zsum_mono; [lia|]. intros; apply dd_pos. }
          cbn [zsum] in Q. rewrite Z2Nat.id in Q by lia. unfold DD in Dp. unfold dd in *. lia.
        * apply zsum_nonneg. intros k _. pose proof (rr_pos k). pose proof (cc_pos k). nia.
        * nia.
        * assert (Q : zsum (fun i => rr i * cc i) (S (Z.to_nat i)) <= zsum (fun i => rr i * cc i) K).
          { apply zsum_mono; [lia|]. intros k _. pose proof (rr_pos k). pose proof (cc_pos k). nia. }
          cbn [zsum] in Q. rewrite Z2Nat.id in Q by lia. unfold SS in Sl. lia.
    - cbn beta in F |- *. rewrite F. cbn [bind]. rewrite Z.add_0_l, Nat2Z.id in Hd, Hs. fold DD in Hd. fold SS in Hs. subst d s.
      destruct T as [T1 _]. rewrite T1. fold n. rewrite EM by nia. rewrite EM by nia. rewrite ES by nia. rewrite ES by nia.
      reflexivity.
  Qed.
End Sums.

(** ** Reals *)
Lemma freq_val : forall p obs, freq p obs = (IZR (count_if p obs) / IZR (Z.of_nat (length obs)))%R.
Proof. reflexivity. Qed.

Lemma rsum_ext : forall f g n, (forall i, f i = g i) -> rsum f n = rsum g n.
Proof. intros f g n H. induction n as [|n IH]; cbn [rsum]; auto. now rewrite IH, H. Qed.
Lemma rsum_zsum : forall f n c, rsum (fun i => IZR (f i) * c)%R n = (IZR (zsum f n) * c)%R.
Proof.
  intros f n c. induction n as [|n IH]; cbn [rsum zsum]; [ring|]. rewrite IH, plus_IZR. ring.
Qed.

Lemma count_all : forall A (p : A -> bool) l, count_if p l = Z.of_nat (length l) <-> forall x, In x l -> p x = true.
Proof.
  intros A p l. induction l as [|x l IH]; [cbn; split; [intros _ ? []|auto]|].
  rewrite count_cons. cbn [length]. pose proof (count_le _ p l). split.
  - intros H0 y [<-|Hy]; destruct (p x) eqn:E; auto; try lia. apply IH; auto. lia.
  - intros H0. rewrite (H0 x) by now left. destruct IH as [_ IH]. rewrite IH; [lia|]. intros; apply H0; now right.
Qed.

Section Cohen.
  Variable L : Z.
  Variable obs : list (Z * Z).
  Hypothesis HL : 1 <= L.
  Hypothesis lab : forall o, In o obs -> 0 <= fst o < L /\ 0 <= snd o < L.
  Hypothesis ne : obs <> [].
  Let n := Z.of_nat (length obs).
  Let D := DD L obs.
  Let S := SS L obs.

  Lemma n_pos : 0 < n.
  Proof. unfold n. destruct obs as [|x l]; [congruence|cbn; lia]. Qed.

  Lemma chance_val : chance L obs = (IZR S / (IZR n * IZR n))%R.
  Proof.
    pose proof n_pos as Hn. assert (N : IZR n <> 0%R) by (apply not_0_IZR; lia).
    unfold chance. rewrite (rsum_ext _ (fun i => IZR (rr obs i * cc obs i) * / (IZR n * IZR n))%R).
    - rewrite rsum_zsum. reflexivity.
    - intros i. unfold freq. fold n. rewrite mult_IZR. unfold rr, cc. field. exact N.
  Qed.

  Lemma agreement_val : agreement obs = (IZR D / IZR n)%R.
  Proof. unfold agreement, freq, D. now rewrite (dd_sum L obs HL lab). Qed.

  Lemma chance_one : chance L obs = 1%R <-> exists a, forall o, In o obs -> o = (a, a).
  Proof.
    pose proof n_pos as Hn. assert (N : IZR n <> 0%R) by (apply not_0_IZR; lia).
    rewrite chance_val. split.
    - intros H. apply (SS_full L obs HL lab); [exact Hn|]. apply eq_IZR. fold S. fold n. rewrite mult_IZR.
      assert (Q : IZR S = (IZR S / (IZR n * IZR n) * (IZR n * IZR n))%R) by (field; exact N).
      rewrite Q, H. ring.
    - intros [a H]. pose proof (SS_full_conv L obs HL lab a H Hn) as E. fold S n in E. rewrite E, mult_IZR.
      field. exact N.
  Qed.

  Hypothesis mixed : ~ exists a, forall o, In o obs -> o = (a, a).

  Lemma den_pos : 0 < n * n - S.
  Proof.
    pose proof n_pos as Hn. pose proof (SS_le L obs HL lab) as Sl. fold n S in Sl.
    destruct (Z.eq_dec S (n * n)) as [E|E]; [|lia].
    exfalso. apply mixed. apply (SS_full L obs HL lab); [exact Hn | exact E].
  Qed.

  Lemma cohen_val : cohen L obs = (IZR (n * D - S) / IZR (n * n - S))%R.
  Proof.
    pose proof n_pos as Hn. pose proof den_pos as Hd. assert (N : IZR n <> 0%R) by (apply not_0_IZR; lia).
    assert (M : IZR (n * n - S) <> 0%R) by (apply not_0_IZR; lia).
    unfold cohen. rewrite chance_val, agreement_val. rewrite !minus_IZR, !mult_IZR in *.
    field. repeat split; auto.
  Qed.

  Lemma cohen_range : (-1 <= cohen L obs <= 1)%R.
  Proof.
    pose proof n_pos as Hn. pose proof den_pos as Hd. rewrite cohen_val.
    assert (P : (0 < IZR (n * n - S))%R) by now apply IZR_lt.
    assert (A : (- IZR (n * n - S) <= IZR (n * D - S))%R).
    { rewrite <- opp_IZR. apply IZR_le. pose proof (SS_upper L obs HL lab) as U. fold n D S in U. lia. }
    assert (B : (IZR (n * D - S) <= IZR (n * n - S))%R).
    { apply IZR_le. pose proof (DD_pos L obs HL lab) as U. fold n D in U. nia. }
    split.
    - apply Rmult_le_reg_r with (IZR (n * n - S)); auto. field_simplify; lra.
    - apply Rmult_le_reg_r with (IZR (n * n - S)); auto. field_simplify; lra.
  Qed.

  Lemma cohen_one : cohen L obs = 1%R <-> forall o, In o obs -> fst o = snd o.
  Proof.
    pose proof n_pos as Hn. pose proof den_pos as Hd. rewrite cohen_val.
    assert (P : (IZR (n * n - S) <> 0)%R) by (apply not_0_IZR; lia).
    transitivity (D = n).
    - split.
      + intros H. assert (Q : IZR (n * D - S) = (IZR (n * D - S) / IZR (n * n - S) * IZR (n * n - S))%R) by (field; exact P).
        rewrite H, Rmult_1_l in Q. apply eq_IZR in Q. nia.
      + intros ->. now apply Rinv_r.
    - unfold D, n. rewrite (dd_sum L obs HL lab). rewrite count_all. split; intros H x Hx; specialize (H x Hx).
      + now apply Z.eqb_eq.
      + now apply Z.eqb_eq.
  Qed.
End Cohen.

Definition one_cell (obs : list (Z * Z)) : Prop := exists a, forall o, In o obs -> o = (a, a).

Lemma rops_kappa : forall L l, 1 <= L -> Forall (call_ok L) l -> at_most 2147483647 l ->
  observations l <> [] -> ~ one_cell (observations l) ->
  exists m, kappa_run L (kappa_reset L) l = Ok m /\ kappa rops L m = Ok (cohen L (observations l)).
Proof.
  intros L l HL Hc Hm Hn Hx. destruct (kappa_state L l HL Hc Hm) as [m [R T]]. exists m. split; [exact R|].
  pose proof (obs_labels L l Hc) as lab. set (obs := observations l) in *.
  rewrite (kappa_val L obs HL lab rops (Z.of_nat (length obs) * Z.of_nat (length obs)) m (rops_exact _)); auto; [|lia].
  rewrite (cohen_val L obs HL lab) by auto. reflexivity.
Qed.

Lemma sq_bound : forall n, 0 <= n <= 94906265 -> n * n <= 2 ^ 53.
Proof. intros n H. change (2 ^ 53) with 9007199254740992. nia. Qed.

Lemma at_most_le : forall B B' l, B <= B' -> at_most B l -> at_most B' l.
Proof. intros B B' l H A n. specialize (A n). lia. Qed.

Lemma at_most_all : forall B l, at_most B l -> Z.of_nat (length (observations l)) <= B.
Proof. intros B l H. specialize (H (length l)). now rewrite firstn_all in H. Qed.

Lemma dops_kappa : forall L l, 1 <= L -> Forall (call_ok L) l -> at_most 94906265 l ->
  observations l <> [] -> ~ one_cell (observations l) ->
  exists m k, kappa_run L (kappa_reset L) l = Ok m /\ kappa dops L m = Ok k /\
    is_finite k = true /\ B2R k = rnd64 (cohen L (observations l)).
Proof.
  intros L l HL Hc Hm Hn Hx. destruct (kappa_state L l HL Hc) as [m [R T]]. { eapply at_most_le; [|exact Hm]. lia. }
  pose proof (at_most_all _ _ Hm) as Hlen.
  pose proof (obs_labels L l Hc) as lab. set (obs := observations l) in *.
  assert (Hsq : Z.of_nat (length obs) * Z.of_nat (length obs) <= 2 ^ 53) by (apply sq_bound; lia).
  exists m. eexists. split; [exact R|].
  rewrite (kappa_val L obs HL lab dops (2 ^ 53) m dops_exact); auto.
  split; [reflexivity|]. cbn [ndiv nofZ dops]. rewrite (cohen_val L obs HL lab) by auto.
  pose proof (den_pos L obs HL lab Hn Hx). pose proof (SS_pos L obs HL). pose proof (DD_pos L obs HL lab).
  set (n := Z.of_nat (length obs)) in *.
  assert (n * DD L obs <= n * n) by nia. assert (0 <= n * DD L obs) by nia.
  destruct (ddivZ (n * DD L obs - SS L obs) (n * n - SS L obs)) as [A B]; try lia. auto.
Qed.

Lemma score_unit : forall k : dbl, is_finite k = true -> (-1 <= B2R k <= 1)%R ->
  let s := ddiv (dadd k (dofZ 1)) (dofZ 2) in
  is_finite s = true /\ (0 <= B2R s <= 1)%R /\ B2R s = rnd64 (rnd64 (B2R k + 1) / 2).
Proof.
  intros k Fk Hk. destruct (dofZ_exact 1) as [R1 F1]; [vm_compute; discriminate|].
  destruct (dofZ_exact 2) as [R2 F2]; [vm_compute; discriminate|].
  assert (H0 : Z.abs 0 <= 2 ^ 53) by (vm_compute; discriminate).
  assert (H1 : Z.abs 1 <= 2 ^ 53) by (vm_compute; discriminate).
  assert (H2 : Z.abs 2 <= 2 ^ 53) by (vm_compute; discriminate).
  destruct (dadd_R k (dofZ 1) Fk F1) as [A1 A2].
  { rewrite R1. apply huge_Z with 2; auto. rewrite Rabs_pos_eq by lra. rewrite Rabs_pos_eq; lra. }
  assert (Q : (0 <= rnd64 (B2R k + 1) <= 2)%R).
  { split; [apply (rnd_ge_Z 0); auto; lra | apply (rnd_le_Z 2); auto; lra]. }
  destruct (ddiv_R (dadd k (dofZ 1)) (dofZ 2) A2) as [B1 B2].
  { rewrite R2. lra. }
  { rewrite A1, R1, R2. apply huge_Z with 2; auto. rewrite Rabs_pos_eq by lra. rewrite Rabs_pos_eq; lra. }
  intros s. unfold s. split; [exact B2|]. rewrite B1, A1, R1, R2. split; [|reflexivity].
  split; [apply (rnd_ge_Z 0); auto; lra | apply (rnd_le_Z 1); auto; lra].
Qed.

Lemma dnegm1 : forall k : dbl, is_finite k = true ->
  is_finite (dmul k (dofZ (-1))) = true /\ B2R (dmul k (dofZ (-1))) = (- B2R k)%R.
Proof.
  intros k Fk. destruct (dofZ_exact (-1)) as [R1 F1]; [vm_compute; discriminate|].
  pose proof (Bmult_correct 53 1024 Hprec64 Hmax64 mode_NE k (dofZ (-1))) as C.
  change (round_mode mode_NE) with ZnearestE in C. rewrite R1 in C.
  replace (B2R k * -1)%R with (- B2R k)%R in C by ring.
  rewrite (rnd_id (- B2R k)) in C by (apply generic_format_opp, generic_format_B2R).
  rewrite Rlt_bool_true in C.
  - destruct C as [A [B _]]. rewrite Fk, F1 in B. auto.
  - rewrite Rabs_Ropp. apply abs_B2R_lt_emax.
Qed.

Lemma nan_kappa : forall L l, 1 <= L -> Forall (call_ok L) l -> at_most 94906265 l ->
  one_cell (observations l) ->
  exists m, kappa_run L (kappa_reset L) l = Ok m /\ kappa dops L m = Ok dnan.
Proof.
  intros L l HL Hc Hm [a Hx]. destruct (kappa_state L l HL Hc) as [m [R T]]. { eapply at_most_le; [|exact Hm]. lia. }
  pose proof (at_most_all _ _ Hm) as Hlen.
  pose proof (obs_labels L l Hc) as lab. set (obs := observations l) in *.
  assert (Hsq : Z.of_nat (length obs) * Z.of_nat (length obs) <= 2 ^ 53) by (apply sq_bound; lia).
  exists m. split; [exact R|].
  rewrite (kappa_val L obs HL lab dops (2 ^ 53) m dops_exact); auto.
  set (n := Z.of_nat (length obs)) in *.
  assert (E : SS L obs = n * n).
  { destruct (Z.eq_dec n 0) as [E|E].
    - pose proof (SS_le L obs HL lab) as U. pose proof (SS_pos L obs HL). fold n in U. nia.
    - apply (SS_full_conv L obs HL lab a Hx). unfold n in *. lia. }
  assert (E2 : DD L obs = n).
  { rewrite (dd_sum L obs HL lab). apply count_all. intros o Ho. rewrite (Hx o Ho). apply Z.eqb_refl. }
  rewrite E, E2, Z.sub_diag. reflexivity.
Qed.

(** Equal counts give equal states. *)
Lemma table_unique : forall L o1 o2 m1 m2, 1 <= L -> table L o1 m1 -> table L o2 m2 ->
  length o1 = length o2 -> (forall i j, count_if (both i j) o1 = count_if (both i j) o2) -> m1 = m2.
Proof.
  intros L o1 o2 [c1 t1] [c2 t2] HL [A1 [B1 C1]] [A2 [B2 C2]] Hl Hc. cbn [total confusion] in *. f_equal; [|lia].
  apply (nth_error_ext _ c1 c2). intros i. destruct (lt_dec i (Z.to_nat L)) as [Hi|Hi].
  - destruct (C1 (Z.of_nat i)) as [r1 [P1 [P2 P3]]]; [lia|]. destruct (C2 (Z.of_nat i)) as [r2 [Q1 [Q2 Q3]]]; [lia|].
    apply rd_ok_iff in P1. apply rd_ok_iff in Q1. rewrite Nat2Z.id in *. destruct P1 as [_ P1], Q1 as [_ Q1].
    rewrite P1, Q1. f_equal. apply (nth_error_ext _ r1 r2). intros j. destruct (lt_dec j (Z.to_nat L)) as [Hj|Hj].
    + specialize (P3 (Z.of_nat j) ltac:(lia)). specialize (Q3 (Z.of_nat j) ltac:(lia)).
      apply rd_ok_iff in P3. apply rd_ok_iff in Q3. rewrite Nat2Z.id in *. destruct P3 as [_ P3], Q3 as [_ Q3].
      rewrite P3, Q3. f_equal. apply Hc.
    + rewrite (proj2 (nth_error_None r1 j)), (proj2 (nth_error_None r2 j)); auto; lia.
  - rewrite (proj2 (nth_error_None c1 i)), (proj2 (nth_error_None c2 i)); auto; lia.
Qed.

Lemma count_perm : forall A (p : A -> bool) l1 l2, Permutation l1 l2 -> count_if p l1 = count_if p l2.
Proof.
  intros A p l1 l2 H. induction H; auto; rewrite ?count_cons in *; lia.
Qed.

Lemma kappa_order : forall L l1 l2, 1 <= L -> Forall (call_ok L) l1 -> Forall (call_ok L) l2 ->
  at_most 2147483647 l1 -> at_most 2147483647 l2 -> Permutation (observations l1) (observations l2) ->
  kappa_run L (kappa_reset L) l1 = kappa_run L (kappa_reset L) l2.
Proof.
  intros L l1 l2 HL C1 C2 M1 M2 P. destruct (kappa_state L l1 HL C1 M1) as [m1 [R1 T1]].
  destruct (kappa_state L l2 HL C2 M2) as [m2 [R2 T2]]. rewrite R1, R2. f_equal.
  apply (table_unique L _ _ m1 m2 HL T1 T2).
  - now apply Permutation_length.
  - intros i j. now apply count_perm.
Qed.

(** ** Reservoir-sampling metric *)
Lemma rs_run_app : forall l s o, rs_run s (l ++ [o]) = bind (rs_run s l) (fun s' => rs_step s' o).
Proof.
  induction l as [|a l IH]; intros s o; cbn [app rs_run].
  - cbn [bind]. now destruct (rs_step s o).
  - rewrite bind_assoc. destruct (rs_step s a); auto. cbn [bind]. apply IH.
Qed.

Lemma rs_inv : forall l s, (forall i j, ~ In (RsAssign i j) l) -> rs_run (mkRsm 0 []) l = Ok s ->
  total_count s = Z.of_nat (length l) /\
  Z.of_nat (length (numbers s)) <= total_count s /\
  (l <> [] -> exists i, nth_error (numbers s) i = Some (total_count s) /\
    forall j, nth_error (numbers s) j = Some (total_count s) -> j = i) /\
  (forall j v, nth_error (numbers s) j = Some v -> v <= total_count s).
Proof.
  induction l as [|o l IH] using rev_ind; intros s Ha R.
  - injection R as <-. cbn. split; [reflexivity|]. split; [lia|]. split; [congruence|]. intros [|j] v H; discriminate.
  - rewrite rs_run_app in R. apply bind_inv in R. destruct R as [s' [R H]].
    destruct (IH s') as [I1 [I2 [I3 I4]]]; auto. { intros i j Hi. apply (Ha i j). apply in_or_app. now left. }
    rewrite app_length. cbn [length].
    destruct o as [|i|i j]; cbn [rs_step] in H.
    + apply bind_inv in H. destruct H as [t [S H]]. injection H as <-. cbn [total_count numbers].
      unfold sint in S. destruct (_ && _); [|discriminate]. injection S as <-.
      split; [lia|]. rewrite app_length. cbn [length]. split; [lia|]. split.
      * intros _. exists (length (numbers s')). rewrite nth_error_app2, Nat.sub_diag by lia. split; [reflexivity|].
        intros j Hj. destruct (lt_dec j (length (numbers s'))) as [L|L].
        -- rewrite nth_error_app1 in Hj by auto. apply I4 in Hj. lia.
        -- assert (nth_error (numbers s' ++ [total_count s' + 1]) j <> None) by congruence.
           apply nth_error_Some in H. rewrite app_length in H. cbn [length] in H. lia.
      * intros j v Hj. destruct (lt_dec j (length (numbers s'))) as [L|L].
        -- rewrite nth_error_app1 in Hj by auto. apply I4 in Hj. lia.
        -- rewrite nth_error_app2 in Hj by lia. destruct (j - length (numbers s'))%nat as [|k].
           ++ injection Hj as <-. lia.
           ++ destruct k; discriminate.
    + apply bind_inv in H. destruct H as [t [S H]]. apply bind_inv in H. destruct H as [ns [W H]]. injection H as <-.
      cbn [total_count numbers]. unfold sint in S. destruct (_ && _); [|discriminate]. injection S as <-.
      apply wr_inv in W. destruct W as [Wb ->]. split; [lia|]. rewrite upd_length. split; [lia|]. split.
      * intros _. exists (Z.to_nat i). rewrite nth_error_upd_same by lia. split; [reflexivity|].
        intros j Hj. rewrite nth_error_upd in Hj. destruct (Nat.eqb_spec (Z.to_nat i) j); auto.
        apply I4 in Hj. lia.
      * intros j v Hj. rewrite nth_error_upd in Hj. destruct (Nat.eqb_spec (Z.to_nat i) j).
        -- destruct (_ <? _)%nat; [injection Hj as <-; lia|discriminate].
        -- apply I4 in Hj. lia.
    + exfalso. apply (Ha i j). apply in_or_app. right. now left.
Qed.

Lemma classic_one : forall obs, one_cell obs \/ ~ one_cell obs.
Proof.
  intros [|[a b] l]. { left. exists 0. intros o []. }
  destruct (forallb (fun o => (fst o =? a) && (snd o =? a)) ((a, b) :: l)) eqn:E.
  - left. exists a. intros [x y] H. rewrite forallb_forall in E. specialize (E _ H). cbn [fst snd] in E.
    apply andb_prop in E. destruct E as [E1 E2]. apply Z.eqb_eq in E1, E2. congruence.
  - right. intros [c H]. assert (a = c) by (specialize (H (a, b) (or_introl eq_refl)); congruence). subst.
    assert (F : forallb (fun o => (fst o =? c) && (snd o =? c)) ((c, b) :: l) = true); [|congruence].
    apply forallb_forall. intros o Ho. rewrite (H o Ho). cbn [fst snd]. now rewrite Z.eqb_refl.
Qed.
