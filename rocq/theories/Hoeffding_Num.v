(** * Counts, frequencies and information gains of the Hoeffding tree *)
From Coq Require Import ZArith List Bool Reals Lia Lra Psatz.
From Flocq Require Import Core BinarySingleNaN.
From Verif Require Import CppBase CppFacts Dbl DblFacts NumOps NumFacts LTC_Proofs Utils_Proofs MCNN_Proofs MCNN_Num
  Hoeffding_Model Hoeffding_Spec Hoeffding_Proofs.
Import ListNotations.
Local Open Scope Z_scope.

Lemma total_add : forall g h n, total (fun k => g k + h k) n = total g n + total h n.
Proof. induction n as [|n IH]; cbn [total]; [reflexivity|]. rewrite IH. ring. Qed.
Lemma total_single : forall n i v, total (fun k => if Nat.eqb i k then v else 0) n = if Nat.ltb i n then v else 0.
Proof.
  induction n as [|n IH]; intros i v; cbn [total]; [reflexivity|]. rewrite IH.
  destruct (Nat.eqb_spec i n), (Nat.ltb_spec i n), (Nat.ltb_spec i (S n)); lia.
Qed.
Lemma size_of_cons : forall A (a : A) l, size_of (a :: l) = 1 + size_of l.
Proof. intros. unfold size_of. cbn [length]. lia. Qed.
Lemma size_of_nonneg : forall A (l : list A), 0 <= size_of l.
Proof. intros. unfold size_of. lia. Qed.
Lemma size_filter_cons : forall A (g : A -> bool) a l, size_of (filter g (a :: l)) = (if g a then 1 else 0) + size_of (filter g l).
Proof. intros. cbn [filter]. destruct (g a); [apply size_of_cons|reflexivity]. Qed.
Lemma size_filter_le : forall A (g : A -> bool) l, size_of (filter g l) <= size_of l.
Proof. induction l as [|a l IH]; [cbn; lia|]. rewrite size_filter_cons, size_of_cons. destruct (g a); lia. Qed.
Lemma filter_all : forall A (g : A -> bool) l, (forall a, In a l -> g a = true) -> filter g l = l.
Proof. induction l as [|a l IH]; intros H; [reflexivity|]. cbn [filter]. rewrite H by (left; reflexivity). f_equal. apply IH. intros; apply H; now right. Qed.
Lemma filter_none : forall A (g : A -> bool) l, (forall a, In a l -> g a = false) -> filter g l = [].
Proof. induction l as [|a l IH]; intros H; [reflexivity|]. cbn [filter]. rewrite H by (left; reflexivity). apply IH. intros; apply H; now right. Qed.
Lemma filter_comm : forall A (g h : A -> bool) l, filter g (filter h l) = filter h (filter g l).
Proof. induction l as [|a l IH]; [reflexivity|]. cbn [filter]. destruct (h a) eqn:Eh, (g a) eqn:Eg; cbn [filter]; rewrite ?Eh, ?Eg, IH; reflexivity. Qed.

(** Shares of the same whole compare as the counts. *)
Definition shares (O : ops) (N : Z) : Prop := forall a b n, 0 <= a <= n -> 0 <= b <= n -> 0 < n <= N ->
  nlt O (ndiv O (nofZ O a) (nofZ O n)) (ndiv O (nofZ O b) (nofZ O n)) = (a <? b).
Lemma shares_rops : forall N, shares rops N.
Proof.
  intros N a b n Ha Hb Hn. cbn [nlt ndiv nofZ rops]. assert (0 < IZR n)%R by (apply IZR_lt; lia).
  destruct (Z.ltb_spec a b) as [L|L].
  - apply Rlt_bool_true. apply Rmult_lt_compat_r; [now apply Rinv_0_lt_compat|now apply IZR_lt].
  - apply Rlt_bool_false. apply Rmult_le_compat_r; [apply Rlt_le; now apply Rinv_0_lt_compat|now apply IZR_le].
Qed.
Lemma share_close : forall a n, 0 <= a <= n -> 0 < n <= 2 ^ 31 -> (Rabs (rnd64 (IZR a / IZR n) - IZR a / IZR n) <= bpow radix2 (-53))%R.
Proof.
  intros a n Ha Hn. assert (N0 : (0 < IZR n)%R) by (apply IZR_lt; lia). assert (N1 : (IZR n <= IZR (2 ^ 31))%R) by (apply IZR_le; lia).
  assert (U : (0 <= IZR a / IZR n <= 1)%R).
  { split; [apply Rmult_le_pos; [apply IZR_le; lia|apply Rlt_le; now apply Rinv_0_lt_compat]|].
    apply Rmult_le_reg_r with (IZR n); [exact N0|]. unfold Rdiv. rewrite Rmult_assoc, Rinv_l, Rmult_1_r, Rmult_1_l by lra. apply IZR_le. lia. }
  apply Rle_trans with (bpow radix2 (-53) * Rabs (IZR a / IZR n))%R.
  - apply rnd_rel. destruct (Z.eq_dec a 0) as [->|Na]; [left; unfold Rdiv; apply Rmult_0_l|right].
    rewrite Rabs_pos_eq by apply U. apply Rle_trans with (bpow radix2 (-31)); [apply bpow_le; lia|].
    change (bpow radix2 (-31)) with (/ IZR (2 ^ 31))%R. apply Rle_trans with (/ IZR n)%R; [now apply Rinv_le|].
    unfold Rdiv. rewrite <- (Rmult_1_l (/ IZR n)) at 1. apply Rmult_le_compat_r; [apply Rlt_le; now apply Rinv_0_lt_compat|]. apply IZR_le. lia.
  - rewrite Rabs_pos_eq by apply U. rewrite <- (Rmult_1_r (bpow radix2 (-53))) at 2. apply Rmult_le_compat_l; [apply bpow_ge_0|]. apply U.
Qed.
Lemma shares_dops : shares dops (2 ^ 31).
Proof.
  intros a b n Ha Hb Hn. cbn [nlt ndiv nofZ dops].
  destruct (ddivZ a n) as [Ra Fa]; [lia|lia|lia|]. destruct (ddivZ b n) as [Rb Fb]; [lia|lia|lia|].
  pose proof (dlt_true _ _ Fa Fb) as D. rewrite Ra, Rb in D.
  assert (N0 : (0 < IZR n)%R) by (apply IZR_lt; lia). assert (N1 : (IZR n <= IZR (2 ^ 31))%R) by (apply IZR_le; lia).
  assert (M : forall a b, a <= b -> (IZR a / IZR n <= IZR b / IZR n)%R).
  { intros u v H. apply Rmult_le_compat_r; [apply Rlt_le; now apply Rinv_0_lt_compat|now apply IZR_le]. }
  destruct (Z.ltb_spec a b) as [L|L].
  - apply D. pose proof (share_close a n Ha Hn) as Ca. pose proof (share_close b n Hb Hn) as Cb.
    assert (G : (IZR a / IZR n + bpow radix2 (-31) <= IZR b / IZR n)%R).
    { apply Rle_trans with (IZR (a + 1) / IZR n)%R; [|apply M; lia]. rewrite plus_IZR. unfold Rdiv. rewrite Rmult_plus_distr_r, Rmult_1_l.
      apply Rplus_le_compat_l. change (bpow radix2 (-31)) with (/ IZR (2 ^ 31))%R. now apply Rinv_le. }
    assert (P : (bpow radix2 (-53) < / 4 * bpow radix2 (-31))%R).
    { change (/ 4)%R with (bpow radix2 (-2)). rewrite <- bpow_plus. apply bpow_lt. lia. }
    pose proof (bpow_gt_0 radix2 (-31)). apply Rabs_le_inv in Ca. apply Rabs_le_inv in Cb. lra.
  - destruct (dlt _ _); [|reflexivity]. exfalso. assert (rnd64 (IZR b / IZR n) <= rnd64 (IZR a / IZR n))%R by (apply rnd_le, M; lia).
    pose proof (proj1 D eq_refl). lra.
Qed.

Section Counts.
  Variable O : ops.
  Variable log_ log2_ : num O -> num O.
  Variable infinity : num O.
  Variable sz : list nat.
  Variable lc : nat.
  Variable max_size node_size : Z.
  Local Notation n_ := (nofZ O).
  Local Notation zero := (nofZ O 0).
  Local Notation fcn := (length sz).
  Local Notation lz := (Z.of_nat lc).
  Local Notation size := (size sz).
  Local Notation start := (start sz).
  Local Notation point := (point O).
  Local Notation bins := (start fcn).
  Local Notation cands := (cut sz fcn).
  Hypothesis Hf : (1 <= fcn)%nat.
  Hypothesis Hl : (1 <= lc)%nat.
  Hypothesis Pos : forall f, (f < fcn)%nat -> (1 <= size f)%nat.
  Variable B : Z.
  Hypothesis Ex : exactZ O B.
  Local Notation holds := (holds O sz lc).
  Local Notation cell := (cell).

  Lemma nsumf_exact : forall (g : nat -> Z) n, (forall k, (k < n)%nat -> 0 <= g k) -> total g n <= B -> nsumf O (fun k => n_ (g k)) n = n_ (total g n).
  Proof.
    clear - Ex. intros g. induction n as [|n IH]; intros P H; [reflexivity|]. rewrite nsumf_S. cbn [total] in *.
    pose proof (total_nonneg g n ltac:(auto)). pose proof (P n ltac:(lia)). rewrite IH by (auto; lia). apply Ex; lia.
  Qed.
  Lemma nsumf_ext : forall (g h : nat -> num O) n, (forall k, (k < n)%nat -> g k = h k) -> nsumf O g n = nsumf O h n.
  Proof. clear. intros g h. induction n as [|n IH]; intros H; [reflexivity|]. rewrite !nsumf_S, IH, H by auto. reflexivity. Qed.
  Lemma total_binned : forall f (g : list point) n,
    total (fun b => size_of (binned O sz g f b)) n = size_of (filter (fun p => Nat.ltb (bin_of O sz f p) n) g).
  Proof.
    clear. intros f g n. induction g as [|p g IH].
    - unfold binned. cbn [filter]. rewrite (total_ext _ (fun _ => 0)) by reflexivity. apply total_zero.
    - rewrite size_filter_cons, <- IH. unfold binned. rewrite (total_ext _ (fun b => (if Nat.eqb (bin_of O sz f p) b then 1 else 0) + size_of (filter (fun p => Nat.eqb (bin_of O sz f p) b) g)))
        by (intros; apply size_filter_cons). now rewrite total_add, total_single.
  Qed.
  Lemma total_labelled : forall (h : list point), (forall p, In p h -> 0 <= label O p < lz) -> total (fun l => size_of (labelled O h (Z.of_nat l))) lc = size_of h.
  Proof.
    clear. induction h as [|p h IH]; intros P.
    - cbn. apply total_zero.
    - unfold labelled. rewrite (total_ext _ (fun l => (if Nat.eqb (Z.to_nat (label O p)) l then 1 else 0) + size_of (labelled O h (Z.of_nat l)))).
      + rewrite total_add, total_single, IH, size_of_cons by (intros; apply P; now right). pose proof (P p (or_introl eq_refl)).
        destruct (Nat.ltb_spec (Z.to_nat (label O p)) lc); lia.
      + intros k Hk. rewrite size_filter_cons. fold (labelled O h (Z.of_nat k)). pose proof (P p (or_introl eq_refl)).
        destruct (Z.eqb_spec (label O p) (Z.of_nat k)), (Nat.eqb_spec (Z.to_nat (label O p)) k); lia.
  Qed.
  Lemma side_holds : forall b h f n l, holds b h -> (l < lc)%nat -> (f < fcn)%nat -> (n <= size f)%nat ->
    side sz (counters O b) f n l = size_of (filter (fun p => Nat.ltb (bin_of O sz f p) n) (labelled O h (Z.of_nat l))).
  Proof.
    clear. intros b h f n l [_ [_ [_ H]]] Hl Hf Hn. unfold side. rewrite <- total_binned. apply total_ext. intros k Hk. apply H; auto; lia.
  Qed.
  Lemma bins_full : forall b h f, holds b h -> (f < fcn)%nat -> forall p, In p h -> Nat.ltb (bin_of O sz f p) (size f) = true.
  Proof. clear - Pos. intros b h f [_ [_ [Hp _]]] Hf p Hi. apply Nat.ltb_lt. apply (bin_range O sz Pos); [now apply Hp|exact Hf]. Qed.
  Lemma side_all : forall b h f l, holds b h -> (l < lc)%nat -> (f < fcn)%nat -> side sz (counters O b) f (size f) l = size_of (labelled O h (Z.of_nat l)).
  Proof.
    clear - Pos. intros b h f l Hb Hl Hf. rewrite (side_holds b h) by auto. rewrite filter_all; [reflexivity|].
    intros p Hi. apply filter_In in Hi. apply (bins_full b h f Hb Hf). apply Hi.
  Qed.
  Lemma first_counts_exact : forall b h l, holds b h -> (l < lc)%nat -> size_of h <= B ->
    first_counts O sz (counters O b) l = n_ (size_of (labelled O h (Z.of_nat l))).
  Proof.
    clear - Hf Pos Ex. intros b h l Hb Hl Hn. rewrite <- (side_all b h 0 l Hb Hl Hf). unfold first_counts, side. cbn [Hoeffding_Spec.start Nat.add].
    rewrite nsumf_exact; [reflexivity| |].
    - intros k Hk. apply (holds_cells O sz lc b h Hb); [exact Hl|]. pose proof (start_range sz 0 k fcn Hf Hk). cbn in *. lia.
    - pose proof (side_all b h 0 l Hb Hl Hf) as S. unfold side in S. cbn [Hoeffding_Spec.start Nat.add] in S.
      apply Z.le_trans with (size_of h); [|exact Hn]. eapply Z.le_trans; [apply Z.eq_le_incl; exact S|apply size_filter_le].
  Qed.
  Lemma label_total : forall b h, holds b h -> size_of h <= B -> nsumf O (first_counts O sz (counters O b)) lc = n_ (size_of h).
  Proof.
    clear - Hf Pos Ex. intros b h Hb Hn. rewrite (nsumf_ext _ (fun l => n_ (size_of (labelled O h (Z.of_nat l))))) by (intros; now apply (first_counts_exact b h)).
    assert (T : total (fun l => size_of (labelled O h (Z.of_nat l))) lc = size_of h) by (apply total_labelled; intros; now apply Hb).
    rewrite nsumf_exact; [now rewrite T| |lia]. intros; apply size_of_nonneg.
  Qed.
  Lemma scores_exact : forall b h, holds b h -> size_of h <= B ->
    scores O sz lc (counters O b) = map (fun l => ndiv O (n_ (size_of (labelled O h (Z.of_nat l)))) (n_ (size_of h))) (seq 0 lc).
  Proof.
    clear - Hf Pos Ex. intros b h Hb Hn. unfold scores, label_counts. rewrite map_map, (label_total b h Hb Hn). apply map_seq_ext.
    intros k Hk. now rewrite (first_counts_exact b h).
  Qed.
  Lemma arg_max_first : forall (c : nat -> Z) (p : list (num O)) n, (forall i j, (i <= n)%nat -> (j <= n)%nat -> nlt O (nth i p zero) (nth j p zero) = (c i <? c j)) ->
    forall k, (k <= n)%nat -> (forall j, (j <= k)%nat -> c j <= c (arg_max O p k)) /\ (forall j, (j < arg_max O p k)%nat -> c j < c (arg_max O p k)).
  Proof.
    clear. intros c p n H. induction k as [|k IH]; intros Hk; cbn [arg_max].
    - split; intros j Hj; [|lia]. replace j with 0%nat by lia. lia.
    - destruct (IH ltac:(lia)) as [A C]. pose proof (arg_max_le O p k) as L. rewrite H by lia. destruct (Z.ltb_spec (c (arg_max O p k)) (c (S k))) as [G|G].
      + split; intros j Hj.
        * destruct (Nat.eq_dec j (S k)) as [->|]; [lia|]. specialize (A j ltac:(lia)). lia.
        * specialize (A j ltac:(lia)). lia.
      + split; intros j Hj; [|now apply C]. destruct (Nat.eq_dec j (S k)) as [->|]; [exact G|]. apply A. lia.
  Qed.
End Counts.
