(** * A tree of doubles splits at most once *)
From Coq Require Import ZArith List Bool Reals Lia Lra.
From Flocq Require Import Core BinarySingleNaN.
From Verif Require Import CppBase CppFacts Dbl DblFacts NumOps NumFacts LTC_Proofs Utils_Proofs MCNN_Proofs MCNN_Num
  Hoeffding_Model Hoeffding_Spec Hoeffding_Proofs Hoeffding_Num.
Import ListNotations.
Local Open Scope Z_scope.

(** Zero or not a number. *)
Definition null (x : dbl) : Prop := x = dnan \/ (is_finite x = true /\ B2R x = 0%R).
Lemma null_cases : forall x : dbl, null x <-> x = dnan \/ exists s, x = B754_zero s.
Proof.
  intros x. split.
  - intros [H|[F R]]; [now left|]. destruct x as [s|s| |s m e H]; try discriminate; [right; eauto|]. exfalso.
    unfold B2R in R. destruct s; cbn [cond_Zopp] in R.
    + assert (F2R (Float radix2 (Z.neg m) e) < 0)%R by (now apply F2R_lt_0). cbn in R. unfold cond_Zopp in R. cbn in H0. lra.
    + assert (0 < F2R (Float radix2 (Z.pos m) e))%R by (now apply F2R_gt_0). lra.
  - intros [H|[s ->]]; [now left|]. right. split; reflexivity.
Qed.
Lemma null_nan : null dnan. Proof. now left. Qed.
Lemma null_zero : forall s, null (B754_zero s). Proof. intros. right. split; reflexivity. Qed.
Lemma null_add : forall x y, null x -> null y -> null (dadd x y).
Proof.
  intros x y Hx Hy. apply null_cases in Hx. apply null_cases in Hy. apply null_cases.
  destruct Hx as [->|[s ->]], Hy as [->|[s' ->]]; try (now left). right. destruct s, s'; eexists; reflexivity.
Qed.
Lemma dofZ_pos : forall n, 0 < n <= 2 ^ 53 -> exists m e H, dofZ n = B754_finite false m e H.
Proof.
  intros n Hn. destruct (dofZ_exact n ltac:(lia)) as [R F]. pose proof (dofZ_sign n ltac:(lia)) as S. 
  destruct (dofZ n) as [s|s| |s m e H]; try discriminate.
  - cbn in R. assert (IZR n = 0)%R by lra. apply eq_IZR in H. lia.
  - cbn in S. destruct (Z.ltb_spec n 0); [lia|]. subst s. eauto.
Qed.
Lemma null_div : forall x n, null x -> 0 < n <= 2 ^ 53 -> null (ddiv x (dofZ n)).
Proof.
  intros x n Hx Hn. apply null_cases in Hx. apply null_cases. destruct (dofZ_pos n Hn) as [m [e [H ->]]].
  destruct Hx as [->|[s ->]]; [now left|]. right. eexists. reflexivity.
Qed.
Lemma null_not_pos : forall x, null x -> dlt (dofZ 0) x = false.
Proof. intros x Hx. apply null_cases in Hx. destruct Hx as [->|[s ->]]; [reflexivity|]. destruct s; reflexivity. Qed.

Lemma null_sub : forall x y : dbl, is_finite x = true -> is_finite y = true -> B2R x = B2R y -> null (dsub x y).
Proof.
  intros x y Fx Fy E. right. destruct (dsub_R x y Fx Fy) as [R F].
  - rewrite E, Rminus_diag_eq, Rabs_R0 by reflexivity. apply bpow_ge_0.
  - split; [exact F|]. rewrite R, E, Rminus_diag_eq by reflexivity. apply rnd_0.
Qed.
Lemma rnd_B2R : forall x : dbl, rnd64 (B2R x) = B2R x.
Proof. intros x. apply rnd_id. apply (generic_format_B2R 53 1024). Qed.
Lemma big_B2R : forall x : dbl, (Rabs (B2R x) < bpow radix2 1024)%R.
Proof. intros x. apply (abs_B2R_lt_emax 53 1024). Qed.
(** Products with one and minus one, and a sum with minus zero, are exact. *)
Lemma mul_exact : forall x y : dbl, is_finite x = true -> is_finite y = true -> (Rabs (B2R x * B2R y) < bpow radix2 1024)%R ->
  rnd64 (B2R x * B2R y) = (B2R x * B2R y)%R -> is_finite (dmul x y) = true /\ B2R (dmul x y) = (B2R x * B2R y)%R.
Proof.
  intros x y Fx Fy H E. pose proof (Bmult_correct 53 1024 Hprec64 Hmax64 mode_NE x y) as C.
  change (round radix2 (SpecFloat.fexp 53 1024) (round_mode mode_NE) (B2R x * B2R y)) with (rnd64 (B2R x * B2R y)) in C. rewrite E in C.
  rewrite Rlt_bool_true in C by exact H. destruct C as [C1 [C2 _]]. split; [|exact C1]. unfold dmul. rewrite C2, Fx, Fy. reflexivity.
Qed.
Lemma add_zero : forall x : dbl, is_finite x = true -> is_finite (dadd (B754_zero true) x) = true /\ B2R (dadd (B754_zero true) x) = B2R x.
Proof.
  intros x F. destruct x as [s|s| |s m e H]; try discriminate; [destruct s|]; split; reflexivity.
Qed.
Lemma entropy_cancels : forall s : dbl, null (dsub (dmul s (dofZ (-1))) (dadd (B754_zero true) (dmul (dmul (dofZ (-1)) s) (dofZ 1)))).
Proof.
  intros s. destruct (is_finite s) eqn:F.
  - destruct (dofZ_exact (-1)) as [R1 F1]; [vm_compute; discriminate|]. destruct (dofZ_exact 1) as [R2 F2]; [vm_compute; discriminate|].
    pose proof (big_B2R s) as Bs. pose proof (rnd_B2R s) as Rs.
    assert (N : forall r, rnd64 (- r) = (- rnd64 r)%R) by (intros; apply round_NE_opp).
    destruct (mul_exact s (dofZ (-1)) F F1) as [Fa Ra]; rewrite ?R1.
    { replace (B2R s * -1)%R with (- B2R s)%R by ring. now rewrite Rabs_Ropp. }
    { replace (B2R s * -1)%R with (- B2R s)%R by ring. now rewrite N, Rs. }
    destruct (mul_exact (dofZ (-1)) s F1 F) as [Fb Rb]; rewrite ?R1.
    { replace (-1 * B2R s)%R with (- B2R s)%R by ring. now rewrite Rabs_Ropp. }
    { replace (-1 * B2R s)%R with (- B2R s)%R by ring. now rewrite N, Rs. }
    destruct (mul_exact (dmul (dofZ (-1)) s) (dofZ 1) Fb F2) as [Fc Rc]; rewrite ?R2, ?Rmult_1_r.
    { apply big_B2R. }
    { apply rnd_B2R. }
    destruct (add_zero _ Fc) as [Fd Rd]. apply null_sub; [exact Fa|exact Fd|]. rewrite Rd, Rc, Ra, Rb, R1, R2. ring.
  - destruct s as [s|s| |s m e H]; try discriminate; [destruct s|]; now left.
Qed.
Lemma div_self : forall n, 0 < n <= 2 ^ 53 -> ddiv (dofZ n) (dofZ n) = dofZ 1.
Proof.
  intros n Hn. destruct (ddivZ n n) as [R F]; [lia|lia|lia|]. assert (N0 : (0 < IZR n)%R) by (apply IZR_lt; lia).
  replace (IZR n / IZR n)%R with (IZR 1) in R by (field; lra). rewrite rnd_Z in R by (vm_compute; discriminate).
  apply dofZ_unique; [vm_compute; discriminate|exact F|exact R|].
  destruct (ddiv (dofZ n) (dofZ n)) as [s|s| |s m e H]; try discriminate; cbn [B2R] in R; [lra|]. destruct s; [|reflexivity]. exfalso.
  assert (F2R (Float radix2 (Z.neg m) e) < 0)%R by (now apply F2R_lt_0). cbn [cond_Zopp Z.opp] in R. lra.
Qed.
Lemma nan_limits : forall ls x, Forall (fun y => y = dnan) ls -> bin dops ls x = length ls.
Proof.
  induction ls as [|y ls IH]; intros x H; [reflexivity|]. inversion H as [|? ? Hy Hr]; subst. cbn [bin length].
  assert (E : nlt dops x dnan = false) by (cbn [nlt dops]; destruct x; reflexivity). rewrite E. f_equal. now apply IH.
Qed.
Lemma Forall_firstn_ : forall A (P : A -> Prop) n l, Forall P l -> Forall P (firstn n l).
Proof. intros A P n l H. apply Forall_forall. intros a Ha. rewrite Forall_forall in H. apply H. rewrite <- (firstn_skipn n l). apply in_or_app. now left. Qed.
Lemma Forall_skipn_ : forall A (P : A -> Prop) n l, Forall P l -> Forall P (skipn n l).
Proof. intros A P n l H. apply Forall_forall. intros a Ha. rewrite Forall_forall in H. apply H. rewrite <- (firstn_skipn n l). apply in_or_app. now right. Qed.

Section Once.
  Variable log_ log2_ : dbl -> dbl.
  Variable sz : list nat.
  Variable lc : nat.
  Variable max_size node_size : Z.
  Local Notation fcn := (length sz).
  Local Notation lz := (Z.of_nat lc).
  Local Notation size := (size sz).
  Local Notation start := (start sz).
  Local Notation point := (point dops).
  Local Notation cands := (cut sz fcn).
  Local Notation block := (block dops).
  Local Notation tree := (tree dops).
  Hypothesis Hf : (1 <= fcn)%nat.
  Hypothesis Hl : (1 <= lc)%nat.
  Hypothesis Pos : forall f, (f < fcn)%nat -> (1 <= size f)%nat.
  Hypothesis Two : (2 <= cands)%nat.
  Hypothesis Hns : 0 < node_size.
  Hypothesis Hms : max_size < 2 ^ 31.
  Local Notation holds := (holds dops sz lc).
  Local Notation gain := (gain dops log2_ sz lc).
  Definition blind (ls : list dbl) : Prop := Forall (fun y => y = dnan) ls.

  Lemma last_bin : forall b (h : list point) f p, holds b h -> (forall p, In p h -> blind (at_limits dops p)) -> (f < fcn)%nat -> In p h -> bin_of dops sz f p = (size f - 1)%nat.
  Proof.
    clear. intros b h f p [_ [_ [Hp _]]] Bl Hff Hi. unfold bin_of. rewrite nan_limits; [exact (feature_limits_length dops sz (at_limits dops p) f (proj2 (Hp p Hi)) Hff)|].
    unfold feature_limits. apply Forall_firstn_, Forall_skipn_. now apply Bl.
  Qed.
  Lemma entropy_ext : forall (g g' : nat -> dbl) s s' n, (forall k, (k < n)%nat -> g k = g' k) -> s = s' -> entropy_sum dops log2_ g s n = entropy_sum dops log2_ g' s' n.
  Proof. clear. intros g g' s s' n H ->. induction n as [|n IH]; [reflexivity|]. rewrite !entropy_S, IH by auto. unfold entropy_term. now rewrite H by lia. Qed.
  Lemma entropy_empty : forall g n, (forall k, (k < n)%nat -> g k = dofZ 0) -> entropy_sum dops log2_ g (dofZ 0) n = dofZ 0.
  Proof.
    clear. intros g. induction n as [|n IH]; intros H; [reflexivity|]. rewrite entropy_S, IH by auto. unfold entropy_term. rewrite H by lia.
    cbn [ndiv nlt dops nofZ]. replace (dlt (dofZ 0) (ddiv (dofZ 0) (dofZ 0))) with false by (vm_compute; reflexivity). reflexivity.
  Qed.

  Lemma settled_gain : forall b (h : list point) f v, holds b h -> 1 <= size_of h <= 2 ^ 31 -> (forall p, In p h -> blind (at_limits dops p)) ->
    (f < fcn)%nat -> (v < size f - 1)%nat -> null (gain (dofZ (size_of h)) (counters dops b) (f, v)).
  Proof.
    intros b h f v Hb Hn Bl Hff Hv. assert (Ex : exactZ dops (2 ^ 31)) by (apply exactZ_le with (2 ^ 53); [lia|apply dops_exact]).
    unfold Hoeffding_Proofs.gain. cbn [fst snd].
    assert (Lo : forall l, (l < lc)%nat -> low sz (counters dops b) f v l = 0).
    { intros l Hll. unfold low. rewrite (side_holds dops sz lc b h) by (auto; lia). rewrite filter_none; [reflexivity|].
      intros p Hi. apply filter_In in Hi. rewrite (last_bin b h f p Hb Bl Hff) by apply Hi. apply Nat.ltb_ge. lia. }
    assert (Hi : forall l, (l < lc)%nat -> high sz (counters dops b) f v l = size_of (labelled dops h (Z.of_nat l))).
    { intros l Hll. pose proof (Lo l Hll) as L. unfold high, low in *. rewrite L, (side_all dops sz lc Pos b h f l Hb Hll Hff). lia. }
    set (S := entropy_sum dops log2_ (first_counts dops sz (counters dops b)) (dofZ (size_of h)) lc).
    unfold weigh.
    assert (S0 : nsumf dops (fun l => nofZ dops (low sz (counters dops b) f v l)) lc = dofZ 0).
    { rewrite (nsumf_ext dops _ (fun _ => nofZ dops 0)) by (intros; now rewrite Lo). rewrite (nsumf_exact dops (2 ^ 31) Ex (fun _ => 0)); [now rewrite total_zero|lia|rewrite total_zero; lia]. }
    assert (S1 : nsumf dops (fun l => nofZ dops (high sz (counters dops b) f v l)) lc = dofZ (size_of h)).
    { rewrite (nsumf_ext dops _ (fun l => nofZ dops (size_of (labelled dops h (Z.of_nat l))))) by (intros; now rewrite Hi).
      assert (T : total (fun l => size_of (labelled dops h (Z.of_nat l))) lc = size_of h) by (apply total_labelled; intros; now apply Hb).
      rewrite (nsumf_exact dops (2 ^ 31) Ex); [now rewrite T| |lia]. intros; apply size_of_nonneg. }
    rewrite S0, S1. rewrite entropy_empty by (intros; cbn [nofZ dops]; now rewrite Lo).
    rewrite (entropy_ext _ (first_counts dops sz (counters dops b)) _ (dofZ (size_of h)) lc); [|intros k Hk|reflexivity].
    2:{ rewrite Hi by exact Hk. symmetry. apply (first_counts_exact dops sz lc Hf Pos (2 ^ 31) Ex b h k Hb Hk). lia. }
    fold S. cbn [nadd nsub nmul ndiv nofZ dops].
    assert (A : dadd (dofZ 0) (dofZ (size_of h)) = dofZ (size_of h)).
    { destruct Ex as [Ex _]. specialize (Ex 0 (size_of h)). cbn [nadd nofZ dops] in Ex. rewrite Ex by lia. f_equal. }
    rewrite A. rewrite div_self by lia. unfold fix_nan, isnan. cbn [neq dops].
    replace (deq (dofZ 1) (dofZ 1)) with true by (vm_compute; reflexivity). cbn [negb].
    assert (D0 : ddiv (dofZ 0) (dofZ (size_of h)) = B754_zero false) by (destruct (dofZ_pos (size_of h) ltac:(lia)) as [m [e [H ->]]]; reflexivity).
    rewrite D0. change (deq (B754_zero false) (B754_zero false)) with true. cbn [negb].
    change (dmul (dmul (dofZ (-1)) (dofZ 0)) (B754_zero false)) with (B754_zero true : dbl). apply entropy_cancels.
  Qed.
  Local Notation remembers := (remembers dops sz lc max_size node_size).
  Local Notation reached := (reached dops sz log_ log2_ dinf lz max_size node_size).
  Local Notation train := (train dops log_ log2_ dinf (Z.of_nat fcn) lz max_size node_size).

  Definition boundless (n : node dops) : Prop := l_box dops n = repeat dninf fcn /\ u_box dops n = repeat dinf fcn.
  Definition unsplit (t : tree) : Prop := exists n, nodes dops t = [n] /\ boundless n /\ split_feature dops n = -1.
  Definition settled (t : tree) (h : list point) : Prop :=
    length (nodes dops t) = 3%nat /\
    (exists n, nth_error (nodes dops t) 0 = Some n /\ boundless n /\ is_leaf dops n = false) /\
    exists b rest, blocks dops t = b :: rest /\ blind (limits dops b) /\ Forall null (info_sum dops b) /\ forall p, In p h -> blind (at_limits dops p).
  Definition once (dl : dbl) (t : tree) (h : list point) : Prop := remembers dl t h /\ (unsplit t \/ settled t h).

  Lemma nth_repeat_lt : forall A (a d : A) n k, (k < n)%nat -> nth k (repeat a n) d = a.
  Proof. clear. intros A a d n k H. apply nth_error_nth. revert k H. induction n as [|n IH]; intros [|k] H; cbn; auto; try lia. apply IH. lia. Qed.
  Lemma map_seq_const : forall A (a : A) n, map (fun _ => a) (seq 0 n) = repeat a n.
  Proof. clear. intros A a n. generalize 0%nat. induction n as [|n IH]; intros s; cbn; [reflexivity|]. f_equal. apply IH. Qed.
  Lemma boundless_grown : forall n x, boundless n -> boundless (grown dops sz n x).
  Proof.
    clear. intros n x [A B]. split; cbn [l_box u_box grown]; unfold grown_low, grown_high.
    - rewrite A. rewrite <- map_seq_const. apply map_seq_ext. intros k Hk. rewrite map_seq_const. rewrite nth_repeat_lt by exact Hk.
      cbn [nlt dops]. replace (dlt (nth k x (nofZ dops 0)) dninf) with false by (destruct (nth k x (nofZ dops 0)) as [[]|[]| |[] ? ? ?]; reflexivity). reflexivity.
    - rewrite B. rewrite <- map_seq_const. apply map_seq_ext. intros k Hk. rewrite map_seq_const. rewrite nth_repeat_lt by exact Hk.
      cbn [nlt dops]. replace (dlt dinf (nth k x (nofZ dops 0))) with false by (destruct (nth k x (nofZ dops 0)) as [[]|[]| |[] ? ? ?]; reflexivity). reflexivity.
  Qed.
  Lemma size_small : forall f, (f < fcn)%nat -> room sz lc max_size node_size 1 = true -> Z.of_nat (size f) <= 2 ^ 53.
  Proof.
    intros f H R. unfold room in R. apply Z.leb_le in R. pose proof (start_range sz f (size f - 1) fcn H ltac:(pose proof (Pos f H); lia)) as S.
    unfold total_size_counters in R. pose proof (bins_cands sz lc Hf Hl Pos Two) as BC. rewrite BC in R. pose proof (Pos f H). clear - R S Hl Hns Hms H0.
    assert (Z.of_nat (start fcn) * 4 * 1 <= Z.of_nat (start fcn) * 4 * lz) by (apply Z.mul_le_mono_nonneg_l; lia). change (2 ^ 53) with 9007199254740992. change (2 ^ 31) with 2147483648 in Hms. lia.
  Qed.
  Lemma nan_limit : forall l u f v, (f < fcn)%nat -> (v < size f - 1)%nat -> room sz lc max_size node_size 1 = true -> nth f l (dofZ 0) = dninf ->
    box_limit dops sz l u (f, v) = dnan.
  Proof.
    intros l u f v Hff Hv R E. pose proof (size_small f Hff R) as Sm. unfold box_limit. cbn [fst snd nadd nsub nmul ndiv nofZ dops num]. rewrite E.
    destruct (dofZ_pos (Z.of_nat (size f)) ltac:(lia)) as [m [e [H ->]]]. destruct (dofZ_pos (1 + Z.of_nat v) ltac:(lia)) as [m' [e' [H' ->]]].
    match goal with |- context [dsub ?y dninf] => destruct y as [[]|[]| |[] ? ? ?] end; reflexivity.
  Qed.
  Lemma blind_split : forall n f v, boundless n -> room sz lc max_size node_size 1 = true -> blind (limits dops (split_block dops sz lc n f v)).
  Proof.
    intros n f v [A B] R. unfold split_block. cbn [limits]. unfold box_limits. apply Forall_forall. intros y Hy. apply in_map_iff in Hy. destruct Hy as [k [<- Hk]].
    apply in_seq in Hk. pose proof (candidate_spec sz k ltac:(lia)) as C. destruct (candidate sz k) as [g w]. destruct C as [C1 [C2 _]].
    apply nan_limit; auto. rewrite A. now apply nth_repeat_lt.
  Qed.
  Lemma room_one : forall t, wf dops sz lc max_size node_size t -> room sz lc max_size node_size 1 = true.
  Proof. clear - Hns. intros t [_ [_ [A [B _]]]]. apply (room_le sz lc max_size node_size Hns 1 (length (nodes dops t)) A). now apply room_spec. Qed.

  (** In a settled tree no candidate is ever good enough. *)
  Lemma settled_sums : forall b (h : list point) x l cs, holds b h -> 0 <= size_of h < 2147483647 -> blind (limits dops b) -> Forall null (info_sum dops b) ->
    (forall p, In p h -> blind (at_limits dops p)) -> (l < lc)%nat -> added dops sz lc b x l cs ->
    forall k, (k < cands)%nat -> null (sums' dops log2_ sz lc b cs k).
  Proof.
    intros b h x l cs Hb Hn Bl Ns Bp Hll Ad k Hk. unfold sums'. cbn [nadd dops]. apply null_add.
    - destruct Hb as [[_ [L _]] _]. rewrite Forall_forall in Ns. apply Ns. apply nth_In. now rewrite L.
    - pose proof (holds_added dops log2_ sz lc b h x l cs Hb Hll Ad) as H'. pose proof (proj1 (proj2 Hb)) as C.
      unfold gains. pose proof (candidate_spec sz k Hk) as S. destruct (candidate sz k) as [f v]. destruct S as [S1 [S2 _]].
      pose proof (settled_gain _ _ f v H') as G. replace (count dops b + 1) with (size_of (h ++ [mkPoint dops x (Z.of_nat l) (limits dops b)]))
        by (unfold size_of in *; rewrite app_length; cbn; lia).
      cbn [counters next_block] in G. apply G; auto.
      + unfold size_of in *. rewrite app_length. cbn. lia.
      + intros p Hi. apply in_app_or in Hi. destruct Hi as [Hi|[<-|[]]]; auto.
  Qed.
  Lemma settled_waits : forall dl b (h : list point) x l cs, holds b h -> 0 <= size_of h < 2147483647 -> blind (limits dops b) -> Forall null (info_sum dops b) ->
    (forall p, In p h -> blind (at_limits dops p)) -> (l < lc)%nat -> added dops sz lc b x l cs -> decision dops log_ log2_ sz lc dl b cs = None.
  Proof.
    intros dl b h x l cs Hb Hn Bl Ns Bp Hll Ad. unfold decision, splits.
    assert (Nm : forall k, (k < cands)%nat -> nlt dops (nofZ dops 0) (mean dops log2_ sz lc b cs k) = false).
    { intros k Hk. cbn [nlt nofZ dops]. apply null_not_pos. unfold mean. cbn [ndiv nofZ dops]. pose proof (proj1 (proj2 Hb)) as C.
      apply null_div; [now apply (settled_sums b h x l cs)|]. rewrite C. lia. }
    rewrite Nm by (apply winners_range; exact Two). now rewrite andb_false_r.
  Qed.

  Lemma once_new : forall dl t, tree_init dops dinf (Z.of_nat fcn) lz max_size node_size dl (map Z.of_nat sz) = Ok t -> once dl t [].
  Proof.
    intros dl t E. split; [now apply (init_remembers dops dinf sz lc max_size node_size Hf Hl Pos Two Hns)|]. left. rewrite (init_ok dops dinf sz lc max_size node_size Hf Hl Pos Two Hns) in E.
    destruct (room _ _ _ _ _); [|discriminate]. injection E as <-. exists (fresh dops dinf sz). split; [reflexivity|]. split; [|reflexivity]. split; [|reflexivity].
    cbn [l_box fresh]. clear. induction fcn as [|n IH]; [reflexivity|]. cbn [repeat map]. f_equal. exact IH.
  Qed.
  Lemma once_limits : forall dl t h new t', once dl t h -> length new = cands -> set_limits dops (Z.of_nat fcn) t new = Ok t' -> once dl t' h.
  Proof.
    intros dl t h new t' [R S] Ln E. destruct (set_limits_remembers dops sz lc max_size node_size Hf Hl Pos Two dl t h new t' R Ln E) as [R' Nn].
    split; [exact R'|]. destruct S as [U|[_ [[n [En [_ Lf]]] _]]].
    - left. unfold unsplit. rewrite Nn. exact U.
    - destruct (set_limits_ok dops sz lc max_size node_size Hf Hl Pos Two dl t h new R Ln) as [n' [b [rest [En' [_ [_ Q]]]]]]. rewrite En in En'. injection En' as <-.
      rewrite Lf in Q. congruence.
  Qed.
  Lemma once_train : forall dl t h x l t' r, once dl t h -> length x = fcn -> (l < lc)%nat -> train t x (Z.of_nat l) = Ok (t', r) ->
    (length (nodes dops t') = length (nodes dops t) /\ once dl t' (h ++ [mkPoint dops x (Z.of_nat l) (limits_of dops t')])) \/
    (length (nodes dops t') = (2 + length (nodes dops t))%nat /\ once dl t' [mkPoint dops x (Z.of_nat l) (limits_of dops t')]).
  Proof.
    intros dl t h x l t' r [R S] Lx Hll E. pose proof (train_remembers dops log_ log2_ dinf sz lc max_size node_size Hf Hl Pos Two Hns dl t h x l t' r R Lx Hll E) as TR.
    pose proof (train_ok dops log_ log2_ dinf sz lc max_size node_size Hf Hl Pos Two Hns dl t h x l R Lx Hll) as T.
    destruct (Z.ltb_spec (size_of h) 2147483647) as [Hn|Hn]; [|congruence].
    destruct T as [i [n [b [rest [cs [Es [En [Lf [Eb [Hb [Ad T]]]]]]]]]]].
    assert (Hi : (i < length (nodes dops t))%nat) by (apply nth_error_Some; congruence).
    unfold train_result in T. destruct S as [[n0 [Nn [Bn Ln]]]|[L3 [[n0 [En0 [Bn0 Lf0]]] [b0 [rest0 [Eb0 [Bl [Ns Bp]]]]]]]].
    - (* a single leaf *)
      assert (i = 0%nat /\ n = n0) as [-> ->]. { rewrite Nn in Hi, En. destruct i; [|cbn in Hi; lia]. cbn in En. split; congruence. }
      destruct (decision dops log_ log2_ sz lc (delta dops t) b cs) as [[fz v]|].
      + set (f := recovered sz (fst (winners dops sz (mean dops log2_ sz lc b cs)))) in *. rewrite Nn in T. cbn [length] in T.
        destruct (room sz lc max_size node_size (2 + 1)) eqn:R3; [|congruence]. destruct T as [cs' [Ad' T]]. cbv zeta in T. rewrite E in T.
        set (m := grown dops sz n0 x) in *.
        set (left := nle dops (nth f x (nofZ dops 0)) v) in *.
        assert (Et' : t' = with_nodes dops t (upd (upd [n0] 0 (inner dops m f v 1) ++ [right_of dops m f v; left_of dops m f v]) (if left then 2%nat else 1%nat) (grown dops sz (if left then left_of dops m f v else right_of dops m f v) x))
            (next_block dops log2_ sz lc (split_block dops sz lc m f v) cs' :: rest)) by congruence. clear T.
        destruct TR as [[Q _]|[Q TR]]; [rewrite Et', Nn in Q; cbn [nodes with_nodes] in Q; rewrite upd_length in Q; cbn in Q; lia|].
        right. split; [exact Q|]. split; [exact TR|]. right. split; [rewrite Q, Nn; reflexivity|].
        pose proof (boundless_grown n0 x Bn) as Bm. fold m in Bm. pose proof (room_one t (proj1 R)) as R1. pose proof (blind_split m f v Bm R1) as BS.
        assert (Sb : holds (split_block dops sz lc m f v) []) by (apply (split_block_holds dops sz lc Hf Hl Pos Two)).
        split.
        * exists (inner dops m f v 1). rewrite Et'. cbn [nodes with_nodes upd app]. split; [destruct left; reflexivity|]. split; [exact Bm|].
          unfold is_leaf. cbn [split_feature inner]. apply Z.ltb_ge. lia.
        * eexists _, rest. split; [rewrite Et'; reflexivity|]. cbn [limits next_block info_sum]. split; [exact BS|]. split.
          -- apply Forall_forall. intros y Hy. apply in_map_iff in Hy. destruct Hy as [k [<- Hk]]. apply in_seq in Hk.
             apply (settled_sums (split_block dops sz lc m f v) [] x l cs'); auto; [cbn; lia| |intros ? []|lia].
             cbn [info_sum split_block empty_block zero_block]. apply Forall_forall. intros y Hy. apply repeat_spec in Hy. subst y. apply null_cases. right. exists false. reflexivity.
          -- intros p [<-|[]]. cbn [at_limits]. rewrite Et'. exact BS.
      + left. destruct TR as [[Q TR]|[Q _]].
        * split; [exact Q|]. split; [exact TR|]. left. assert (Et' : t' = with_nodes dops t (upd (nodes dops t) 0 (grown dops sz n0 x)) (next_block dops log2_ sz lc b cs :: rest)) by congruence.
          exists (grown dops sz n0 x). rewrite Et'. cbn [nodes with_nodes]. rewrite Nn. split; [reflexivity|]. split; [now apply boundless_grown|exact Ln].
        * exfalso. assert (Et' : t' = with_nodes dops t (upd (nodes dops t) 0 (grown dops sz n0 x)) (next_block dops log2_ sz lc b cs :: rest)) by congruence.
          rewrite Et' in Q. cbn [nodes with_nodes] in Q. rewrite upd_length in Q. lia.
    - (* after the split *)
      rewrite Eb in Eb0. injection Eb0 as <- <-. pose proof (size_of_nonneg _ h) as H0.
      rewrite (settled_waits (delta dops t) b h x l cs) in T by (auto; lia).
      assert (Et' : t' = with_nodes dops t (upd (nodes dops t) i (grown dops sz n x)) (next_block dops log2_ sz lc b cs :: rest)) by congruence.
      left. destruct TR as [[Q TR]|[Q _]]; [|exfalso; rewrite Et' in Q; cbn [nodes with_nodes] in Q; rewrite upd_length in Q; lia].
      split; [exact Q|]. split; [exact TR|]. right. split; [lia|]. split.
      + rewrite Et'. cbn [nodes with_nodes]. exists n0. split; [|split; assumption]. rewrite nth_error_upd_other; [exact En0|].
        intros ->. assert (n = n0) by congruence. subst. unfold is_leaf in Lf0. rewrite Lf in Lf0. discriminate.
      + eexists _, rest. split; [rewrite Et'; reflexivity|]. cbn [limits next_block info_sum]. split; [exact Bl|]. split.
        * apply Forall_forall. intros y Hy. apply in_map_iff in Hy. destruct Hy as [k [<- Hk]]. apply in_seq in Hk. apply (settled_sums b h x l cs); auto; lia.
        * intros p Hp. apply in_app_or in Hp. destruct Hp as [Hp|[<-|[]]]; [auto|]. cbn [at_limits]. rewrite Et'. exact Bl.
  Qed.
  Lemma reached_once : forall dl t h, reached dl t h -> once dl t h.
  Proof.
    intros dl t h R. induction R as [t E|t h new t' R IH Ln E|t h x l t' r R IH Lx Hll E Eq|t h x l t' r R IH Lx Hll E Ne].
    - now apply once_new.
    - apply (once_limits dl t h new t' IH); [|exact E]. rewrite Ln. destruct IH as [[[[_ Sz] _] _] _]. rewrite Sz, (bins_cands sz lc Hf Hl Pos Two). apply Nat2Z.id.
    - replace l with (Z.of_nat (Z.to_nat l)) in * by lia. destruct (once_train dl t h x (Z.to_nat l) t' r IH Lx ltac:(lia) E) as [[_ H]|[H _]]; [exact H|lia].
    - replace l with (Z.of_nat (Z.to_nat l)) in * by lia. destruct (once_train dl t h x (Z.to_nat l) t' r IH Lx ltac:(lia) E) as [[H _]|[_ H]]; [lia|exact H].
  Qed.
End Once.
