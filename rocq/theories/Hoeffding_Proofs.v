(** * Proofs about the Hoeffding tree, for any arithmetic *)
From Coq Require Import ZArith List Bool Lia.
From Verif Require Import CppBase CppFacts NumOps Perceptron_Proofs MCNN_Proofs Hoeffding_Model Hoeffding_Spec.
Import ListNotations.
Local Open Scope Z_scope.

(** Sums of integers. *)
Fixpoint total (g : nat -> Z) (n : nat) : Z := match n with Datatypes.O => 0 | S n => total g n + g n end.
Lemma total_ext : forall g h n, (forall k, (k < n)%nat -> g k = h k) -> total g n = total h n.
Proof. induction n as [|n IH]; intros H; cbn [total]; [reflexivity|]. rewrite IH, H; auto. Qed.
Lemma total_nonneg : forall g n, (forall k, (k < n)%nat -> 0 <= g k) -> 0 <= total g n.
Proof. induction n as [|n IH]; intros H; cbn [total]; [lia|]. pose proof (H n ltac:(lia)). specialize (IH ltac:(auto)). lia. Qed.
Lemma total_le : forall g n m, (n <= m)%nat -> (forall k, (k < m)%nat -> 0 <= g k) -> total g n <= total g m.
Proof.
  intros g n m H P. induction H as [|m H IH]; [lia|]. cbn [total]. pose proof (P m ltac:(lia)). specialize (IH ltac:(auto)). lia.
Qed.
Lemma total_zero : forall n, total (fun _ => 0) n = 0.
Proof. induction n as [|n IH]; cbn [total]; lia. Qed.

(** Places in the arrays. *)
Section Places.
  Variable sz : list nat.
  Local Notation fcn := (length sz).
  Local Notation size := (size sz).
  Local Notation start := (start sz).
  Local Notation cut := (cut sz).
  Hypothesis Pos : forall f, (f < fcn)%nat -> (1 <= size f)%nat.

  Lemma start_mono : forall a b, (a <= b)%nat -> (start a <= start b)%nat.
  Proof. clear Pos. induction 1; [lia|]. cbn [Hoeffding_Spec.start]. lia. Qed.
  Lemma cut_mono : forall a b, (a <= b)%nat -> (cut a <= cut b)%nat.
  Proof. clear Pos. induction 1; [lia|]. cbn [Hoeffding_Spec.cut]. lia. Qed.
  Lemma start_cut : forall f, (f <= fcn)%nat -> start f = (cut f + f)%nat.
  Proof.
    induction f as [|f IH]; intros H; [reflexivity|]. cbn [Hoeffding_Spec.start Hoeffding_Spec.cut].
    pose proof (Pos f ltac:(lia)). rewrite IH by lia. lia.
  Qed.
  Lemma start_range : forall f b n, (f < n)%nat -> (b < size f)%nat -> (start f + b < start n)%nat.
  Proof. clear Pos. intros f b n H Hb. pose proof (start_mono (S f) n H) as M. cbn [Hoeffding_Spec.start] in M. lia. Qed.
  Lemma cut_range : forall f v n, (f < n)%nat -> (v < size f - 1)%nat -> (cut f + v < cut n)%nat.
  Proof. clear Pos. intros f v n H Hb. pose proof (cut_mono (S f) n H) as M. cbn [Hoeffding_Spec.cut] in M. lia. Qed.
  Lemma start_inj : forall f b g c, (b < size f)%nat -> (c < size g)%nat -> (start f + b = start g + c)%nat -> f = g /\ b = c.
  Proof.
    clear Pos. intros f b g c H H' E. destruct (Nat.lt_trichotomy f g) as [L|[->|L]].
    - pose proof (start_range f b g L H). lia.
    - split; [reflexivity|lia].
    - pose proof (start_range g c f L H'). lia.
  Qed.
  Lemma start_onto : forall n j, (j < start n)%nat -> exists f b, (f < n)%nat /\ (b < size f)%nat /\ j = (start f + b)%nat.
  Proof.
    clear Pos. induction n as [|n IH]; intros j H; cbn [Hoeffding_Spec.start] in H; [lia|].
    destruct (Nat.lt_ge_cases j (start n)) as [L|G].
    - destruct (IH j L) as [f [b [A [B C]]]]. exists f, b. split; [lia|]. auto.
    - exists n, (j - start n)%nat. split; [lia|]. split; lia.
  Qed.

  Definition upto (n : nat) : list (nat * nat) := flat_map (fun f => map (pair f) (seq 0 (size f - 1))) (seq 0 n).
  Lemma upto_S : forall n, upto (S n) = upto n ++ map (pair n) (seq 0 (size n - 1)).
  Proof. clear Pos. intros n. unfold upto. rewrite seq_S, flat_map_app. cbn [flat_map Nat.add]. now rewrite app_nil_r. Qed.
  Lemma upto_length : forall n, length (upto n) = cut n.
  Proof.
    clear Pos. induction n as [|n IH]; [reflexivity|]. rewrite upto_S, app_length, IH, map_length, seq_length. reflexivity.
  Qed.
  Lemma upto_nth : forall n k f v, nth_error (upto n) k = Some (f, v) <-> (f < n)%nat /\ (v < size f - 1)%nat /\ k = (cut f + v)%nat.
  Proof.
    clear Pos. induction n as [|n IH]; intros k f v.
    - cbn. destruct k; split; intros H; try discriminate; lia.
    - rewrite upto_S. destruct (Nat.lt_ge_cases k (cut n)) as [L|G].
      + rewrite nth_error_app1 by (rewrite upto_length; lia). rewrite IH. split; intros [A [B C]].
        * split; [lia|]. auto.
        * split; [|auto]. destruct (Nat.eq_dec f n) as [->|]; [lia|lia].
      + rewrite nth_error_app2 by (rewrite upto_length; lia). rewrite upto_length. split.
        * intros E. assert (I : (k - cut n < size n - 1)%nat).
          { assert (nth_error (map (pair n) (seq 0 (size n - 1))) (k - cut n) <> None) as H by congruence.
            apply nth_error_Some in H. now rewrite map_length, seq_length in H. }
          rewrite nth_error_map_seq in E by exact I. injection E as <- <-. split; [lia|]. split; [exact I|lia].
        * intros [A [B C]]. destruct (Nat.eq_dec f n) as [->|N].
          -- replace (k - cut n)%nat with v by lia. now rewrite nth_error_map_seq by exact B.
          -- pose proof (cut_range f v n ltac:(lia) B). lia.
  Qed.
  Lemma candidates_nth : forall k f v, nth_error (candidates sz) k = Some (f, v) <->
    (f < fcn)%nat /\ (v < size f - 1)%nat /\ k = (cut f + v)%nat.
  Proof. clear Pos. intros. apply (upto_nth fcn). Qed.
  Lemma candidates_length : length (candidates sz) = cut fcn.
  Proof. clear Pos. apply (upto_length fcn). Qed.
  Lemma cut_onto : forall n k, (k < cut n)%nat -> exists f v, (f < n)%nat /\ (v < size f - 1)%nat /\ k = (cut f + v)%nat.
  Proof.
    clear Pos. intros n k H. destruct (nth_error (upto n) k) as [[f v]|] eqn:E.
    - apply upto_nth in E. eauto.
    - apply nth_error_None in E. rewrite upto_length in E. lia.
  Qed.
End Places.

Section Tree.
  Variable O : ops.
  Variable log_ log2_ : num O -> num O.
  Variable infinity : num O.
  Variable sz : list nat.
  Variable lc : nat.
  Variable max_size node_size : Z.
  Local Notation n_ := (nofZ O).
  Local Notation zero := (nofZ O 0).
  Local Notation fcn := (length sz).
  Local Notation fc := (Z.of_nat fcn).
  Local Notation lz := (Z.of_nat lc).
  Local Notation size := (size sz).
  Local Notation start := (start sz).
  Local Notation cut := (cut sz).
  Local Notation bins := (start fcn).
  Local Notation cands := (cut fcn).
  Local Notation sizes := (map Z.of_nat sz).
  Local Notation tree := (tree O).
  Local Notation node := (node O).
  Local Notation block := (block O).
  Hypothesis Hf : (1 <= fcn)%nat.
  Hypothesis Hl : (1 <= lc)%nat.
  Hypothesis Pos : forall f, (f < fcn)%nat -> (1 <= size f)%nat.
  Hypothesis Two : (2 <= cands)%nat.
  Hypothesis Hns : 0 < node_size.
  Local Notation block_bytes := (total_size_counters fc lz (Z.of_nat bins)).

  Lemma bins_cands : Z.of_nat bins - fc = Z.of_nat cands.
  Proof. pose proof (start_cut sz Pos fcn ltac:(lia)). lia. Qed.
  Lemma bytes_pos : 0 < block_bytes.
  Proof. unfold total_size_counters. pose proof bins_cands. clear - H Two. nia. Qed.

  (** The sizes in a tree. *)
  Definition sized (t : tree) : Prop := features_size O t = sizes /\ sum_feature_size O t = Z.of_nat bins.
  Lemma rd_sizes : forall f, (f < fcn)%nat -> rd sizes (Z.of_nat f) = Ok (Z.of_nat (size f)).
  Proof.
    clear. intros f H. rewrite (rdN_nth _ _ _ 0) by (rewrite map_length; lia). f_equal.
    unfold Hoeffding_Spec.size. change 0 with (Z.of_nat 0) at 1. apply map_nth.
  Qed.

  (** ** The counters *)
  Definition shaped (cs : list (list Z)) : Prop := length cs = lc /\ forall l, (l < lc)%nat -> length (nth l cs []) = bins.
  Definition cell (cs : list (list Z)) (l j : nat) : Z := nth j (nth l cs []) 0.
  Lemma rd_row : forall cs l, shaped cs -> (l < lc)%nat -> rd cs (Z.of_nat l) = Ok (nth l cs []).
  Proof. clear. intros cs l [L _] H. apply rdN_nth. now rewrite L. Qed.
  Lemma rd_cell : forall cs l j, shaped cs -> (l < lc)%nat -> (j < bins)%nat -> rd (nth l cs []) (Z.of_nat j) = Ok (cell cs l j).
  Proof. clear. intros cs l j [_ L] H Hj. apply rdN_nth. rewrite L; auto. Qed.

  (** The points of label [l] in feature [f], in all, in the bins up to [v], and in the others. *)
  Definition side (cs : list (list Z)) (f n l : nat) : Z := total (fun b => cell cs l (start f + b)) n.
  Definition low (cs : list (list Z)) (f v l : nat) : Z := side cs f (S v) l.
  Definition high (cs : list (list Z)) (f v l : nat) : Z := side cs f (size f) l - side cs f (S v) l.

  Definition entropy_term (g : nat -> num O) (sum : num O) (e : num O) (l : nat) : num O :=
    let div := ndiv O (g l) sum in
    if nlt O zero div && negb (isnan O div) then nadd O e (nmul O div (log2_ div)) else e.
  Definition entropy_sum (g : nat -> num O) (sum : num O) (n : nat) : num O :=
    fold_left (entropy_term g sum) (seq 0 n) zero.
  Definition nsumf (g : nat -> num O) (n : nat) : num O := fold_left (fun a l => nadd O a (g l)) (seq 0 n) zero.
  Definition weigh (g0 g1 : nat -> Z) : num O :=
    let s0 := nsumf (fun l => n_ (g0 l)) lc in
    let s1 := nsumf (fun l => n_ (g1 l)) lc in
    let s := nadd O s0 s1 in
    nadd O (nmul O (nmul O (n_ (-1)) (entropy_sum (fun l => n_ (g0 l)) s0 lc)) (fix_nan O (ndiv O s0 s)))
           (nmul O (nmul O (n_ (-1)) (entropy_sum (fun l => n_ (g1 l)) s1 lc)) (fix_nan O (ndiv O s1 s))).
  Definition first_counts (cs : list (list Z)) (l : nat) : num O := nsumf (fun v => n_ (cell cs l v)) (size 0).
  Definition gain (d : num O) (cs : list (list Z)) (fv : nat * nat) : num O :=
    nsub O (nmul O (entropy_sum (first_counts cs) d lc) (n_ (-1))) (weigh (low cs (fst fv) (snd fv)) (high cs (fst fv) (snd fv))).

  Lemma entropy_S : forall g s n, entropy_sum g s (S n) = entropy_term g s (entropy_sum g s n) n.
  Proof. clear. intros. unfold entropy_sum. rewrite seq_S, fold_left_app. reflexivity. Qed.
  Lemma nsumf_S : forall g n, nsumf g (S n) = nadd O (nsumf g n) (g n).
  Proof. clear. intros. unfold nsumf. rewrite seq_S, fold_left_app. reflexivity. Qed.

  Lemma partial_entropy_ok : forall g s, partial_entropy O log2_ lz (map g (seq 0 lc)) s = Ok (entropy_sum (fun l => n_ (g l)) s lc).
  Proof.
    clear. intros g s. unfold partial_entropy. rewrite Nat2Z.id.
    match goal with |- forZ lc 0 ?bd _ = _ => destruct (forN _ (fun k e => e = entropy_sum (fun l => n_ (g l)) s k) bd lc 0 zero) as [e [E ->]] end;
      [reflexivity| |exact E].
    intros k e Hk ->. rewrite Z.add_0_l. rewrite (rdN _ _ _ (g k)) by (now apply nth_error_map_seq). cbn [bind].
    eexists. split; [reflexivity|]. rewrite entropy_S. reflexivity.
  Qed.
  Lemma cell_loop : forall cs l o n, shaped cs -> (l < lc)%nat -> (o + n <= bins)%nat ->
    forZ n 0 (fun v s => do x <- rd (nth l cs []) (Z.of_nat o + v); Ok (s + x)) 0 = Ok (total (fun b => cell cs l (o + b)) n).
  Proof.
    clear. intros cs l o n S H B.
    match goal with |- forZ n 0 ?bd _ = _ => destruct (forN _ (fun k e => e = total (fun b => cell cs l (o + b)) k) bd n 0 0) as [e [E ->]] end;
      [reflexivity| |exact E].
    intros k e Hk ->. rewrite Z.add_0_l, <- Nat2Z.inj_add, rd_cell by (auto; lia). cbn [bind]. eexists. split; reflexivity.
  Qed.
  Lemma first_loop : forall cs l, shaped cs -> (l < lc)%nat ->
    forZ (size 0) 0 (fun v n => do x <- rd (nth l cs []) v; Ok (nadd O n (n_ x))) zero = Ok (first_counts cs l).
  Proof.
    intros cs l S H. unfold first_counts.
    match goal with |- forZ _ 0 ?bd _ = _ => destruct (forN _ (fun k e => e = nsumf (fun v => n_ (cell cs l v)) k) bd (size 0) 0 zero) as [e [E ->]] end;
      [reflexivity| |exact E].
    intros k e Hk ->. rewrite Z.add_0_l. rewrite rd_cell by (auto; pose proof (start_range sz 0 k fcn ltac:(lia) Hk); cbn in *; lia).
    cbn [bind]. eexists. split; [reflexivity|]. now rewrite nsumf_S.
  Qed.

  Lemma upd_map_seq : forall A (g : nat -> A) n k v, (k < n)%nat -> upd (map g (seq 0 n)) k v = map (fun j => if Nat.eqb k j then v else g j) (seq 0 n).
  Proof.
    clear. intros A g n k v H. apply nth_error_ext. intros j. rewrite nth_error_upd, map_length, seq_length.
    destruct (Nat.lt_ge_cases j n) as [L|G].
    - rewrite !nth_error_map_seq by exact L. destruct (Nat.eqb_spec k j) as [->|]; [|reflexivity].
      destruct (Nat.ltb_spec j n); [reflexivity|lia].
    - rewrite !(proj2 (nth_error_None _ j)) by (rewrite map_length, seq_length; lia).
      destruct (Nat.eqb_spec k j); [lia|reflexivity].
  Qed.
  Lemma map_seq_ext : forall A (g h : nat -> A) n, (forall k, (k < n)%nat -> g k = h k) -> map g (seq 0 n) = map h (seq 0 n).
  Proof. clear. intros A g h n H. apply map_ext_in. intros a Ha. apply in_seq in Ha. apply H. lia. Qed.

  (** The cells [base, base + n) of an array set to [g 0 ... g (n-1)]. *)
  Fixpoint fill_from {A} (l : list A) (base n : nat) (g : nat -> A) : list A :=
    match n with Datatypes.O => l | S n => upd (fill_from l base n g) (base + n) (g n) end.
  Lemma fill_from_length : forall A (l : list A) base n g, length (fill_from l base n g) = length l.
  Proof. clear. induction n as [|n IH]; intros; cbn [fill_from]; [reflexivity|]. now rewrite upd_length. Qed.
  Lemma fill_from_ext : forall A (l : list A) base n g h, (forall k, (k < n)%nat -> g k = h k) -> fill_from l base n g = fill_from l base n h.
  Proof. clear. induction n as [|n IH]; intros; cbn [fill_from]; [reflexivity|]. rewrite (IH g h) by auto. now rewrite H by lia. Qed.

  Lemma entropy_ok : forall t cs f out, sized t -> shaped cs -> (f < fcn)%nat -> length out = cands ->
    compute_entropy O log2_ lz t (Z.of_nat f) (Z.of_nat (start f)) cs out (Z.of_nat (cut f)) =
    Ok (fill_from out (cut f) (size f - 1) (fun v => Some (weigh (low cs f v) (high cs f v)))).
  Proof.
    clear Hl Two. intros t cs f out [Sz _] Sh H L. unfold compute_entropy. rewrite Sz, rd_sizes by exact H. cbn [bind].
    pose proof (start_range sz f (size f - 1) fcn H ltac:(pose proof (Pos f H); lia)) as SR. pose proof (Pos f H) as P1.
    match goal with |- context [forZ (Z.to_nat lz) 0 ?bd []] =>
      assert (E : forZ (Z.to_nat lz) 0 bd [] = Ok (map (side cs f (size f)) (seq 0 lc))) end.
    { rewrite Nat2Z.id. match goal with |- forZ lc 0 ?bd [] = _ => destruct (forN _ (fun k l => l = map (side cs f (size f)) (seq 0 k)) bd lc 0 []) as [e [E ->]] end;
        [reflexivity| |exact E].
      intros k l Hk ->. rewrite Z.add_0_l, rd_row by auto. cbn [bind]. rewrite Nat2Z.id, cell_loop by (auto; lia). cbn [bind].
      eexists. split; [reflexivity|]. rewrite seq_S, map_app. reflexivity. }
    rewrite E. cbn [bind]. clear E.
    assert (Z0 : repeat 0 (Z.to_nat lz) = map (side cs f 0) (seq 0 lc)).
    { rewrite Nat2Z.id. clear. unfold side. cbn [total]. generalize 0%nat. induction lc as [|n IH]; intros s; cbn; [reflexivity|]. f_equal. apply IH. }
    rewrite Z0. clear Z0.
    match goal with |- bind (forZ _ 0 ?bd ?s) _ = _ =>
      destruct (forN _ (fun v '(o, (s0, s1)) => o = fill_from out (cut f) v (fun v => Some (weigh (low cs f v) (high cs f v))) /\
        s0 = map (side cs f v) (seq 0 lc) /\ s1 = map (fun l => side cs f (size f) l - side cs f v l) (seq 0 lc)) bd (Z.to_nat (Z.of_nat (size f) - 1)) 0 s)
        as [[o [s0 s1]] [E [I _]]] end.
    - split; [reflexivity|]. split; [reflexivity|]. apply map_seq_ext. intros k Hk. unfold side at 3. cbn [total]. lia.
    - intros v [o [s0 s1]] Hv [-> [-> ->]]. rewrite Z.add_0_l.
      match goal with |- exists s', bind (forZ (Z.to_nat lz) 0 ?bd ?s) _ = _ /\ _ =>
        assert (E : forZ (Z.to_nat lz) 0 bd s = Ok (map (low cs f v) (seq 0 lc), (map (high cs f v) (seq 0 lc),
            (nsumf (fun l => n_ (low cs f v l)) lc, nsumf (fun l => n_ (high cs f v l)) lc)))) end.
      { rewrite Nat2Z.id. match goal with |- forZ lc 0 ?bd ?s = _ =>
          destruct (forN _ (fun k '(s0, (s1, (a, b))) =>
            s0 = map (fun l => if Nat.ltb l k then low cs f v l else side cs f v l) (seq 0 lc) /\
            s1 = map (fun l => if Nat.ltb l k then high cs f v l else side cs f (size f) l - side cs f v l) (seq 0 lc) /\
            a = nsumf (fun l => n_ (low cs f v l)) k /\ b = nsumf (fun l => n_ (high cs f v l)) k) bd lc 0 s) as [[s0 [s1 [a0 b0]]] [E [I0 [I1 [Ia Ib]]]]] end.
        - split; [reflexivity|]. split; [reflexivity|]. split; reflexivity.
        - intros k [s0 [s1 [a0 b0]]] Hk [-> [-> [-> ->]]]. rewrite Z.add_0_l, rd_row by auto. cbn [bind].
          rewrite <- Nat2Z.inj_add, rd_cell by (auto; pose proof (start_range sz f v fcn H ltac:(lia)); lia). cbn [bind].
          rewrite (rdN _ _ _ (side cs f v k)) by (rewrite nth_error_map_seq by exact Hk; now rewrite Nat.ltb_irrefl). cbn [bind].
          rewrite (rdN _ _ _ (side cs f (size f) k - side cs f v k)) by (rewrite nth_error_map_seq by exact Hk; now rewrite Nat.ltb_irrefl). cbn [bind].
          rewrite !wrN by (rewrite map_length, seq_length; lia). cbn [bind].
          eexists. split; [reflexivity|]. cbn beta iota.
          assert (A : side cs f v k + cell cs k (start f + v) = low cs f v k) by (unfold low, side; cbn [total]; lia).
          assert (B : side cs f (size f) k - side cs f v k - cell cs k (start f + v) = high cs f v k) by (unfold high, side; cbn [total]; lia).
          rewrite A, B, !nsumf_S. split; [|split; [|split; reflexivity]]; rewrite upd_map_seq by exact Hk; apply map_seq_ext; intros j Hj;
            destruct (Nat.eqb_spec k j) as [->|N]; [destruct (Nat.ltb_spec j (S j)); [reflexivity|lia]| |destruct (Nat.ltb_spec j (S j)); [reflexivity|lia]|];
            destruct (Nat.ltb_spec j k), (Nat.ltb_spec j (S k)); try lia; reflexivity.
        - rewrite E. subst. f_equal. f_equal; [|f_equal]; apply map_seq_ext; intros j Hj; (destruct (Nat.ltb_spec j lc); [reflexivity|lia]). }
      rewrite E. cbn [bind]. clear E. rewrite !partial_entropy_ok. cbn [bind].
      rewrite <- Nat2Z.inj_add, wrN by (rewrite fill_from_length, L; apply cut_range; [exact H|lia]). cbn [bind].
      eexists. split; [reflexivity|]. split; [reflexivity|]. split; reflexivity.
    - rewrite E. cbn [bind]. rewrite I. replace (Z.to_nat (Z.of_nat (size f) - 1)) with (size f - 1)%nat by lia. reflexivity.
  Qed.

  Lemma fill_from_nth : forall A (l : list A) base n g k, (base + n <= length l)%nat ->
    nth_error (fill_from l base n g) k = if Nat.leb base k && Nat.ltb k (base + n) then Some (g (k - base)%nat) else nth_error l k.
  Proof.
    clear. induction n as [|n IH]; intros g k H; cbn [fill_from].
    - destruct (Nat.leb_spec base k), (Nat.ltb_spec k (base + 0)); cbn; try lia; reflexivity.
    - rewrite nth_error_upd, fill_from_length, IH by lia.
      destruct (Nat.eqb_spec (base + n) k) as [<-|N].
      + destruct (Nat.ltb_spec (base + n) (length l)); [|lia].
        destruct (Nat.leb_spec base (base + n)), (Nat.ltb_spec (base + n) (base + S n)); try lia. cbn. repeat f_equal. lia.
      + destruct (Nat.leb_spec base k), (Nat.ltb_spec k (base + n)), (Nat.ltb_spec k (base + S n)); cbn; try lia; reflexivity.
  Qed.

  (** A loop that updates every cell of an array. *)
  Lemma map_loop : forall A (body : Z -> list (option A) -> res (list (option A))) (g : nat -> A) (l : list (option A)) n,
    length l = n ->
    (forall k l', (k < n)%nat -> length l' = n -> nth_error l' k = nth_error l k -> body (Z.of_nat k) l' = Ok (upd l' k (Some (g k)))) ->
    forZ n 0 body l = Ok (map (fun k => Some (g k)) (seq 0 n)).
  Proof.
    clear. intros A body g l n L H.
    destruct (forN _ (fun k l' => length l' = n /\ (forall j, (j < k)%nat -> nth_error l' j = Some (Some (g j))) /\ (forall j, (k <= j)%nat -> nth_error l' j = nth_error l j))
      body n 0 l) as [l' [E [L' [I _]]]].
    - split; [exact L|]. split; [intros; lia|auto].
    - intros k l' Hk [L' [I1 I2]]. rewrite Z.add_0_l, H by auto. eexists. split; [reflexivity|].
      split; [now rewrite upd_length|]. split; intros j Hj; rewrite nth_error_upd.
      + destruct (Nat.eqb_spec k j) as [->|N]; [|apply I1; lia]. destruct (Nat.ltb_spec j (length l')); [reflexivity|lia].
      + destruct (Nat.eqb_spec k j) as [->|N]; [lia|apply I2; lia].
    - rewrite E. f_equal. apply nth_error_ext. intros k. destruct (Nat.lt_ge_cases k n) as [B|B].
      + rewrite nth_error_map_seq by exact B. now apply I.
      + rewrite !(proj2 (nth_error_None _ _)); [reflexivity| |lia]. rewrite map_length, seq_length. lia.
  Qed.

  Definition candidate (k : nat) : nat * nat := nth k (candidates sz) (0, 0)%nat.
  Lemma candidate_nth : forall k, (k < cands)%nat -> nth_error (candidates sz) k = Some (candidate k).
  Proof. clear. intros k H. apply nth_error_nth'. now rewrite candidates_length. Qed.
  Lemma candidate_at : forall f v, (f < fcn)%nat -> (v < size f - 1)%nat -> candidate (cut f + v) = (f, v).
  Proof. clear. intros f v H Hv. apply nth_error_nth. apply candidates_nth. auto. Qed.
  Lemma candidate_spec : forall k, (k < cands)%nat -> let (f, v) := candidate k in (f < fcn)%nat /\ (v < size f - 1)%nat /\ k = (cut f + v)%nat.
  Proof. clear. intros k H. pose proof (candidate_nth k H) as E. destruct (candidate k) as [f v]. now apply candidates_nth in E. Qed.

  Definition gains (d : num O) (cs : list (list Z)) (k : nat) : num O := gain d cs (candidate k).

  Lemma gain_ok : forall t d cs, sized t -> shaped cs ->
    compute_information_gain O log2_ fc lz t d cs = Ok (map (fun k => Some (gains d cs k)) (seq 0 cands)).
  Proof.
    intros t d cs Sz Sh. unfold compute_information_gain. pose proof Sz as [Sf Ss]. rewrite Sf, Ss.
    change 0 with (Z.of_nat 0) at 1. rewrite rd_sizes by lia. cbn [bind].
    match goal with |- bind (forZ _ 0 ?bd zero) _ = _ => assert (E : forZ (Z.to_nat lz) 0 bd zero = Ok (entropy_sum (first_counts cs) d lc)) end.
    { rewrite Nat2Z.id. match goal with |- forZ lc 0 ?bd zero = _ =>
        destruct (forN _ (fun k e => e = entropy_sum (first_counts cs) d k) bd lc 0 zero) as [e [E ->]] end; [reflexivity| |exact E].
      intros k e Hk ->. rewrite Z.add_0_l, rd_row by auto. cbn [bind]. rewrite Nat2Z.id, first_loop by auto. cbn [bind].
      eexists. split; [reflexivity|]. now rewrite entropy_S. }
    rewrite E. cbn [bind]. clear E. rewrite bins_cands, !Nat2Z.id.
    match goal with |- bind (forZ _ 0 ?bd ?s) _ = _ =>
      destruct (forN _ (fun f '(o, st) => st = Z.of_nat (start f) /\ length o = cands /\
        forall k, (k < cut f)%nat -> nth_error o k = Some (Some (weigh (low cs (fst (candidate k)) (snd (candidate k))) (high cs (fst (candidate k)) (snd (candidate k))))))
        bd fcn 0 s) as [[o st] [E [_ [L I]]]] end.
    - split; [reflexivity|]. split; [apply repeat_length|]. intros k Hk. cbn in Hk. lia.
    - intros f [o st] Hk [-> [L I]]. rewrite Z.add_0_l.
      replace (Z.of_nat (start f) - Z.of_nat f) with (Z.of_nat (cut f)) by (rewrite (start_cut sz Pos f) by lia; lia).
      rewrite entropy_ok by auto. cbn [bind]. rewrite rd_sizes by auto. cbn [bind]. eexists. split; [reflexivity|].
      split; [cbn [Hoeffding_Spec.start]; lia|]. split; [now rewrite fill_from_length|].
      intros k Hkk. cbn [Hoeffding_Spec.cut] in Hkk.
      rewrite fill_from_nth by (rewrite L; pose proof (cut_mono sz (S f) fcn ltac:(lia)) as M; cbn [Hoeffding_Spec.cut] in M; lia).
      destruct (Nat.leb_spec (cut f) k) as [C|C].
      + destruct (Nat.ltb_spec k (cut f + (size f - 1))); [|lia]. cbn [andb].
        assert (Q : candidate k = (f, (k - cut f)%nat)) by (rewrite <- (candidate_at f (k - cut f) Hk ltac:(lia)); f_equal; lia).
        rewrite Q. reflexivity.
      + cbn [andb]. apply I. lia.
    - rewrite E. cbn [bind].
      apply (map_loop (num O) _ (gains d cs)); [exact L|].
      intros k l' Hk L' N. rewrite (rdiN _ _ k (weigh (low cs (fst (candidate k)) (snd (candidate k))) (high cs (fst (candidate k)) (snd (candidate k)))))
        by (rewrite N; now apply I). cbn [bind]. now rewrite wrN by lia.
  Qed.

  (** ** Counting a point *)
  Definition bin_in (lims x : list (num O)) (f : nat) : nat := bin O (feature_limits O sz lims f) (nth f x zero).
  Lemma bin_le : forall ls x, (bin O ls x <= length ls)%nat.
  Proof. clear. induction ls as [|a ls IH]; intros x; cbn [bin length]; [lia|]. destruct (nlt O x a); [lia|]. specialize (IH x). lia. Qed.
  Lemma feature_limits_length : forall lims f, length lims = cands -> (f < fcn)%nat -> length (feature_limits O sz lims f) = (size f - 1)%nat.
  Proof.
    clear. intros lims f L H. unfold feature_limits. rewrite firstn_length, skipn_length, L.
    pose proof (cut_mono sz (S f) fcn ltac:(lia)) as M. cbn [Hoeffding_Spec.cut] in M. lia.
  Qed.
  Lemma bin_range : forall lims x f, length lims = cands -> (f < fcn)%nat -> (bin_in lims x f < size f)%nat.
  Proof.
    clear - Pos. intros lims x f L H. unfold bin_in. pose proof (bin_le (feature_limits O sz lims f) (nth f x zero)) as B.
    rewrite feature_limits_length in B by auto. pose proof (Pos f H). lia.
  Qed.
  Lemma feature_limits_nth : forall lims f v, (v < size f - 1)%nat -> nth v (feature_limits O sz lims f) zero = nth (cut f + v) lims zero.
  Proof.
    clear. intros lims f v H. unfold feature_limits.
    assert (G : forall (l : list (num O)) n v, (v < n)%nat -> nth v (firstn n l) zero = nth v l zero).
    { induction l as [|a l IH]; intros n w Hn; [now rewrite firstn_nil|]. destruct n; [lia|]. destruct w; [reflexivity|]. cbn. apply IH. lia. }
    rewrite G by exact H. generalize (cut f). intros c. revert lims. induction c as [|c IH]; intros lims; [reflexivity|].
    destruct lims as [|a lims]; [destruct (v)%nat; reflexivity|]. cbn [skipn Nat.add nth]. apply IH.
  Qed.
  Lemma bin_find : forall (ls : list (num O)) (x : num O) g i, (forall k, (k < length ls)%nat -> g (i + Z.of_nat k) = Ok (if nlt O x (nth k ls zero) then Some (i + Z.of_nat k) else None)) ->
    findZ (length ls) i g = Ok (if Nat.ltb (bin O ls x) (length ls) then Some (i + Z.of_nat (bin O ls x)) else None).
  Proof.
    clear. induction ls as [|a ls IH]; intros x g i H; [reflexivity|]. cbn [findZ length bin]. pose proof (H 0%nat ltac:(cbn; lia)) as H0.
    replace (i + Z.of_nat 0) with i in H0 by lia. rewrite H0. cbn [bind nth]. destruct (nlt O x a).
    - cbn. f_equal. f_equal. lia.
    - rewrite (IH x g (i + 1)).
      + change (Nat.ltb (S (bin O ls x)) (S (length ls))) with (Nat.ltb (bin O ls x) (length ls)).
        destruct (Nat.ltb (bin O ls x) (length ls)); [|reflexivity]. do 2 f_equal. lia.
      + intros k Hk. specialize (H (S k) ltac:(cbn; lia)). replace (i + 1 + Z.of_nat k) with (i + Z.of_nat (S k)) by lia. exact H.
  Qed.

  (** One more point in a row of counters. *)
  Definition hits (lims x : list (num O)) (n j : nat) : Prop := exists f, (f < n)%nat /\ j = (start f + bin_in lims x f)%nat.
  Lemma count_ok : forall t lims x c, sized t -> length lims = cands -> length x = fcn -> length c = bins ->
    (forall j, (j < bins)%nat -> 0 <= nth j c 0 < 2147483647) ->
    exists c', count_point O fc t lims x c = Ok c' /\ length c' = bins /\
      forall f b, (f < fcn)%nat -> (b < size f)%nat ->
        nth (start f + b) c' 0 = nth (start f + b) c 0 + (if Nat.eqb (bin_in lims x f) b then 1 else 0).
  Proof.
    clear Hl Two Hns Hf. intros t lims x c [Sz _] L Lx Lc R. unfold count_point. rewrite Sz, Nat2Z.id.
    match goal with |- context [forZ fcn 0 ?bd ?s] =>
      destruct (forN _ (fun f '(c', st) => st = Z.of_nat (start f) /\ length c' = bins /\
        (forall g b, (g < fcn)%nat -> (b < size g)%nat -> nth (start g + b) c' 0 =
           nth (start g + b) c 0 + (if Nat.ltb g f && Nat.eqb (bin_in lims x g) b then 1 else 0))) bd fcn 0 s) as [[c' st] [E [_ [L' I]]]] end.
    - split; [reflexivity|]. split; [exact Lc|]. intros. cbn. lia.
    - intros f [c' st] Hk [-> [L' I]]. rewrite Z.add_0_l. rewrite (rdN_nth _ _ _ zero) by lia. cbn [bind]. rewrite rd_sizes by exact Hk. cbn [bind].
      set (ls := feature_limits O sz lims f). assert (Ll : length ls = (size f - 1)%nat) by (now apply feature_limits_length).
      replace (Z.to_nat (Z.of_nat (size f) - 1)) with (length ls) by lia.
      rewrite (bin_find ls (nth f x zero)).
      2:{ intros k Hkk. rewrite Z.add_0_l. rewrite Ll in Hkk. pose proof (start_cut sz Pos f ltac:(lia)) as SC.
          replace (Z.of_nat (start f) + Z.of_nat k - Z.of_nat f) with (Z.of_nat (cut f + k)) by lia.
          rewrite (rdN_nth _ _ _ zero) by (rewrite L; now apply cut_range). cbn [bind]. unfold ls. now rewrite feature_limits_nth. }
      cbn [bind].
      assert (Bn : match (if Nat.ltb (bin O ls (nth f x zero)) (length ls) then Some (0 + Z.of_nat (bin O ls (nth f x zero))) else None) with
                   | Some k => k | None => Z.of_nat (size f) - 1 end = Z.of_nat (bin_in lims x f)).
      { unfold bin_in. fold ls. pose proof (bin_le ls (nth f x zero)). pose proof (Pos f Hk).
        destruct (Nat.ltb_spec (bin O ls (nth f x zero)) (length ls)); lia. }
      rewrite Bn. clear Bn. pose proof (bin_range lims x f L Hk) as Br. pose proof (start_range sz f _ fcn Hk Br) as Sr.
      rewrite <- Nat2Z.inj_add. rewrite (rdN_nth _ _ _ 0) by lia. cbn [bind]. rewrite I by auto.
      rewrite Nat.ltb_irrefl. cbn [andb]. rewrite sint_ok by (specialize (R _ Sr); lia). cbn [bind]. rewrite wrN by lia. cbn [bind].
      eexists. split; [reflexivity|]. split; [cbn [Hoeffding_Spec.start]; lia|]. split; [now rewrite upd_length|].
      intros g b Hg Hb. rewrite nth_upd by lia. destruct (Nat.eqb_spec (start f + bin_in lims x f) (start g + b)) as [Q|Q].
      + apply start_inj in Q; [|exact Br|exact Hb]. destruct Q as [-> <-]. rewrite Nat.eqb_refl. destruct (Nat.ltb_spec g (S g)); [cbn; lia|lia].
      + rewrite I by auto. destruct (Nat.eqb_spec (bin_in lims x g) b) as [Eb|Nb].
        * destruct (Nat.eq_dec g f) as [->|N]; [congruence|]. destruct (Nat.ltb_spec g f), (Nat.ltb_spec g (S f)); try lia.
        * now rewrite !andb_false_r.
    - rewrite E. cbn [bind]. exists c'. split; [reflexivity|]. split; [exact L'|]. intros f b H Hb. rewrite I by auto.
      destruct (Nat.ltb_spec f fcn); [reflexivity|lia].
  Qed.

  (** ** The box of a node *)
  Definition grown_low (x l : list (num O)) : list (num O) := map (fun f => if nlt O (nth f x zero) (nth f l zero) then nth f x zero else nth f l zero) (seq 0 fcn).
  Definition grown_high (x u : list (num O)) : list (num O) := map (fun f => if nlt O (nth f u zero) (nth f x zero) then nth f x zero else nth f u zero) (seq 0 fcn).
  Lemma box_ok : forall n x, length (l_box O n) = fcn -> length (u_box O n) = fcn -> length x = fcn ->
    grow_box O fc n x = Ok (mkNode O (split_feature O n) (split_value O n) (grown_low x (l_box O n)) (grown_high x (u_box O n)) (child_left O n) (child_right O n)).
  Proof.
    clear. intros n x Ll Lu Lx. unfold grow_box. rewrite Nat2Z.id.
    match goal with |- context [forZ fcn 0 ?bd ?s] =>
      destruct (forN _ (fun k '(l, u) => length l = fcn /\ length u = fcn /\
        (forall f, (f < fcn)%nat -> nth f l zero = if Nat.ltb f k then nth f (grown_low x (l_box O n)) zero else nth f (l_box O n) zero) /\
        (forall f, (f < fcn)%nat -> nth f u zero = if Nat.ltb f k then nth f (grown_high x (u_box O n)) zero else nth f (u_box O n) zero)) bd fcn 0 s)
        as [[l u] [E [L1 [L2 [I1 I2]]]]] end.
    - split; [exact Ll|]. split; [exact Lu|]. split; intros; reflexivity.
    - intros k [l u] Hk [L1 [L2 [I1 I2]]]. rewrite Z.add_0_l. rewrite !(rdN_nth _ _ _ zero) by lia. cbn [bind]. rewrite !wrN by lia. cbn [bind].
      eexists. split; [reflexivity|]. split; [now rewrite upd_length|]. split; [now rewrite upd_length|].
      pose proof (I1 k Hk) as K1. pose proof (I2 k Hk) as K2. rewrite Nat.ltb_irrefl in K1, K2.
      split; intros f Hf; rewrite nth_upd by lia; (destruct (Nat.eqb_spec k f) as [->|N];
        [destruct (Nat.ltb_spec f (S f)); [|lia]; rewrite ?K1, ?K2; symmetry; unfold grown_low, grown_high; apply nth_error_nth; now rewrite nth_error_map_seq by exact Hf
        |rewrite ?I1, ?I2 by exact Hf; destruct (Nat.ltb_spec f k), (Nat.ltb_spec f (S k)); try lia; reflexivity]).
    - rewrite E. cbn [bind]. do 2 f_equal; (apply (nth_ext _ _ zero zero);
        [unfold grown_low, grown_high; rewrite map_length, seq_length; assumption|]; intros f Hf; rewrite ?L1, ?L2 in Hf;
        rewrite ?I1, ?I2 by exact Hf; destruct (Nat.ltb_spec f fcn); [reflexivity|lia]).
  Qed.

  (** ** The two best candidates *)
  Fixpoint best_two (g : nat -> num O) (n : nat) : nat * nat :=
    match n with
    | Datatypes.O => if nlt O (g 0%nat) (g 1%nat) then (1, 0)%nat else (0, 1)%nat
    | S n => let '(b0, b1) := best_two g n in
             if nlt O (g b0) (g (2 + n)%nat) then (2 + n, b0)%nat else if nlt O (g b1) (g (2 + n)%nat) then (b0, 2 + n)%nat else (b0, b1)
    end.
  Lemma best_two_range : forall g n, let '(b0, b1) := best_two g n in (b0 < 2 + n)%nat /\ (b1 < 2 + n)%nat /\ b0 <> b1.
  Proof.
    clear. induction n as [|n IH]; cbn [best_two].
    - destruct (nlt O (g 0%nat) (g 1%nat)); lia.
    - destruct (best_two g n) as [b0 b1]. destruct (nlt O (g b0) (g (2 + n)%nat)); [lia|]. destruct (nlt O (g b1) (g (2 + n)%nat)); lia.
  Qed.
  Definition winners (g : nat -> num O) : nat * nat := best_two g (cands - 2).
  Lemma rdi_map : forall (g : nat -> num O) n k, (k < n)%nat -> rdi (map (fun k => Some (g k)) (seq 0 n)) (Z.of_nat k) = Ok (g k).
  Proof. clear. intros g n k H. apply rdiN. now rewrite nth_error_map_seq. Qed.
  Lemma two_best_ok : forall g, two_best O (Z.of_nat cands) (map (fun k => Some (g k)) (seq 0 cands)) = Ok (Z.of_nat (fst (winners g)), Z.of_nat (snd (winners g))).
  Proof.
    clear - Two. intros g. unfold two_best. change 0 with (Z.of_nat 0) at 1. change 1 with (Z.of_nat 1) at 1. rewrite !rdi_map by lia. cbn [bind].
    replace (Z.to_nat (Z.of_nat cands - 2)) with (cands - 2)%nat by lia. unfold winners.
    match goal with |- forZ ?n 2 ?bd ?s = _ =>
      destruct (forN _ (fun k p => p = (Z.of_nat (fst (best_two g k)), Z.of_nat (snd (best_two g k)))) bd n 2 s) as [e [E ->]] end; [| |exact E].
    - cbn [best_two]. destruct (nlt O (g 0%nat) (g 1%nat)); reflexivity.
    - intros k s Hk ->. pose proof (best_two_range g k) as R. cbn [best_two]. destruct (best_two g k) as [b0 b1]. cbn [fst snd].
      replace (2 + Z.of_nat k) with (Z.of_nat (2 + k)) by lia. rewrite !rdi_map by lia. cbn [bind].
      eexists. split; [reflexivity|]. destruct (nlt O (g b0) (g (2 + k)%nat)); [reflexivity|]. destruct (nlt O (g b1) (g (2 + k)%nat)); reflexivity.
  Qed.
  Lemma winners_range : forall g, (fst (winners g) < cands)%nat /\ (snd (winners g) < cands)%nat /\ fst (winners g) <> snd (winners g).
  Proof. clear - Two. intros g. pose proof (best_two_range g (cands - 2)) as R. unfold winners. destruct (best_two g (cands - 2)). cbn [fst snd]. lia. Qed.

  (** ** The feature of a candidate *)
  Fixpoint recover (n f k : nat) : nat :=
    match n with Datatypes.O => f | S n => if Nat.ltb k (start (S f)) then f else recover n (S f) k end.
  Definition recovered (k : nat) : nat := recover (fcn - 1) 0 k.
  Lemma recover_ok : forall t k f n, sized t -> (f + n + 1 = fcn)%nat ->
    recover_feature O fc t n (Z.of_nat f) (Z.of_nat (start (S f))) (Z.of_nat k) = Ok (Z.of_nat (recover n f k)).
  Proof.
    clear. intros t k f n [Sz _]. revert f. induction n as [|n IH]; intros f H; cbn [recover_feature recover].
    - f_equal; lia.
    - destruct (Z.ltb_spec (Z.of_nat k) (Z.of_nat (start (S f)))), (Nat.ltb_spec k (start (S f))); try lia; [reflexivity|].
      rewrite Sz. replace (Z.of_nat f + 1) with (Z.of_nat (S f)) by lia. rewrite rd_sizes by lia. cbn [bind].
      replace (Z.of_nat (start (S f)) + Z.of_nat (size (S f))) with (Z.of_nat (start (S (S f)))) by (cbn [Hoeffding_Spec.start]; lia).
      apply IH. lia.
  Qed.
  Lemma recover_spec : forall n f k, let g := recover n f k in (f <= g <= f + n)%nat /\
      ((g = f + n)%nat \/ (k < start (S g))%nat) /\ (forall g', (f <= g' < g)%nat -> (start (S g') <= k)%nat).
  Proof.
    clear. induction n as [|n IH]; intros f k; cbn [recover].
    - split; [lia|]. split; [lia|]. intros; lia.
    - destruct (Nat.ltb_spec k (start (S f))).
      + split; [lia|]. split; [lia|]. intros; lia.
      + destruct (IH (S f) k) as [A [B C]]. split; [lia|]. split; [lia|]. intros g' Hg.
        destruct (Nat.eq_dec g' f) as [->|N]; [lia|]. apply C. lia.
  Qed.
  Lemma recovered_range : forall k, (recovered k < fcn)%nat.
  Proof. clear - Hf. intros k. unfold recovered. destruct (recover_spec (fcn - 1) 0 k) as [A _]. lia. Qed.

  (** ** Training a leaf *)
  Definition good (b : block) : Prop := length (limits O b) = cands /\ length (info_sum O b) = cands /\ shaped (counters O b).
  Definition node_ok (len i : nat) (n : node) : Prop :=
    length (l_box O n) = fcn /\ length (u_box O n) = fcn /\
    (split_feature O n = -1 \/
     exists f cl cr v, (f < fcn)%nat /\ split_feature O n = Z.of_nat f /\ split_value O n = Some v /\
       child_left O n = Z.of_nat cl /\ child_right O n = Z.of_nat cr /\ (i < cl < len)%nat /\ (i < cr < len)%nat).
  Definition wf (t : tree) : Prop :=
    sized t /\ buffer_preset O t = max_size /\ (1 <= length (nodes O t))%nat /\
    Z.of_nat (length (nodes O t)) * node_size <= max_size - block_bytes /\
    forall i n, nth_error (nodes O t) i = Some n -> node_ok (length (nodes O t)) i n.
  Definition with_nodes (t : tree) (ns : list node) (bs : list block) : tree :=
    mkTree O ns bs (buffer_preset O t) (delta O t) (features_size O t) (sum_feature_size O t).

  Definition sums' (b : block) (cs : list (list Z)) (k : nat) : num O :=
    nadd O (nth k (info_sum O b) zero) (gains (n_ (count O b + 1)) cs k).
  Definition mean (b : block) (cs : list (list Z)) (k : nat) : num O := ndiv O (sums' b cs k) (n_ (count O b + 1)).
  Definition epsilon (delta : num O) (n : Z) : num O := ndiv O (nmul O (n_ 4) (log_ (ndiv O (n_ 1) delta))) (nmul O (n_ 2) (n_ n)).
  Definition splits (delta : num O) (b : block) (cs : list (list Z)) : bool :=
    let g := mean b cs in
    let diff := nsub O (g (fst (winners g))) (g (snd (winners g))) in
    nlt O (epsilon delta (count O b + 1)) (nmul O diff diff) && nlt O zero (g (fst (winners g))).
  Definition decision (delta : num O) (b : block) (cs : list (list Z)) : option (Z * num O) :=
    let k := fst (winners (mean b cs)) in
    if splits delta b cs then Some (Z.of_nat (recovered k), nth k (limits O b) zero) else None.

  Definition added (b : block) (x : list (num O)) (l : nat) (cs : list (list Z)) : Prop :=
    shaped cs /\ forall l' f k, (l' < lc)%nat -> (f < fcn)%nat -> (k < size f)%nat ->
      cell cs l' (start f + k) = cell (counters O b) l' (start f + k) + (if Nat.eqb l l' && Nat.eqb (bin_in (limits O b) x f) k then 1 else 0).
  Definition grown (n : node) (x : list (num O)) : node :=
    mkNode O (split_feature O n) (split_value O n) (grown_low x (l_box O n)) (grown_high x (u_box O n)) (child_left O n) (child_right O n).
  Definition next_block (b : block) (cs : list (list Z)) : block :=
    mkBlock O (count O b + 1) (limits O b) (map (sums' b cs) (seq 0 cands)) cs.

  Lemma shaped_upd : forall cs l c, shaped cs -> (l < lc)%nat -> length c = bins -> shaped (upd cs l c).
  Proof.
    clear. intros cs l c [L R] H Lc. split; [now rewrite upd_length|]. intros k Hk. rewrite nth_upd by lia.
    destruct (Nat.eqb l k); auto.
  Qed.

  Lemma train_node_ok : forall t i n b rest x l, sized t -> nth_error (nodes O t) i = Some n ->
    split_feature O n = -1 -> length (l_box O n) = fcn -> length (u_box O n) = fcn -> blocks O t = b :: rest -> good b ->
    length x = fcn -> (l < lc)%nat -> 0 <= count O b ->
    (forall l j, (l < lc)%nat -> (j < bins)%nat -> 0 <= cell (counters O b) l j <= count O b) ->
    if count O b <? 2147483647 then
      exists cs, added b x l cs /\
        train_node O log_ log2_ fc lz t (Z.of_nat i) x (Z.of_nat l) =
        Ok (with_nodes t (upd (nodes O t) i (grown n x)) (next_block b cs :: rest), decision (delta O t) b cs)
    else train_node O log_ log2_ fc lz t (Z.of_nat i) x (Z.of_nat l) = Undef SignedOverflow.
  Proof.
    intros t i n b rest x l Sz En Lf Bl Bu Eb [G1 [G2 G3]] Lx Hll C0 Cr. unfold train_node.
    rewrite (rdN _ _ _ n) by exact En. cbn [bind]. unfold get_block. rewrite Lf, Eb. change (- -1 - 1) with (Z.of_nat 0).
    rewrite (rdN _ _ _ b) by reflexivity. cbn [bind]. rewrite rd_row by auto. cbn [bind].
    destruct (Z.ltb_spec (count O b) 2147483647) as [Hc|Hc].
    2:{ unfold sint. destruct (Z.leb_spec (count O b + 1) 2147483647); [lia|]. rewrite andb_false_r. reflexivity. }
    rewrite sint_ok by lia. cbn [bind]. rewrite box_ok by auto. cbn [bind]. unfold set_node.
    assert (Hi : (i < length (nodes O t))%nat) by (apply nth_error_Some; congruence).
    rewrite wrN by exact Hi. cbn [bind]. fold (grown n x).
    match goal with |- context [count_point O fc ?tt1 _ _ _] => set (t1 := tt1) end.
    assert (Sz1 : sized t1) by exact Sz.
    destruct (count_ok t1 (limits O b) x (nth l (counters O b) []) Sz1 G1 Lx) as [c [Ec [Lc Rc]]].
    { destruct G3 as [_ G3]. auto. }
    { intros j Hj. specialize (Cr l j Hll Hj). unfold cell in Cr. lia. }
    rewrite Ec. cbn [bind]. rewrite wrN by (destruct G3 as [G3 _]; lia). cbn [bind].
    set (cs := upd (counters O b) l c). assert (Sh : shaped cs) by (now apply shaped_upd).
    exists cs. split.
    { split; [exact Sh|]. intros l' f k Hl' Hff Hk. unfold cell, cs. rewrite nth_upd by (destruct G3 as [G3 _]; lia).
      destruct (Nat.eqb_spec l l') as [<-|N]; cbn [andb]; [apply Rc; auto|lia]. }
    rewrite gain_ok by auto. cbn [bind]. change (sum_feature_size O t1) with (sum_feature_size O t).
    rewrite (proj2 Sz), bins_cands, Nat2Z.id.
    match goal with |- bind (forZ cands 0 ?bd ?s) _ = _ =>
      assert (E : forZ cands 0 bd s = Ok (map (sums' b cs) (seq 0 cands), map (fun k => Some (mean b cs k)) (seq 0 cands))) end.
    { match goal with |- forZ cands 0 ?bd ?s = _ =>
        destruct (forN _ (fun k '(su, ga) => length su = cands /\ (forall j, (j < cands)%nat -> nth j su zero = if Nat.ltb j k then sums' b cs j else nth j (info_sum O b) zero) /\
          ga = map (fun j => Some (if Nat.ltb j k then mean b cs j else gains (n_ (count O b + 1)) cs j)) (seq 0 cands)) bd cands 0 s) as [[su ga] [E [L [I1 I2]]]] end.
      - split; [exact G2|]. split; [intros; reflexivity|]. apply map_seq_ext. intros; reflexivity.
      - intros k [su ga] Hk [L [I1 ->]]. rewrite Z.add_0_l. rewrite (rdN_nth _ _ _ zero) by lia. cbn [bind].
        rewrite rdi_map by exact Hk. cbn [bind]. rewrite I1, Nat.ltb_irrefl by exact Hk. rewrite !wrN by (rewrite ?map_length, ?seq_length; lia). cbn [bind].
        eexists. split; [reflexivity|]. split; [now rewrite upd_length|]. split.
        + intros j Hj. rewrite nth_upd by lia. destruct (Nat.eqb_spec k j) as [->|N].
          * destruct (Nat.ltb_spec j (S j)); [reflexivity|lia].
          * rewrite I1 by exact Hj. destruct (Nat.ltb_spec j k), (Nat.ltb_spec j (S k)); try lia; reflexivity.
        + rewrite upd_map_seq by exact Hk. apply map_seq_ext. intros j Hj. destruct (Nat.eqb_spec k j) as [->|N].
          * destruct (Nat.ltb_spec j (S j)); [reflexivity|lia].
          * destruct (Nat.ltb_spec j k), (Nat.ltb_spec j (S k)); try lia; reflexivity.
      - rewrite E. f_equal. f_equal.
        + apply (nth_ext _ _ zero zero); [rewrite map_length, seq_length; exact L|]. intros j Hj. rewrite L in Hj. rewrite I1 by exact Hj.
          destruct (Nat.ltb_spec j cands); [|lia]. symmetry. apply nth_error_nth. now rewrite nth_error_map_seq.
        + rewrite I2. apply map_seq_ext. intros j Hj. destruct (Nat.ltb_spec j cands); [reflexivity|lia]. }
    rewrite E. cbn [bind]. clear E. unfold set_block. cbn [split_feature grown blocks]. rewrite Lf.
    change (- -1 - 1) with (Z.of_nat 0). unfold t1 at 1. cbn [blocks]. rewrite Eb.
    rewrite wrN by (cbn; lia). cbn [bind upd]. rewrite two_best_ok. cbn [bind].
    destruct (winners_range (mean b cs)) as [W0 [W1 _]]. rewrite !rdi_map by auto. cbn [bind].
    unfold decision, splits, epsilon. cbn [delta t1].
    destruct (nlt O (ndiv O (nmul O (n_ 4) (log_ (ndiv O (n_ 1) (delta O t)))) (nmul O (n_ 2) (n_ (count O b + 1))))
     (nmul O (nsub O (mean b cs (fst (winners (mean b cs)))) (mean b cs (snd (winners (mean b cs)))))
        (nsub O (mean b cs (fst (winners (mean b cs)))) (mean b cs (snd (winners (mean b cs))))))
      && nlt O zero (mean b cs (fst (winners (mean b cs))))); [|reflexivity].
    rewrite (rdN_nth _ _ _ zero) by lia. cbn [bind].
    match goal with |- context [rd (features_size O ?t2) 0] => change (rd (features_size O t2) 0) with (rd (features_size O t) (Z.of_nat 0)) end.
    rewrite (proj1 Sz). rewrite rd_sizes by lia. cbn [bind].
    replace (Z.to_nat (fc - 1)) with (fcn - 1)%nat by lia. 
    match goal with |- context [recover_feature O fc ?t2 _ _ _ _] => pose proof (recover_ok t2 (fst (winners (mean b cs))) 0 (fcn - 1) Sz ltac:(lia)) as R end.
    change (Z.of_nat (start 1)) with (Z.of_nat (size 0)) in R. cbn [Z.of_nat] in R. rewrite R. reflexivity.
  Qed.

  (** ** Nodes *)
  Lemma zero_block_good : good (zero_block O fc lz (Z.of_nat bins)).
  Proof.
    unfold good, zero_block. cbn [limits info_sum counters]. rewrite bins_cands, !Nat2Z.id, !repeat_length. clear. split; [reflexivity|]. split; [reflexivity|].
    split; [apply repeat_length|]. intros l H. rewrite (nth_indep _ [] (repeat 0 bins)) by (rewrite repeat_length; lia). rewrite nth_repeat. apply repeat_length.
  Qed.

  Definition empty_block : block := zero_block O fc lz (Z.of_nat bins).
  Definition fresh : node := mkNode O (-1) None (map (nopp O) (repeat infinity fcn)) (repeat infinity fcn) (-1) (-1).
  Definition room (n : nat) : bool := Z.of_nat n * node_size <=? max_size - block_bytes.
  Lemma allocate_ok : forall t, sized t -> buffer_preset O t = max_size ->
    allocate O fc lz node_size t = if room (S (length (nodes O t))) then Ok tt else Undef NullDeref.
  Proof.
    clear. intros t [_ Ss] Bp. unfold allocate, room. rewrite Ss, Bp. replace (Z.of_nat (S (length (nodes O t)))) with (Z.of_nat (length (nodes O t)) + 1) by lia.
    rewrite Z.gtb_ltb. destruct (Z.ltb_spec (max_size - block_bytes) ((Z.of_nat (length (nodes O t)) + 1) * node_size)),
      (Z.leb_spec ((Z.of_nat (length (nodes O t)) + 1) * node_size) (max_size - block_bytes)); try lia; reflexivity.
  Qed.
  Lemma new_node_ok : forall t b rest, sized t -> buffer_preset O t = max_size -> blocks O t = b :: rest ->
    new_node O infinity fc lz max_size node_size t =
    if room (S (length (nodes O t))) then Ok (with_nodes t (nodes O t ++ [fresh]) (empty_block :: rest)) else Undef NullDeref.
  Proof.
    intros t b rest Sz Bp Eb. unfold new_node. rewrite allocate_ok by auto. destruct (room _); [|reflexivity]. cbn [bind].
    rewrite (proj2 Sz), Bp. replace (max_size - (max_size - block_bytes)) with block_bytes by lia.
    rewrite Z_div_same_full by (pose proof bytes_pos; lia). unfold set_block. change (- - (1) - 1) with (Z.of_nat 0). rewrite Eb.
    rewrite wrN by (cbn; lia). cbn [bind upd]. rewrite Nat2Z.id. unfold add_node, with_nodes. cbn [nodes blocks buffer_preset delta features_size sum_feature_size].
    reflexivity.
  Qed.
  Lemma copy_node_ok : forall t p b rest, sized t -> buffer_preset O t = max_size -> blocks O t = b :: rest -> split_feature O p = -1 ->
    copy_node O fc lz node_size t p =
    if room (S (length (nodes O t))) then Ok (with_nodes t (nodes O t ++ [mkNode O (-1) None (l_box O p) (u_box O p) (-1) (-1)]) (empty_block :: rest)) else Undef NullDeref.
  Proof.
    clear. intros t p b rest Sz Bp Eb Lf. unfold copy_node. rewrite allocate_ok by auto. destruct (room _); [|reflexivity]. cbn [bind].
    rewrite (proj2 Sz), Lf. unfold set_block. change (- -1 - 1) with (Z.of_nat 0). rewrite Eb.
    rewrite wrN by (cbn; lia). cbn [bind upd]. reflexivity.
  Qed.

  Definition box_limit (l u : list (num O)) (fv : nat * nat) : num O :=
    let lf := nth (fst fv) l zero in
    nadd O lf (nmul O (n_ (1 + Z.of_nat (snd fv))) (ndiv O (nsub O (nth (fst fv) u zero) lf) (n_ (Z.of_nat (size (fst fv)))))).
  Definition box_limits (l u : list (num O)) : list (num O) := map (fun k => box_limit l u (candidate k)) (seq 0 cands).
  Lemma select_ok : forall t i n b rest, sized t -> nth_error (nodes O t) i = Some n -> split_feature O n = -1 ->
    length (l_box O n) = fcn -> length (u_box O n) = fcn -> blocks O t = b :: rest -> length (limits O b) = cands ->
    select_split_values O fc t (Z.of_nat i) =
    Ok (with_nodes t (nodes O t) (mkBlock O (count O b) (box_limits (l_box O n) (u_box O n)) (info_sum O b) (counters O b) :: rest)).
  Proof.
    clear. intros t i n b rest Sz En Lf Ll Lu Eb Lb. unfold select_split_values.
    rewrite (rdN _ _ _ n) by exact En. cbn [bind]. unfold get_block. rewrite Lf, Eb. change (- -1 - 1) with (Z.of_nat 0).
    rewrite (rdN _ _ _ b) by reflexivity. cbn [bind]. rewrite (proj1 Sz), Nat2Z.id.
    match goal with |- bind (forZ fcn 0 ?bd ?s) _ = _ =>
      destruct (forN _ (fun f '(ls, k) => k = Z.of_nat (cut f) /\ length ls = cands /\
        forall j, (j < cut f)%nat -> nth j ls zero = box_limit (l_box O n) (u_box O n) (candidate j)) bd fcn 0 s) as [[ls k] [E [_ [L I]]]] end.
    - split; [reflexivity|]. split; [exact Lb|]. intros j Hj. cbn in Hj. lia.
    - intros f [ls k] Hfk [-> [L I]]. rewrite Z.add_0_l. rewrite !(rdN_nth _ _ _ zero) by lia. cbn [bind]. rewrite rd_sizes by exact Hfk. cbn [bind].
      replace (Z.to_nat (Z.of_nat (size f) - 1)) with (size f - 1)%nat by lia.
      match goal with |- context [forZ _ 1 ?bd ?s] =>
        destruct (forN _ (fun v '(ls, k) => k = Z.of_nat (cut f + v) /\ length ls = cands /\
          forall j, (j < cut f + v)%nat -> nth j ls zero = box_limit (l_box O n) (u_box O n) (candidate j)) bd (size f - 1)%nat 1 s) as [[ls' k'] [E I']] end.
      + split; [f_equal; lia|]. split; [exact L|]. intros j Hj. apply I. lia.
      + intros v [ls1 k1] Hv [-> [L1 I1]]. pose proof (cut_range sz f v fcn Hfk Hv) as CR. rewrite wrN by lia. cbn [bind].
        eexists. split; [reflexivity|]. split; [lia|]. split; [now rewrite upd_length|]. intros j Hj. rewrite nth_upd by lia.
        destruct (Nat.eqb_spec (cut f + v) j) as [<-|N]; [|apply I1; lia]. rewrite candidate_at by auto. reflexivity.
      + exists (ls', k'). split; [exact E|]. exact I'.
    - rewrite E. cbn [bind]. unfold set_block. change (- -1 - 1) with (Z.of_nat 0). rewrite Eb. rewrite wrN by (cbn; lia). cbn [bind upd].
      unfold with_nodes. do 4 f_equal. unfold box_limits. apply (nth_ext _ _ zero zero); [rewrite map_length, seq_length; exact L|].
      intros j Hj. rewrite L in Hj. rewrite I by exact Hj. symmetry. apply nth_error_nth. now rewrite nth_error_map_seq.
  Qed.

  (** ** Splitting a leaf *)
  Definition inner (n : node) (f : nat) (v : num O) (len : nat) : node :=
    mkNode O (Z.of_nat f) (Some v) (l_box O n) (u_box O n) (Z.of_nat (S len)) (Z.of_nat len).
  Definition right_of (n : node) (f : nat) (v : num O) : node := mkNode O (-1) None (upd (l_box O n) f v) (u_box O n) (-1) (-1).
  Definition left_of (n : node) (f : nat) (v : num O) : node := mkNode O (-1) None (l_box O n) (upd (u_box O n) f v) (-1) (-1).
  Definition split_block (n : node) (f : nat) (v : num O) : block :=
    mkBlock O 0 (box_limits (l_box O n) (upd (u_box O n) f v)) (info_sum O empty_block) (counters O empty_block).
  Lemma nth_error_app_l : forall A (l l' : list A) k a, nth_error l k = Some a -> nth_error (l ++ l') k = Some a.
  Proof. clear. intros A l l' k a H. rewrite nth_error_app1; [exact H|]. apply nth_error_Some. congruence. Qed.
  Lemma room_le : forall a b, (a <= b)%nat -> room b = true -> room a = true.
  Proof.
    clear - Hns. intros a b H R. unfold room in *. apply Z.leb_le in R. apply Z.leb_le.
    assert (Z.of_nat a * node_size <= Z.of_nat b * node_size) by (apply Z.mul_le_mono_nonneg_r; lia). lia.
  Qed.
  Lemma split_ok : forall t i n b rest f v, sized t -> buffer_preset O t = max_size -> nth_error (nodes O t) i = Some n -> split_feature O n = -1 ->
    length (l_box O n) = fcn -> length (u_box O n) = fcn -> blocks O t = b :: rest -> (f < fcn)%nat ->
    split O infinity fc lz max_size node_size t (Z.of_nat i) (Z.of_nat f) v =
    if room (2 + length (nodes O t)) then
      Ok (with_nodes t (upd (nodes O t) i (inner n f v (length (nodes O t))) ++ [right_of n f v; left_of n f v]) (split_block n f v :: rest))
    else Undef NullDeref.
  Proof.
    intros t i n b rest f v Sz Bp En Lf Ll Lu Eb Hff. unfold split. rewrite (new_node_ok t b rest) by auto.
    destruct (room (2 + length (nodes O t))) eqn:R2.
    2:{ destruct (room (S (length (nodes O t)))) eqn:R1; [|reflexivity]. cbn [bind].
        cbn [nodes with_nodes]. rewrite (rdN _ _ _ n) by (now apply nth_error_app_l). cbn [bind].
        rewrite (copy_node_ok _ _ empty_block rest) by (auto; reflexivity). cbn [nodes with_nodes]. rewrite app_length. cbn [length].
        replace (S (length (nodes O t) + 1)) with (2 + length (nodes O t))%nat by lia. rewrite R2. reflexivity. }
    rewrite (room_le (S (length (nodes O t))) (2 + length (nodes O t)) ltac:(lia) R2). cbn [bind].
    assert (Hi : (i < length (nodes O t))%nat) by (apply nth_error_Some; congruence).
    cbn [nodes with_nodes]. rewrite (rdN _ _ _ n) by (now apply nth_error_app_l). cbn [bind].
    rewrite (copy_node_ok _ _ empty_block rest) by (auto; reflexivity). cbn [nodes with_nodes]. rewrite app_length. cbn [length].
    replace (S (length (nodes O t) + 1)) with (2 + length (nodes O t))%nat by lia. rewrite R2. cbn [bind].
    unfold set_node at 1. cbn [nodes with_nodes]. rewrite <- app_assoc. cbn [app].
    rewrite wrN by (rewrite app_length; lia). cbn [bind nodes]. rewrite upd_app_l by exact Hi.
    set (ns := upd (nodes O t) i _). assert (Ln : length ns = length (nodes O t)) by (unfold ns; apply upd_length).
    rewrite (rdN _ _ (length (nodes O t)) fresh) by (rewrite nth_error_app2, Ln, Nat.sub_diag by lia; reflexivity). cbn [bind].
    rewrite (rdN _ _ (length (nodes O t) + 1) (mkNode O (-1) None (l_box O n) (u_box O n) (-1) (-1)))
      by (rewrite nth_error_app2, Ln by lia; replace (length (nodes O t) + 1 - length (nodes O t))%nat with 1%nat by lia; reflexivity). cbn [bind].
    cbn [l_box u_box split_feature split_value child_left child_right fresh].
    rewrite !wrN by lia. cbn [bind]. unfold set_node at 1. cbn [nodes]. rewrite wrN by (rewrite app_length, Ln; cbn; lia). cbn [bind].
    replace (length (nodes O t) + 1)%nat with (length ns + 1)%nat by lia. rewrite upd_app_r. cbn [upd].
    unfold set_node at 1. cbn [nodes]. rewrite wrN by (rewrite app_length, Ln; cbn; lia). cbn [bind].
    replace (length (nodes O t)) with (length ns + 0)%nat by lia. rewrite upd_app_r. cbn [upd].
    cbn [nodes blocks buffer_preset delta features_size sum_feature_size with_nodes].
    assert (Lz : length (limits O empty_block) = cands) by (apply zero_block_good).
    rewrite (select_ok _ _ (right_of n f v) empty_block rest); [|exact Sz| |reflexivity| | |reflexivity|exact Lz].
    - cbn [bind]. cbn [nodes blocks buffer_preset delta features_size sum_feature_size with_nodes].
      rewrite (select_ok _ _ (left_of n f v) (mkBlock O (count O empty_block) (box_limits (l_box O (right_of n f v)) (u_box O (right_of n f v))) (info_sum O empty_block) (counters O empty_block)) rest);
        [|exact Sz| |reflexivity|exact Ll| |reflexivity|].
      + unfold with_nodes, split_block, inner, ns. cbn [nodes blocks buffer_preset delta features_size sum_feature_size count l_box u_box left_of right_of info_sum counters].
        do 3 f_equal. rewrite upd_length, Nat.add_0_r. do 2 f_equal. f_equal; lia.
      + cbn [nodes with_nodes]. rewrite nth_error_app2 by lia. replace (length ns + 1 - length ns)%nat with 1%nat by lia. reflexivity.
      + cbn [left_of u_box]. now rewrite upd_length.
      + cbn [limits]. unfold box_limits. now rewrite map_length, seq_length.
    - cbn [nodes with_nodes]. rewrite nth_error_app2 by lia. replace (length ns + 0 - length ns)%nat with 0%nat by lia. reflexivity.
    - cbn [right_of l_box]. now rewrite upd_length.
    - exact Lu.
  Qed.

  (** ** Finding the leaf *)
  Lemma descend_ok : forall t x, wf t -> length x = fcn -> forall steps i n, nth_error (nodes O t) i = Some n -> (length (nodes O t) <= i + steps)%nat ->
    exists j m, descend O t steps (Z.of_nat i) x = Ok (Z.of_nat j) /\ nth_error (nodes O t) j = Some m /\ split_feature O m = -1.
  Proof.
    clear - log_ log2_ infinity Hns. intros t x W Lx. induction steps as [|steps IH]; intros i n En H.
    - assert (i < length (nodes O t))%nat by (apply nth_error_Some; congruence). lia.
    - cbn [descend]. rewrite (rdN _ _ _ n) by exact En. cbn [bind]. destruct W as [_ [_ [_ [_ W]]]].
      destruct (W i n En) as [_ [_ [E|[f [cl [cr [v [A [B [C [D [F [G J]]]]]]]]]]]]].
      + unfold is_leaf. rewrite E. cbn. eauto.
      + unfold is_leaf. rewrite B. destruct (Z.ltb_spec (Z.of_nat f) 0); [lia|].
        rewrite (rdN_nth _ _ _ zero) by lia. cbn [bind]. rewrite C, D, F. cbn [bind].
        destruct (nth_error (nodes O t) cl) as [nl|] eqn:El; [|apply nth_error_None in El; lia].
        destruct (nth_error (nodes O t) cr) as [nr|] eqn:Er; [|apply nth_error_None in Er; lia].
        destruct (nle O (nth f x zero) v); [apply (IH cl nl El)|apply (IH cr nr Er)]; lia.
  Qed.
  Lemma sort_ok : forall t x, wf t -> length x = fcn ->
    exists j m, sort_in_leaf O max_size node_size t x = Ok (Z.of_nat j) /\ nth_error (nodes O t) j = Some m /\ split_feature O m = -1.
  Proof.
    intros t x W Lx. unfold sort_in_leaf. pose proof W as [_ [_ [L1 [Rm _]]]].
    destruct (nth_error (nodes O t) 0) as [n|] eqn:E; [|apply nth_error_None in E; lia].
    apply (descend_ok t x W Lx _ 0%nat n E). pose proof bytes_pos as B.
    assert (Z.of_nat (length (nodes O t)) <= max_size / node_size) by (apply Z.div_le_lower_bound; [lia|]; lia). lia.
  Qed.

  (** ** What a tree remembers *)
  Local Notation point := (point O).
  Definition holds (b : block) (h : list point) : Prop :=
    good b /\ count O b = size_of h /\
    (forall p, In p h -> 0 <= label O p < lz /\ length (at_limits O p) = cands) /\
    forall l f k, (l < lc)%nat -> (f < fcn)%nat -> (k < size f)%nat ->
      cell (counters O b) l (start f + k) = size_of (binned O sz (labelled O h (Z.of_nat l)) f k).
  Definition remembers (dl : num O) (t : tree) (h : list point) : Prop :=
    wf t /\ delta O t = dl /\ exists b rest, blocks O t = b :: rest /\ holds b h.

  Lemma holds_cells : forall b h, holds b h -> 0 <= count O b /\
    forall l j, (l < lc)%nat -> (j < bins)%nat -> 0 <= cell (counters O b) l j <= count O b.
  Proof.
    clear. intros b h [_ [C [_ H]]]. split; [unfold size_of in C; lia|]. intros l j Hl Hj.
    destruct (start_onto sz fcn j Hj) as [f [k [A [B ->]]]]. rewrite H, C by auto. unfold size_of, binned, labelled.
    assert (F : forall A (g : A -> bool) l, (length (filter g l) <= length l)%nat).
    { intros A0 g l0. induction l0 as [|a l0 IH]; cbn; [lia|]. destruct (g a); cbn; lia. }
    pose proof (F _ (fun p => Nat.eqb (bin_of O sz f p) k) (filter (fun p => label O p =? Z.of_nat l) h)).
    pose proof (F _ (fun p => label O p =? Z.of_nat l) h). lia.
  Qed.
  Lemma filter_snoc : forall A (g : A -> bool) l a, filter g (l ++ [a]) = filter g l ++ (if g a then [a] else []).
  Proof. clear. intros. rewrite filter_app. reflexivity. Qed.
  Lemma holds_added : forall b h x l cs, holds b h -> (l < lc)%nat -> added b x l cs ->
    holds (next_block b cs) (h ++ [mkPoint O x (Z.of_nat l) (limits O b)]).
  Proof.
    clear. intros b h x l cs [[G1 [G2 G3]] [C [Hp H]]] Hl [A1 A2]. split; [|split; [|split]].
    - split; [exact G1|]. split; [cbn [info_sum next_block]; now rewrite map_length, seq_length|exact A1].
    - cbn [count next_block]. unfold size_of in *. rewrite app_length. cbn. lia.
    - intros p Hi. apply in_app_or in Hi. destruct Hi as [Hi|[<-|[]]]; [auto|]. cbn [label at_limits]. split; [lia|exact G1].
    - intros l' f k H1 H2 H3. cbn [counters next_block]. rewrite A2, H by auto. unfold labelled, binned, size_of. rewrite filter_snoc, filter_app, app_length.
      cbn [label]. destruct (Nat.eqb_spec l l') as [->|N].
      + rewrite Z.eqb_refl. cbn [filter andb]. change (bin_of O sz f (mkPoint O x (Z.of_nat l') (limits O b))) with (bin_in (limits O b) x f).
        destruct (Nat.eqb (bin_in (limits O b) x f) k); cbn [length]; lia.
      + destruct (Z.eqb_spec (Z.of_nat l) (Z.of_nat l')); [lia|]. cbn. lia.
  Qed.
  Lemma cell_repeat : forall n m l j, cell (repeat (repeat 0 n) m) l j = 0.
  Proof.
    clear. intros n m l j. unfold cell.
    assert (Z0 : forall k, nth j (repeat 0 k) 0 = 0) by (intros k; apply nth_repeat).
    revert l. induction m as [|m IH]; intros [|l]; cbn [repeat nth]; auto; destruct j; reflexivity.
  Qed.
  Lemma holds_empty : forall b, good b -> count O b = 0 -> counters O b = counters O empty_block -> holds b [].
  Proof.
    clear. intros b G C E. split; [exact G|]. split; [exact C|]. split; [intros p []|]. intros l f k _ _ _. rewrite E. apply cell_repeat.
  Qed.
  Lemma split_block_holds : forall n f v, holds (split_block n f v) [].
  Proof.
    intros n f v. apply holds_empty; try reflexivity. destruct zero_block_good as [_ [A B]]. split; [cbn [limits split_block]; unfold box_limits; now rewrite map_length, seq_length|].
    split; assumption.
  Qed.

  Lemma grown_boxes : forall n x, length (l_box O (grown n x)) = fcn /\ length (u_box O (grown n x)) = fcn.
  Proof. clear. intros. cbn [l_box u_box grown]. unfold grown_low, grown_high. now rewrite !map_length, seq_length. Qed.
  Lemma wf_with : forall t ns bs, wf t -> length ns = length (nodes O t) ->
    (forall i n, nth_error ns i = Some n -> node_ok (length ns) i n) -> wf (with_nodes t ns bs).
  Proof. clear. intros t ns bs [A [B [C [D _]]]] L N. split; [exact A|]. split; [exact B|]. cbn [nodes with_nodes]. rewrite L. split; [exact C|]. split; [exact D|]. rewrite <- L. exact N. Qed.
  Lemma node_ok_grown : forall len i n x, node_ok len i n -> node_ok len i (grown n x).
  Proof. clear. intros len i n x [_ [_ H]]. destruct (grown_boxes n x) as [A B]. split; [exact A|]. split; [exact B|]. exact H. Qed.

  Definition train_result (t : tree) (x : list (num O)) (l i : nat) (n : node) (b : block) (rest : list block) (cs : list (list Z)) (r : res (tree * bool)) : Prop :=
    match decision (delta O t) b cs with
    | None => r = Ok (with_nodes t (upd (nodes O t) i (grown n x)) (next_block b cs :: rest), true)
    | Some (_, v) =>
        let f := recovered (fst (winners (mean b cs))) in
        let len := length (nodes O t) in
        let m := grown n x in
        if room (2 + len) then
          exists cs', added (split_block m f v) x l cs' /\
            let left := nle O (nth f x zero) v in
            r = Ok (with_nodes t (upd (upd (nodes O t) i (inner m f v len) ++ [right_of m f v; left_of m f v])
                      (if left then S len else len) (grown (if left then left_of m f v else right_of m f v) x))
                    (next_block (split_block m f v) cs' :: rest), true)
        else r = Undef NullDeref
    end.

  Local Notation train := (train O log_ log2_ infinity fc lz max_size node_size).
  Lemma train_ok : forall dl t h x l, remembers dl t h -> length x = fcn -> (l < lc)%nat ->
    if size_of h <? 2147483647 then
      exists i n b rest cs, sort_in_leaf O max_size node_size t x = Ok (Z.of_nat i) /\ nth_error (nodes O t) i = Some n /\ split_feature O n = -1 /\
        blocks O t = b :: rest /\ holds b h /\ added b x l cs /\ train_result t x l i n b rest cs (train t x (Z.of_nat l))
    else train t x (Z.of_nat l) = Undef SignedOverflow.
  Proof.
    intros dl t h x l [W [Dl [b [rest [Eb Hb]]]]] Lx Hll. destruct (sort_ok t x W Lx) as [i [n [Es [En Lf]]]].
    unfold Hoeffding_Model.train. rewrite Es. cbn [bind].
    pose proof W as [Sz [Bp [L1 [Rm Wn]]]]. destruct (Wn i n En) as [Ll [Lu _]]. destruct (holds_cells b h Hb) as [C0 Cr].
    pose proof Hb as [G [C _]].
    pose proof (train_node_ok t i n b rest x l Sz En Lf Ll Lu Eb G Lx Hll C0 Cr) as T. rewrite C in T.
    destruct (size_of h <? 2147483647); [|rewrite T; reflexivity].
    destruct T as [cs [Ad Et]]. exists i, n, b, rest, cs. repeat (split; [assumption || reflexivity|]).
    rewrite Et. cbn [bind]. unfold train_result, decision. destruct (splits (delta O t) b cs); [|reflexivity].
    set (f := recovered (fst (winners (mean b cs)))). set (v := nth (fst (winners (mean b cs))) (limits O b) zero).
    assert (Hff : (f < fcn)%nat) by apply recovered_range.
    set (t1 := with_nodes t (upd (nodes O t) i (grown n x)) (next_block b cs :: rest)).
    assert (Hi : (i < length (nodes O t))%nat) by (apply nth_error_Some; congruence).
    destruct (grown_boxes n x) as [B1 B2].
    rewrite (split_ok t1 i (grown n x) (next_block b cs) rest f v); [|exact Sz|exact Bp| |exact Lf|exact B1|exact B2|reflexivity|exact Hff].
    2:{ cbn [nodes with_nodes t1]. now apply nth_error_upd_same. }
    cbn [nodes with_nodes t1]. rewrite upd_length, upd_upd. destruct (room (2 + length (nodes O t))); [|reflexivity]. cbn [bind].
    rewrite (rdN_nth _ _ _ zero) by lia. cbn [bind].
    set (len := length (nodes O t)). set (m := grown n x) in *.
    rewrite (rdN _ _ i (inner m f v len)) by (apply nth_error_app_l; now apply nth_error_upd_same). cbn [bind child_left child_right inner].
    set (left := nle O (nth f x zero) v).
    pose proof (split_block_holds m f v) as Hsb. destruct (holds_cells _ _ Hsb) as [C0' Cr'].
    match goal with |- context [train_node O log_ log2_ fc lz ?tt2 _ _ _] => set (t2 := tt2) end.
    replace (if left then Z.of_nat (S len) else Z.of_nat len) with (Z.of_nat (if left then S len else len)) by (now destruct left).
    assert (Ej : nth_error (nodes O t2) (if left then S len else len) = Some (if left then left_of m f v else right_of m f v)).
    { cbn [nodes with_nodes t2]. assert (Lu' : length (upd (nodes O t) i (inner m f v len)) = len) by (now rewrite upd_length).
      rewrite nth_error_app2 by (rewrite Lu'; destruct left; lia). rewrite Lu'. destruct left.
      - replace (S len - len)%nat with 1%nat by lia. reflexivity.
      - rewrite Nat.sub_diag. reflexivity. }
    assert (Q : split_feature O (if left then left_of m f v else right_of m f v) = -1 /\
      length (l_box O (if left then left_of m f v else right_of m f v)) = fcn /\ length (u_box O (if left then left_of m f v else right_of m f v)) = fcn).
    { destruct left; cbn [split_feature l_box u_box left_of right_of]; rewrite ?upd_length; auto. }
    destruct Q as [Q1 [Q2 Q3]].
    pose proof (train_node_ok t2 _ _ (split_block m f v) rest x l Sz Ej Q1 Q2 Q3 eq_refl (proj1 Hsb) Lx Hll C0' Cr') as T2.
    cbn [count split_block] in T2. change (0 <? 2147483647) with true in T2. cbn iota in T2. destruct T2 as [cs' [Ad' Et']]. rewrite Et'. cbn [bind].
    exists cs'. split; [exact Ad'|]. reflexivity.
  Qed.

  Lemma room_spec : forall n, room n = true <-> Z.of_nat n * node_size <= max_size - block_bytes.
  Proof. clear. intros. unfold room. apply Z.leb_le. Qed.

  Lemma node_ok_mono : forall len len' i n, (len <= len')%nat -> node_ok len i n -> node_ok len' i n.
  Proof.
    clear. intros len len' i n H [A [B C]]. split; [exact A|]. split; [exact B|]. destruct C as [C|[f [cl [cr [v [C1 [C2 [C3 [C4 [C5 [C6 C7]]]]]]]]]]]; [now left|].
    right. exists f, cl, cr, v. repeat (split; [assumption|]). lia.
  Qed.
  (** The tree after [train]. *)
  Lemma train_remembers : forall dl t h x l t' r, remembers dl t h -> length x = fcn -> (l < lc)%nat -> train t x (Z.of_nat l) = Ok (t', r) ->
    (length (nodes O t') = length (nodes O t) /\ remembers dl t' (h ++ [mkPoint O x (Z.of_nat l) (limits_of O t')])) \/
    (length (nodes O t') = (2 + length (nodes O t))%nat /\ remembers dl t' [mkPoint O x (Z.of_nat l) (limits_of O t')]).
  Proof.
    intros dl t h x l t' r Rm Lx Hll Et. pose proof (train_ok dl t h x l Rm Lx Hll) as T. destruct (size_of h <? 2147483647); [|congruence].
    destruct T as [i [n [b [rest [cs [Es [En [Lf [Eb [Hb [Ad T]]]]]]]]]]]. pose proof Rm as [W [Dl _]].
    assert (Hi : (i < length (nodes O t))%nat) by (apply nth_error_Some; congruence).
    pose proof W as [Sz [Bp [L1 [Rmm Wn]]]].
    unfold train_result in T. destruct (decision (delta O t) b cs) as [[fz v]|].
    - set (f := recovered (fst (winners (mean b cs)))) in *. set (m := grown n x) in *. set (len := length (nodes O t)) in *.
      assert (Hff : (f < fcn)%nat) by apply recovered_range.
      destruct (room (2 + len)) eqn:R2; [|congruence]. destruct T as [cs' [Ad' T]]. right. rewrite Et in T.
      set (left := nle O (nth f x zero) v) in *. cbv zeta in T. 
      assert (Et' : t' = with_nodes t (upd (upd (nodes O t) i (inner m f v len) ++ [right_of m f v; left_of m f v])
                      (if left then S len else len) (grown (if left then left_of m f v else right_of m f v) x))
                    (next_block (split_block m f v) cs' :: rest)) by congruence.
      clear T. assert (Ln : length (nodes O t') = (2 + len)%nat).
      { rewrite Et'. cbn [nodes with_nodes]. rewrite upd_length, app_length, upd_length. cbn. fold len. lia. }
      split; [exact Ln|]. split; [|split].
      + split; [rewrite Et'; exact Sz|]. split; [rewrite Et'; exact Bp|]. rewrite Ln. split; [lia|]. split; [now apply room_spec|].
        rewrite Et'. cbn [nodes with_nodes]. intros j nj Ej. destruct (grown_boxes n x) as [B1 B2]. fold m in B1, B2.
        assert (LR : node_ok (2 + len) j (left_of m f v) /\ node_ok (2 + len) j (right_of m f v)).
        { split; (split; [cbn [left_of right_of l_box u_box]; rewrite ?upd_length; assumption|]; split; [cbn [left_of right_of l_box u_box]; rewrite ?upd_length; assumption|now left]). }
        rewrite nth_error_upd in Ej. destruct (Nat.eqb_spec (if left then S len else len) j) as [Ejj|Nj].
        * destruct (Nat.ltb _ _); [|discriminate]. injection Ej as <-. apply node_ok_grown. destruct left; apply LR.
        * destruct (Nat.lt_ge_cases j len) as [J|J].
          -- rewrite nth_error_app1 in Ej by (rewrite upd_length; exact J). rewrite nth_error_upd in Ej. destruct (Nat.eqb_spec i j) as [<-|N].
             ++ destruct (Nat.ltb _ _); [|discriminate]. injection Ej as <-. split; [exact B1|]. split; [exact B2|]. right.
                exists f, (S len), len, v. cbn [split_feature split_value child_left child_right inner]. repeat (split; [reflexivity || exact Hff|]). fold len in Hi. lia.
             ++ apply node_ok_mono with len; [lia|]. now apply Wn.
          -- rewrite nth_error_app2 in Ej by (rewrite upd_length; exact J). rewrite upd_length in Ej. fold len in Ej.
             destruct (j - len)%nat as [|[|k]]; cbn [nth_error] in Ej; [| |destruct k; discriminate]; injection Ej as <-; apply LR.
      + rewrite Et'. exact Dl.
      + exists (next_block (split_block m f v) cs'), rest. split; [rewrite Et'; reflexivity|].
        pose proof (holds_added _ [] x l cs' (split_block_holds m f v) Hll Ad') as H. rewrite Et'. exact H.
    - left. assert (Et' : t' = with_nodes t (upd (nodes O t) i (grown n x)) (next_block b cs :: rest)) by congruence. clear T.
      split; [rewrite Et'; cbn [nodes with_nodes]; apply upd_length|]. split; [|split].
      + rewrite Et'. apply wf_with; [exact W|apply upd_length|]. rewrite upd_length. intros j nj Ej. rewrite nth_error_upd in Ej.
        destruct (Nat.eqb_spec i j) as [<-|N]; [|now apply Wn]. destruct (Nat.ltb _ _); [|discriminate]. injection Ej as <-. apply node_ok_grown. now apply Wn.
      + rewrite Et'. exact Dl.
      + exists (next_block b cs), rest. split; [rewrite Et'; reflexivity|]. rewrite Et'. now apply holds_added.
  Qed.

  (** ** A new tree, and new limits *)
  Lemma copy_sizes : forZ (Z.to_nat fc) 0 (fun i '(fs, sum) => do s <- rd sizes i; Ok (fs ++ [s], sum + s)) ([], 0) = Ok (sizes, Z.of_nat bins).
  Proof.
    clear. rewrite Nat2Z.id.
    match goal with |- forZ fcn 0 ?bd ?s = _ => destruct (forN _ (fun k '(fs, su) => fs = map (fun i => Z.of_nat (size i)) (seq 0 k) /\ su = Z.of_nat (start k)) bd fcn 0 s) as [[fs su] [E [-> ->]]] end.
    - split; reflexivity.
    - intros k [fs su] Hk [-> ->]. rewrite Z.add_0_l, rd_sizes by exact Hk. cbn [bind]. eexists. split; [reflexivity|]. split; [now rewrite seq_S, map_app|].
      cbn [Hoeffding_Spec.start]. lia.
    - rewrite E. do 2 f_equal. rewrite <- (map_nth_seq nat 0%nat sz) at 2. rewrite map_map. reflexivity.
  Qed.
  Lemma init_ok : forall dl, tree_init O infinity fc lz max_size node_size dl sizes =
    if room 1 then Ok (mkTree O [fresh] (empty_block :: repeat empty_block (Nat.pred (Z.to_nat (max_size / block_bytes)))) max_size dl sizes (Z.of_nat bins))
    else Undef NullDeref.
  Proof.
    intros dl. unfold tree_init. rewrite copy_sizes. cbn [bind].
    pose proof bytes_pos as B. destruct (room 1) eqn:R.
    - assert (1 <= max_size / block_bytes). { apply room_spec in R. apply Z.div_le_lower_bound; lia. }
      destruct (Z.to_nat (max_size / block_bytes)) as [|k] eqn:K; [lia|]. cbn [repeat Nat.pred].
      rewrite (new_node_ok _ empty_block (repeat empty_block k)) by (try (split; reflexivity); reflexivity). cbn [nodes length]. rewrite R. reflexivity.
    - unfold new_node. rewrite allocate_ok by (try (split; reflexivity); reflexivity). cbn [nodes length]. rewrite R. reflexivity.
  Qed.
  Lemma init_remembers : forall dl t, tree_init O infinity fc lz max_size node_size dl sizes = Ok t -> remembers dl t [] /\ length (nodes O t) = 1%nat.
  Proof.
    intros dl t E. rewrite init_ok in E. destruct (room 1) eqn:R; [|discriminate].
    assert (Et : t = mkTree O [fresh] (empty_block :: repeat empty_block (Nat.pred (Z.to_nat (max_size / block_bytes)))) max_size dl sizes (Z.of_nat bins)) by congruence.
    subst t. clear E. split; [|reflexivity]. split; [|split; [reflexivity|]].
    - split; [split; reflexivity|]. split; [reflexivity|]. cbn [nodes length]. split; [lia|]. split; [now apply room_spec|].
      intros [|[|i]] n E; cbn in E; try discriminate. injection E as <-. split; [cbn; now rewrite map_length, repeat_length|]. split; [apply repeat_length|now left].
    - eexists _, _. split; [reflexivity|]. apply holds_empty; [apply zero_block_good|reflexivity|reflexivity].
  Qed.
  Lemma set_limits_ok : forall dl t h new, remembers dl t h -> length new = cands ->
    exists n b rest, nth_error (nodes O t) 0 = Some n /\ blocks O t = b :: rest /\ holds b h /\
    set_limits O fc t new = if is_leaf O n then Ok (with_nodes t (nodes O t) (mkBlock O (count O b) new (info_sum O b) (counters O b) :: rest)) else Undef OutOfBounds.
  Proof.
    intros dl t h new [W [Dl [b [rest [Eb Hb]]]]] Ln. pose proof W as [Sz [Bp [L1 [Rm Wn]]]].
    destruct (nth_error (nodes O t) 0) as [n|] eqn:En; [|apply nth_error_None in En; lia].
    exists n, b, rest. split; [reflexivity|]. split; [exact Eb|]. split; [exact Hb|]. unfold set_limits. change 0 with (Z.of_nat 0) at 1. rewrite (rdN _ _ _ n) by exact En. cbn [bind].
    unfold is_leaf, get_block. destruct (Wn _ _ En) as [_ [_ [Lf|[f [cl [cr [v [A [B _]]]]]]]]].
    - rewrite Lf. change (- -1 - 1) with (Z.of_nat 0). rewrite (rdN _ _ _ b) by (now rewrite Eb). cbn [bind]. change (-1 <? 0) with true. cbn iota.
      rewrite (proj2 Sz), bins_cands, Nat2Z.id. destruct Hb as [[G1 _] _].
      match goal with |- bind (forZ cands 0 ?bd ?s) _ = _ => destruct (forN _ (fun k ls => length ls = cands /\ forall j, (j < k)%nat -> nth j ls zero = nth j new zero) bd cands 0 s) as [ls [E [L I]]] end.
      + split; [exact G1|]. intros; lia.
      + intros k ls Hk [L I]. rewrite Z.add_0_l, (rdN_nth _ _ _ zero) by lia. cbn [bind]. rewrite wrN by lia. eexists. split; [reflexivity|]. split; [now rewrite upd_length|].
        intros j Hj. rewrite nth_upd by lia. destruct (Nat.eqb_spec k j) as [->|N]; [reflexivity|]. apply I. lia.
      + rewrite E. cbn [bind]. unfold set_block. rewrite Eb. change (- -1 - 1) with (Z.of_nat 0). rewrite wrN by (cbn; lia). cbn [bind upd].
        unfold with_nodes. assert (ls = new) as -> by (apply (nth_ext _ _ zero zero); [congruence|]; intros j Hj; apply I; lia). reflexivity.
    - rewrite B. rewrite rd_oob by lia. destruct (Z.ltb_spec (Z.of_nat f) 0); [lia|]. reflexivity.
  Qed.
  Lemma set_limits_remembers : forall dl t h new t', remembers dl t h -> length new = cands -> set_limits O fc t new = Ok t' ->
    remembers dl t' h /\ nodes O t' = nodes O t.
  Proof.
    intros dl t h new t' R Ln E. destruct (set_limits_ok dl t h new R Ln) as [n [b [rest [En [Eb [Hb Q]]]]]]. rewrite E in Q.
    destruct (is_leaf O n); [|discriminate]. assert (t' = with_nodes t (nodes O t) (mkBlock O (count O b) new (info_sum O b) (counters O b) :: rest)) as -> by congruence.
    split; [|reflexivity]. destruct R as [W [Dl _]]. split; [apply wf_with; [exact W|reflexivity|]; apply W|]. split; [exact Dl|].
    eexists _, rest. split; [reflexivity|]. destruct Hb as [[G1 [G2 G3]] [C [P H]]]. split; [split; [exact Ln|split; assumption]|]. split; [exact C|]. split; [exact P|exact H].
  Qed.

  Local Notation reached := (reached O sz log_ log2_ infinity lz max_size node_size).
  Lemma reached_remembers : forall dl t h, reached dl t h -> remembers dl t h.
  Proof.
    intros dl t h R. induction R as [t E|t h new t' R IH Ln E|t h x l t' r R IH Lx Hll E Eq|t h x l t' r R IH Lx Hll E Ne].
    - now apply init_remembers.
    - apply (set_limits_remembers dl t h new t' IH); [|exact E]. rewrite Ln. destruct IH as [[[_ Sz] _] _]. rewrite Sz, bins_cands. apply Nat2Z.id.
    - replace l with (Z.of_nat (Z.to_nat l)) in * by lia. destruct (train_remembers dl t h x (Z.to_nat l) t' r IH Lx ltac:(lia) E) as [[_ H]|[H _]]; [exact H|lia].
    - replace l with (Z.of_nat (Z.to_nat l)) in * by lia. destruct (train_remembers dl t h x (Z.to_nat l) t' r IH Lx ltac:(lia) E) as [[H _]|[_ H]]; [lia|exact H].
  Qed.

  (** ** Predicting *)
  Definition label_counts (cs : list (list Z)) : list (num O) := map (first_counts cs) (seq 0 lc).
  Definition scores (cs : list (list Z)) : list (num O) := map (fun c => ndiv O c (nsumf (first_counts cs) lc)) (label_counts cs).
  Lemma predict_node_ok : forall t i n b rest, sized t -> nth_error (nodes O t) i = Some n -> split_feature O n = -1 -> blocks O t = b :: rest -> good b ->
    predict_node O lz t (Z.of_nat i) = Ok (scores (counters O b)).
  Proof.
    intros t i n b rest Sz En Lf Eb [_ [_ G]]. unfold predict_node. rewrite (rdN _ _ _ n) by exact En. cbn [bind]. unfold get_block. rewrite Lf, Eb.
    change (- -1 - 1) with (Z.of_nat 0). rewrite (rdN _ _ _ b) by reflexivity. cbn [bind]. rewrite (proj1 Sz).
    change (rd sizes 0) with (rd sizes (Z.of_nat 0)). rewrite rd_sizes by lia. cbn [bind]. rewrite !Nat2Z.id.
    match goal with |- bind (forZ lc 0 ?bd ?s) _ = _ =>
      destruct (forN _ (fun k '(c, su) => c = map (first_counts (counters O b)) (seq 0 k) /\ su = nsumf (first_counts (counters O b)) k) bd lc 0 s) as [[c su] [E [-> ->]]] end.
    - split; reflexivity.
    - intros k [c su] Hk [-> ->]. rewrite Z.add_0_l, rd_row by auto. cbn [bind]. rewrite first_loop by auto. cbn [bind]. eexists. split; [reflexivity|].
      split; [now rewrite seq_S, map_app|now rewrite nsumf_S].
    - rewrite E. reflexivity.
  Qed.
  Fixpoint arg_max (p : list (num O)) (n : nat) : nat :=
    match n with Datatypes.O => 0%nat | S n => let b := arg_max p n in if nlt O (nth b p zero) (nth (S n) p zero) then S n else b end.
  Lemma arg_max_le : forall p n, (arg_max p n <= n)%nat.
  Proof. clear. induction n as [|n IH]; cbn [arg_max]; [lia|]. destruct (nlt O _ _); lia. Qed.
  Lemma predict_ok : forall dl t h x, remembers dl t h -> length x = fcn -> exists b rest, blocks O t = b :: rest /\ holds b h /\
    predict O lz max_size node_size t x = Ok (Z.of_nat (arg_max (scores (counters O b)) (lc - 1)), scores (counters O b)).
  Proof.
    intros dl t h x [W [_ [b [rest [Eb Hb]]]]] Lx. exists b, rest. split; [exact Eb|]. split; [exact Hb|].
    destruct (sort_ok t x W Lx) as [i [n [Es [En Lf]]]]. unfold predict. rewrite Es. cbn [bind].
    rewrite (predict_node_ok t i n b rest) by (auto; try apply W; apply Hb). cbn [bind].
    replace (Z.to_nat (lz - 1)) with (lc - 1)%nat by lia.
    match goal with |- bind (forZ _ 1 ?bd ?s) _ = _ => destruct (forN _ (fun k m => m = Z.of_nat (arg_max (scores (counters O b)) k)) bd (lc - 1)%nat 1 s) as [m [E ->]] end.
    - reflexivity.
    - intros k m Hk ->. pose proof (arg_max_le (scores (counters O b)) k) as A.
      assert (Lp : length (scores (counters O b)) = lc) by (unfold scores, label_counts; now rewrite !map_length, seq_length).
      replace (1 + Z.of_nat k) with (Z.of_nat (S k)) by lia. rewrite !(rdN_nth _ _ _ zero) by lia. cbn [bind]. eexists. split; [reflexivity|].
      cbn [arg_max]. destruct (nlt O _ _); reflexivity.
    - rewrite E. reflexivity.
  Qed.
End Tree.
