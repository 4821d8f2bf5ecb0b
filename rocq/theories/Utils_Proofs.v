(** * Proofs about the utilities *)
From Coq Require Import ZArith QArith Qround List Bool Lia Reals Lra Permutation.
From Flocq Require Import Core BinarySingleNaN.
From Verif Require Import CppBase CppFacts Dbl DblFacts NumOps NumFacts Reservoir_Spec Reservoir_Prob
  Metrics_Proofs Utils_Model Utils_Spec.
Import ListNotations.
Local Open Scope Z_scope.

(** ** shuffle on indexes *)
Definition swap {A} (a : list A) (k j : nat) : list A :=
  match nth_error a k, nth_error a j with
  | Some x, Some y => upd (upd a k y) j x
  | _, _ => a
  end.

Fixpoint shuf {A} (k : nat) (js : list nat) (a : list A) : list A :=
  match k, js with
  | S k', j :: js' => shuf k' js' (swap a k j)
  | _, _ => a
  end.

(** [js] are swap indexes for the loop from [k]. *)
Fixpoint good_js (k : nat) (js : list nat) : Prop :=
  match k, js with
  | O, [] => True
  | S k', j :: js' => (j < k)%nat /\ good_js k' js'
  | _, _ => False
  end.

Lemma swap_length : forall A (a : list A) k j, length (swap a k j) = length a.
Proof. intros. unfold swap. destruct (nth_error a k), (nth_error a j); auto. now rewrite !upd_length. Qed.

Lemma swap_nth : forall A (a : list A) k j p, (j < k)%nat -> (k < length a)%nat ->
  nth_error (swap a k j) p =
  if Nat.eqb p k then nth_error a j else if Nat.eqb p j then nth_error a k else nth_error a p.
Proof.
  intros A a k j p Hj Hk. unfold swap.
  destruct (nth_error a k) as [x|] eqn:Ek; [|apply nth_error_None in Ek; lia].
  destruct (nth_error a j) as [y|] eqn:Ej; [|apply nth_error_None in Ej; lia].
  rewrite !nth_error_upd, upd_length.
  rewrite (proj2 (Nat.ltb_lt j (length a))) by lia. rewrite (proj2 (Nat.ltb_lt k (length a))) by lia.
  destruct (Nat.eqb_spec j p), (Nat.eqb_spec k p), (Nat.eqb_spec p k), (Nat.eqb_spec p j); try lia; auto.
Qed.

Lemma upd_split : forall A (l1 l2 : list A) x y, upd (l1 ++ x :: l2) (length l1) y = l1 ++ y :: l2.
Proof. intros. replace (length l1) with (length l1 + 0)%nat by lia. now rewrite upd_app_r. Qed.

Lemma swap_perm : forall A (a : list A) k j, (j < k)%nat -> (k < length a)%nat -> Permutation a (swap a k j).
Proof.
  intros A a k j Hj Hk.
  destruct (nth_error a j) as [y|] eqn:Ej; [|apply nth_error_None in Ej; lia].
  destruct (nth_error_split _ _ Ej) as [l1 [r [Ea L1]]]. subst a.
  rewrite app_length in Hk. cbn [length] in Hk.
  destruct (nth_error r (k - j - 1)) as [x|] eqn:Ek; [|apply nth_error_None in Ek; lia].
  destruct (nth_error_split _ _ Ek) as [l2 [l3 [Er L2]]]. subst r.
  assert (E : swap (l1 ++ y :: l2 ++ x :: l3) k j = l1 ++ x :: l2 ++ y :: l3).
  { unfold swap. rewrite Ej. rewrite nth_error_app2 by lia.
    replace (k - length l1)%nat with (S (length l2)) by lia. cbn [nth_error].
    rewrite nth_error_app2, Nat.sub_diag by lia. cbn [nth_error].
    replace k with (length l1 + S (length l2))%nat by lia. rewrite upd_app_r. cbn [upd]. rewrite upd_split.
    rewrite <- L1. now rewrite upd_split. }
  rewrite E. apply Permutation_app_head.
  transitivity (y :: x :: l2 ++ l3).
  - constructor. symmetry. apply Permutation_middle.
  - transitivity (x :: y :: l2 ++ l3); [constructor|]. constructor. apply Permutation_middle.
Qed.

Lemma shuf_perm : forall A k js (a : list A), good_js k js -> (k < length a)%nat -> Permutation a (shuf k js a).
Proof.
  induction k as [|k IH]; intros [|j js] a G H; cbn [shuf]; auto; try destruct G.
  transitivity (swap a (S k) j); [apply swap_perm; auto|]. apply IH; auto. rewrite swap_length. lia.
Qed.

Lemma shuf_length : forall A k js (a : list A), length (shuf k js a) = length a.
Proof. induction k as [|k IH]; intros [|j js] a; cbn [shuf]; auto. now rewrite IH, swap_length. Qed.

(** Positions above [k] are final. *)
Lemma shuf_above : forall A k js (a : list A) p, good_js k js -> (k < length a)%nat -> (k < p)%nat ->
  nth_error (shuf k js a) p = nth_error a p.
Proof.
  induction k as [|k IH]; intros [|j js] a p G H Hp; cbn [shuf]; auto. destruct G as [Gj G].
  rewrite IH; auto; [|rewrite swap_length; lia|lia]. rewrite swap_nth by lia.
  destruct (Nat.eqb_spec p (S k)); [lia|]. destruct (Nat.eqb_spec p j); [lia|]. reflexivity.
Qed.

Lemma shuf_at : forall A k js j (a : list A), good_js (S k) (j :: js) -> (S k < length a)%nat ->
  nth_error (shuf (S k) (j :: js) a) (S k) = nth_error a j.
Proof.
  intros A k js j a [Gj G] H. cbn [shuf]. rewrite shuf_above; auto; [|rewrite swap_length; lia].
  rewrite swap_nth by lia. now rewrite Nat.eqb_refl.
Qed.

Lemma shuf_moves : forall A (a : list A) k js b,
  (1 <= k)%nat -> good_js k js -> (k < length b)%nat -> length a = length b ->
  (forall p q x, nth_error b p = Some x -> nth_error a q = Some x -> (q <= k)%nat -> p = q \/ (k < p)%nat) ->
  (forall p x, (k < p)%nat -> nth_error a p = Some x -> nth_error b p <> Some x) ->
  forall p x, nth_error a p = Some x -> nth_error (shuf k js b) p <> Some x.
Proof.
  intros A a. induction k as [|k IH]; intros [|j js] b H1 G Hk Hl I1 I2 p x Hp; try (destruct G; fail); [lia|].
  destruct G as [Gj G]. cbn [shuf].
  assert (S1 : forall p q x, nth_error (swap b (S k) j) p = Some x -> nth_error a q = Some x -> (q <= k)%nat -> p = q \/ (k < p)%nat).
  { intros p' q y E1 E2 Hq. rewrite swap_nth in E1 by lia.
    destruct (Nat.eqb_spec p' (S k)); [lia|]. destruct (Nat.eqb_spec p' j) as [->|].
    - destruct (I1 _ _ _ E1 E2); lia.
    - destruct (I1 _ _ _ E1 E2); lia. }
  assert (S2 : forall p x, (k < p)%nat -> nth_error a p = Some x -> nth_error (swap b (S k) j) p <> Some x).
  { intros p' y Hp' E2 E1. rewrite swap_nth in E1 by lia.
    destruct (Nat.eqb_spec p' (S k)) as [->|].
    - destruct (I1 _ _ _ E1 E2); lia.
    - destruct (Nat.eqb_spec p' j); [lia|]. apply (I2 p' y); auto. lia. }
  destruct k as [|k].
  - destruct js; [|destruct G]. cbn [shuf]. destruct p as [|p].
    + intros E. rewrite swap_nth in E by lia. assert (j = 0)%nat by lia. subst j. cbn [Nat.eqb] in E.
      destruct (I1 _ _ _ E Hp); lia.
    + apply S2; auto. lia.
  - apply IH; auto; try lia; rewrite swap_length; lia.
Qed.

Lemma shuf_deranged : forall A (a : list A) js, NoDup a -> (2 <= length a)%nat -> good_js (length a - 1) js ->
  deranged a (shuf (length a - 1) js a).
Proof.
  intros A a js Nd H G. split; [now rewrite shuf_length|].
  apply shuf_moves; auto; try lia.
  - intros p q x E1 E2 _. left. rewrite NoDup_nth_error in Nd. apply Nd; [|congruence].
    apply nth_error_Some. congruence.
  - intros p x Hp E. assert (nth_error a p <> None) by congruence. apply nth_error_Some in H0. lia.
Qed.

(** ** The loop of the model *)
Lemma shuffle_step : forall O A k d ds (a : list A) j,
  n2int O (nmul O d (nofZ O (Z.of_nat (S k)))) = Ok (Z.of_nat j) -> (j < S k)%nat -> (S k < length a)%nat ->
  shuffle_from O (S k) (d :: ds) a = shuffle_from O k ds (swap a (S k) j).
Proof.
  intros O A k d ds a j Hi Hj Hk. cbn [shuffle_from].
  destruct (nth_error a (S k)) as [x|] eqn:Ek; [|apply nth_error_None in Ek; lia].
  destruct (nth_error a j) as [y|] eqn:Ej; [|apply nth_error_None in Ej; lia].
  assert (R1 : rd a (Z.of_nat (S k)) = Ok x) by (apply rd_ok_iff; split; [lia|now rewrite Nat2Z.id]).
  assert (R2 : rd a (Z.of_nat j) = Ok y) by (apply rd_ok_iff; split; [lia|now rewrite Nat2Z.id]).
  rewrite R1. cbn [bind]. rewrite Hi. cbn [bind]. rewrite R2. cbn [bind].
  rewrite wr_ok by lia. cbn [bind]. rewrite wr_ok by (rewrite upd_length; lia). cbn [bind].
  rewrite !Nat2Z.id. unfold swap. rewrite Ek, Ej. reflexivity.
Qed.

Lemma trunc_unit_open : forall r n, unit_open r -> 1 <= n <= 2147483647 ->
  exists z, d2int (dmul r (dofZ n)) = Ok z /\ 0 <= z < n.
Proof.
  intros r n [F V] Hn. destruct (dmul_unit r n F) as [A [B C]]; [lra|lia|].
  pose proof (dmul_unit_lt r n F V ltac:(lia)) as D. rewrite <- A in C, D.
  assert (T : 0 <= Ztrunc (B2R (dmul r (dofZ n))) < n).
  { rewrite Ztrunc_floor by lra. apply Zfloor_range_lt; lra. }
  exists (Ztrunc (B2R (dmul r (dofZ n)))). split; [apply d2int_ok; auto; lia|exact T].
Qed.

Lemma shuffle_dops : forall A k ds (a : list A), (k < length a)%nat -> Z.of_nat k <= 2147483647 ->
  length ds = k -> (forall d, In d ds -> unit_open d) ->
  exists js, good_js k js /\ shuffle_from dops k ds a = Ok (shuf k js a).
Proof.
  induction k as [|k IH]; intros [|d ds] a Hk Hm Hl Hv; try discriminate.
  - exists []. split; [exact I|reflexivity].
  - destruct (trunc_unit_open d (Z.of_nat (S k))) as [z [Hz Hr]]; [apply Hv; now left|lia|].
    assert (Ez : z = Z.of_nat (Z.to_nat z)) by lia. rewrite Ez in Hz.
    destruct (IH ds (swap a (S k) (Z.to_nat z))) as [js [G E]].
    + rewrite swap_length. lia.
    + lia.
    + cbn in Hl. lia.
    + intros d' Hd. apply Hv. now right.
    + exists (Z.to_nat z :: js). split; [split; [lia|exact G]|].
      etransitivity; [apply (shuffle_step dops A k d ds a (Z.to_nat z)); [exact Hz|lia|lia]|exact E].
Qed.

(** ** Distribution *)
Section Dist.
  Variable N : positive.

  Lemma trunc_grid : forall r n, In r (grid N) -> 1 <= n <= 2147483647 ->
    n2int qops (nmul qops r (nofZ qops n)) = Ok (Qfloor (r * inject_Z n)) /\ 0 <= Qfloor (r * inject_Z n) < n.
  Proof.
    intros r n Hr Hn. unfold grid in Hr. apply in_map_iff in Hr. destruct Hr as [i [<- Hi]]. apply in_seq in Hi.
    cbn [n2int nmul nofZ qops].
    assert (B : 0 <= Qfloor ((Z.of_nat i # N) * inject_Z n) < n).
    { unfold Qfloor, Qmult, inject_Z. cbn [Qnum Qden]. rewrite Pos.mul_1_r. split.
      - apply Z.div_pos; lia.
      - apply Z.div_lt_upper_bound; [lia|]. nia. }
    split; [|exact B].
    assert (T : Qtrunc ((Z.of_nat i # N) * inject_Z n) = Qfloor ((Z.of_nat i # N) * inject_Z n)).
    { unfold Qtrunc, Qfloor, Qmult, inject_Z. cbn [Qnum Qden]. apply Z.quot_div_nonneg; lia. }
    rewrite T. unfold in_int. destruct (Z.leb_spec (-2147483648) (Qfloor ((Z.of_nat i # N) * inject_Z n))); [|lia].
    destruct (Z.leb_spec (Qfloor ((Z.of_nat i # N) * inject_Z n)) 2147483647); [reflexivity|lia].
  Qed.

  Lemma draws_len : forall m, Z.of_nat (length (draws N m)) = Z.pos N ^ Z.of_nat m.
  Proof.
    induction m as [|m IH]; [reflexivity|]. cbn [draws].
    assert (H : forall l : list Q, Z.of_nat (length (flat_map (fun d => map (cons d) (draws N m)) l)) =
      Z.of_nat (length l) * Z.of_nat (length (draws N m))).
    { induction l as [|d l IHl]; [reflexivity|]. cbn [flat_map length]. rewrite app_length, map_length. nia. }
    rewrite H, grid_len, IH, Nat2Z.inj_succ, Z.pow_succ_r by lia. lia.
  Qed.

  Lemma draws_spec : forall m ds, In ds (draws N m) -> length ds = m /\ forall d, In d ds -> In d (grid N).
  Proof.
    induction m as [|m IH]; intros ds H.
    - destruct H as [<-|[]]. split; [reflexivity|]. intros d [].
    - cbn [draws] in H. apply in_flat_map in H. destruct H as [d [Hd H]]. apply in_map_iff in H.
      destruct H as [ds' [<- H]]. destruct (IH ds' H) as [L V]. cbn [length]. split; [lia|].
      intros x [<-|Hx]; auto.
  Qed.

  Lemma count_flat : forall (P : list Q -> bool) (f : Q -> bool) (c : Z) (gs : list Q) (Ls : list (list Q)),
    (forall d, In d gs -> count_if (fun ds => P (d :: ds)) Ls = if f d then c else 0) ->
    count_if P (flat_map (fun d => map (cons d) Ls) gs) = count_if f gs * c.
  Proof.
    intros P f c gs Ls. induction gs as [|d gs IH]; intros H; [reflexivity|].
    cbn [flat_map]. rewrite count_app, count_map, count_cons, IH by (intros; apply H; now right).
    rewrite (H d) by now left. destruct (f d); lia.
  Qed.

  Definition hits (k : nat) (b T : list Z) (ds : list Q) : bool :=
    match shuffle_from qops k ds b with Ok c => same_array c T | _ => false end.

  Lemma hits_step : forall k (d : Q) (ds : list Q) b T j,
    n2int qops (nmul qops d (nofZ qops (Z.of_nat (S k)))) = Ok (Z.of_nat j) -> (j < S k)%nat -> (S k < length b)%nat ->
    hits (S k) b T (d :: ds) = hits k (swap b (S k) j) T ds.
  Proof.
    intros k d ds b T j H1 H2 H3. pose proof (shuffle_step qops Z k d ds b j H1 H2 H3) as E.
    exact (f_equal (fun r => match r with Ok c => same_array c T | _ => false end) E).
  Qed.

  Lemma shuffle_qops : forall k ds (a : list Z), (k < length a)%nat -> Z.of_nat k <= 2147483647 ->
    length ds = k -> (forall d, In d ds -> In d (grid N)) ->
    exists js, good_js k js /\ shuffle_from qops k ds a = Ok (shuf k js a).
  Proof.
    induction k as [|k IH]; intros [|d ds] a Hk Hm Hl Hv; try discriminate.
    - exists []. split; [exact I|reflexivity].
    - destruct (trunc_grid d (Z.of_nat (S k))) as [Hz Hr]; [apply Hv; now left|lia|].
      set (z := Qfloor (d * inject_Z (Z.of_nat (S k)))) in *.
      assert (Ez : z = Z.of_nat (Z.to_nat z)) by lia. rewrite Ez in Hz.
        destruct (IH ds (swap a (S k) (Z.to_nat z))) as [js [G E]].
      + rewrite swap_length. lia.
      + lia.
      + cbn in Hl. lia.
      + intros d' Hd. apply Hv. now right.
      + exists (Z.to_nat z :: js). split; [split; [lia|exact G]|].
        etransitivity; [apply (shuffle_step qops Z k d ds a (Z.to_nat z)); [exact Hz|lia|lia]|exact E].
  Qed.

  Lemma hits_dist : forall k b T, (k < length b)%nat -> Z.of_nat k <= 2147483647 -> NoDup b ->
    (forall i, 1 <= i <= Z.of_nat k -> (i | Z.pos N)) ->
    count_if (hits k b T) (draws N k) = 0 \/
    zfact k * count_if (hits k b T) (draws N k) = Z.of_nat (length (draws N k)).
  Proof.
    induction k as [|k IH]; intros b T Hk Hm Nd Hd.
    - cbn [draws]. unfold hits, count_if. cbn [filter shuffle_from]. destruct (same_array b T); cbn; auto.
    - destruct (in_dec Z.eq_dec (nth (S k) T 0) (firstn (S k) b)) as [Hin|Hout].
      + destruct (In_nth_error _ _ Hin) as [j Ej].
        assert (Hj : (j < S k)%nat).
        { assert (nth_error (firstn (S k) b) j <> None) by congruence. apply nth_error_Some in H.
          rewrite firstn_length in H. lia. }
        assert (Ej' : nth_error b j = Some (nth (S k) T 0)).
        { rewrite <- (firstn_skipn (S k) b), nth_error_app1; auto. rewrite firstn_length. lia. }
        set (b' := swap b (S k) j).
        assert (Nd' : NoDup b'). { eapply Permutation_NoDup; [apply swap_perm|exact Nd]; lia. }
        specialize (IH b' T). unfold b' in IH at 1. rewrite swap_length in IH.
        specialize (IH ltac:(lia) ltac:(lia) Nd' ltac:(intros; apply Hd; lia)).
        destruct (Hd (Z.of_nat (S k))) as [w Hw]; [lia|].
        assert (C : count_if (hits (S k) b T) (draws N (S k)) = w * count_if (hits k b' T) (draws N k)).
        { cbn [draws]. rewrite (count_flat _ (fun d => Qfloor (d * inject_Z (Z.of_nat (S k))) =? Z.of_nat j) (count_if (hits k b' T) (draws N k))).
          - f_equal. rewrite (slot_count N (fun z => z =? Z.of_nat j) (Z.of_nat (S k)) w) by lia.
            rewrite Nat2Z.id.
            assert (E1 : count_if (fun s => Z.of_nat s =? Z.of_nat j) (seq 0 (S k)) = 1); [|rewrite E1; lia].
            clear - Hj. replace (S k) with (j + (1 + (k - j)))%nat by lia. rewrite !seq_app, !count_app.
            rewrite (count_ext _ _ (fun _ => false) (seq 0 j)), (count_ext _ _ (fun _ => false) (seq (0 + j + 1) (k - j))).
            + rewrite !count_false. cbn [seq plus]. rewrite count_cons, Z.eqb_refl. reflexivity.
            + intros x Hx. apply in_seq in Hx. apply Z.eqb_neq. lia.
            + intros x Hx. apply in_seq in Hx. apply Z.eqb_neq. lia.
          - intros d Hdg. destruct (trunc_grid d (Z.of_nat (S k)) Hdg) as [Hz Hr]; [lia|].
            set (z := Qfloor (d * inject_Z (Z.of_nat (S k)))) in *.
            assert (Ez : z = Z.of_nat (Z.to_nat z)) by lia. rewrite Ez in Hz.
            destruct (Z.eqb_spec z (Z.of_nat j)) as [E|E].
            + apply count_ext. intros ds _.
              cbn beta. rewrite (hits_step k d ds b T (Z.to_nat z)) by (try exact Hz; lia).
              unfold b'. replace (Z.to_nat z) with j by lia. reflexivity.
            + rewrite (count_ext _ _ (fun _ => false)); [apply count_false|]. intros ds Hds.
              cbn beta. rewrite (hits_step k d ds b T (Z.to_nat z)) by (try exact Hz; lia). unfold hits.
              destruct (draws_spec k ds Hds) as [Ld Vd].
              destruct (shuffle_qops k ds (swap b (S k) (Z.to_nat z))) as [js [G Es]]; auto; [rewrite swap_length; lia|lia|].
              rewrite Es. unfold same_array. destruct (list_eq_dec _ _ _) as [C|C]; [|reflexivity]. exfalso.
              assert (A : nth_error T (S k) = nth_error b (Z.to_nat z)).
              { rewrite <- C. apply (shuf_at Z k js (Z.to_nat z) b); [split; [lia|exact G]|lia]. }
              destruct (nth_error b (Z.to_nat z)) as [v|] eqn:Ev; [|apply nth_error_None in Ev; lia].
              apply nth_error_nth with (d := 0) in A. rewrite A in Ej'.
              rewrite NoDup_nth_error in Nd. assert (Z.to_nat z = j); [|lia].
              apply Nd; [|congruence]. lia. }
        destruct IH as [IH|IH]; [left; rewrite C, IH; lia|right].
        rewrite C. cbn [zfact]. rewrite draws_len in *. rewrite Nat2Z.inj_succ, Z.pow_succ_r by lia. rewrite <- IH.
        rewrite Hw. rewrite !Nat2Z.inj_succ. ring.
      + left. rewrite (count_ext _ _ (fun _ => false)); [apply count_false|]. intros ds Hds. unfold hits.
        destruct (draws_spec (S k) ds Hds) as [Ld Vd].
        destruct (shuffle_qops (S k) ds b) as [js [G Es]]; auto.
        rewrite Es. unfold same_array. destruct (list_eq_dec _ _ _) as [C|C]; [|reflexivity]. exfalso.
        destruct js as [|j js]; [destruct G|].
        assert (A : nth_error T (S k) = nth_error b j) by (rewrite <- C; apply shuf_at; auto).
        destruct G as [Gj G].
        destruct (nth_error b j) as [v|] eqn:Ev; [|apply nth_error_None in Ev; lia].
        apply nth_error_nth with (d := 0) in A. apply Hout. rewrite A.
        apply nth_error_In with j. rewrite <- (firstn_skipn (S k) b) in Ev. rewrite nth_error_app1 in Ev; auto.
        rewrite firstn_length. lia.
  Qed.
End Dist.

(** ** Cumulative probabilities *)
Section Cumul.
  Variable O : ops.
  Variable w : list (num O).
  Variable sum : num O.

  Fixpoint cfun (j : nat) : num O :=
    match j with
    | Datatypes.O => ndiv O (nth 0 w (nofZ O 0)) sum
    | S j' => nadd O (cfun j') (ndiv O (nth j w (nofZ O 0)) sum)
    end.

  Lemma rd_nth : forall (l : list (num O)) i d, (i < length l)%nat -> rd l (Z.of_nat i) = Ok (nth i l d).
  Proof.
    intros l i d H. apply rd_ok_iff. split; [lia|]. rewrite Nat2Z.id. now apply nth_error_nth'.
  Qed.

  Lemma turn_loop : w <> [] ->
    exists p, (do v0 <- rd w 0;
      do values <- wr w 0 (ndiv O v0 sum);
      forZ (length w - 1) 1
      (fun i values =>
         do a <- rd values (i - 1);
         do b <- rd values i;
         wr values i (nadd O a (ndiv O b sum))) values) = Ok p /\ length p = length w /\
      forall j, (j < length w)%nat -> nth_error p j = Some (cfun j).
  Proof.
    intros Hw. assert (H0 : (0 < length w)%nat) by (destruct w; [congruence|cbn; lia]).
    change 0 with (Z.of_nat 0) at 1. rewrite (rd_nth w 0 (nofZ O 0)) by lia. cbn [bind].
    rewrite wr_ok by lia. cbn [bind]. change (Z.to_nat 0) with 0%nat.
    destruct (forZ_inv _ (fun i (vals : list (num O)) => length vals = length w /\
        (forall j, (Z.of_nat j < i) -> (j < length w)%nat -> nth_error vals j = Some (cfun j)) /\
        (forall j, i <= Z.of_nat j -> nth_error vals j = nth_error w j))
      (fun i values =>
         do a <- rd values (i - 1);
         do b <- rd values i;
         wr values i (nadd O a (ndiv O b sum))) (length w - 1) 1 (upd w 0 (ndiv O (nth 0 w (nofZ O 0)) sum)))
      as [p [H1 [H2 [H3 H4]]]].
    - rewrite upd_length. split; [reflexivity|]. split.
      + intros j Hj Hl. assert (j = 0)%nat by lia. subst. now rewrite nth_error_upd_same.
      + intros j Hj. apply nth_error_upd_other. lia.
    - intros i vals Hi [V1 [V2 V3]].
      assert (E : exists n, i = Z.of_nat (S n)) by (exists (Z.to_nat (i - 1)); lia). destruct E as [n ->].
      assert (A : rd vals (Z.of_nat (S n) - 1) = Ok (cfun n)).
      { apply rd_ok_iff. split; [lia|]. replace (Z.to_nat (Z.of_nat (S n) - 1)) with n by lia. apply V2; lia. }
      assert (B : rd vals (Z.of_nat (S n)) = Ok (nth (S n) w (nofZ O 0))).
      { apply rd_ok_iff. split; [lia|]. rewrite Nat2Z.id, V3 by lia. apply nth_error_nth'. lia. }
      rewrite A. cbn [bind]. rewrite B. cbn [bind]. rewrite wr_ok by lia. eexists. split; [reflexivity|].
      rewrite upd_length. split; [exact V1|]. rewrite Nat2Z.id. split.
      + intros j Hj Hl. rewrite nth_error_upd. destruct (Nat.eqb_spec (S n) j) as [<-|N].
        * rewrite (proj2 (Nat.ltb_lt (S n) (length vals))) by lia. reflexivity.
        * apply V2; lia.
      + intros j Hj. rewrite nth_error_upd_other by lia. apply V3. lia.
    - exists p. split; [exact H1|]. split; [exact H2|]. intros j Hj. apply H3; lia.
  Qed.
End Cumul.

Lemma sum_fold : forall O (w : list (num O)),
  forZ (length w) 0 (fun i s => do v <- rd w i; Ok (nadd O s v)) (nofZ O 0) = Ok (fold_left (nadd O) w (nofZ O 0)).
Proof.
  intros O w.
  destruct (forZ_inv _ (fun i s => s = fold_left (nadd O) (firstn (Z.to_nat i) w) (nofZ O 0))
    (fun i s => do v <- rd w i; Ok (nadd O s v)) (length w) 0 (nofZ O 0)) as [s [H1 H2]].
  - reflexivity.
  - intros i s Hi ->. rewrite <- (Z2Nat.id i) by lia. rewrite (rd_nth O w (Z.to_nat i) (nofZ O 0)) by lia.
    cbn [bind]. eexists. split; [reflexivity|]. replace (Z.to_nat (Z.of_nat (Z.to_nat i) + 1)) with (S (Z.to_nat i)) by lia.
    rewrite Nat2Z.id.
    assert (E : firstn (S (Z.to_nat i)) w = firstn (Z.to_nat i) w ++ [nth (Z.to_nat i) w (nofZ O 0)]).
    { clear - Hi. assert (H : (Z.to_nat i < length w)%nat) by lia. revert H. generalize (Z.to_nat i) as n. clear.
      induction w as [|x w IH]; intros [|n] H; cbn [length] in H; try lia; [reflexivity|].
      cbn [firstn nth app]. rewrite <- IH by lia. reflexivity. }
    rewrite E, fold_left_app. reflexivity.
  - rewrite H1, H2, Z.add_0_l, Nat2Z.id, firstn_all. reflexivity.
Qed.

Lemma turn_ok : forall O (w : list (num O)), w <> [] -> nlt O (nofZ O (-1)) (nofZ O 0) = true ->
  exists p, turn_array_into_probability O w (Z.of_nat (length w)) (nofZ O (-1)) = Ok p /\ length p = length w /\
    forall j, (j < length w)%nat -> nth_error p j = Some (cfun O w (fold_left (nadd O) w (nofZ O 0)) j).
Proof.
  intros O w Hw Hlt. unfold turn_array_into_probability. rewrite Hlt, Nat2Z.id, sum_fold. cbn [bind].
  now apply turn_loop.
Qed.

Lemma pick_ok : forall O u (p : list (num O)) n, Z.of_nat (length p) = n ->
  exists i, pick_from_distribution O u p n = Ok i /\ 0 <= i <= n /\
    (forall j x, (Z.of_nat j < i) -> nth_error p j = Some x -> nle O u x = false) /\
    (i < n -> exists x, nth_error p (Z.to_nat i) = Some x /\ nle O u x = true).
Proof.
  intros O u p n Hn. unfold pick_from_distribution.
  set (body := fun i => do p0 <- rd p i; if nle O u p0 then Ok (Some i) else Ok None).
  assert (Hb : forall j, 0 <= j < n -> exists x, rd p j = Ok x /\ nth_error p (Z.to_nat j) = Some x).
  { intros j Hj. destruct (rd_in_bounds _ p j) as [x Hx]; [lia|]. exists x. split; [exact Hx|]. now apply rd_ok_iff in Hx. }
  destruct (findZ_total _ body (Z.to_nat n) 0) as [[H1 H2]|[k [r [Hk [H1 [H2 H3]]]]]].
  - intros j Hj. destruct (Hb j) as [x [Hx _]]; [lia|]. unfold body. rewrite Hx. cbn [bind]. destruct (nle O u x); eauto.
  - rewrite H1. cbn [bind]. exists n. split; [reflexivity|]. split; [lia|]. split; [|lia].
    intros j x Hj Hx. specialize (H2 (Z.of_nat j) ltac:(lia)). unfold body in H2.
    assert (R : rd p (Z.of_nat j) = Ok x) by (apply rd_ok_iff; split; [lia|now rewrite Nat2Z.id]).
    rewrite R in H2. cbn [bind] in H2. destruct (nle O u x); [discriminate|reflexivity].
  - rewrite H3. cbn [bind]. destruct (Hb k) as [x [Hx Hx2]]; [lia|]. unfold body in H1. rewrite Hx in H1. cbn [bind] in H1.
    destruct (nle O u x) eqn:E; [|discriminate]. injection H1 as <-.
    exists k. split; [reflexivity|]. split; [lia|]. split; [|eauto].
    intros j y Hj Hy. specialize (H2 (Z.of_nat j) ltac:(lia)). unfold body in H2.
    assert (R : rd p (Z.of_nat j) = Ok y) by (apply rd_ok_iff; split; [lia|now rewrite Nat2Z.id]).
    rewrite R in H2. cbn [bind] in H2. destruct (nle O u y); [discriminate|reflexivity].
Qed.

(** Real arithmetic. *)
Lemma partial_S : forall w i, (i < length w)%nat -> partial_sum w (S i) = (partial_sum w i + nth i w 0)%R.
Proof.
  intros w i H. unfold partial_sum.
  assert (E : firstn (S i) w = firstn i w ++ [nth i w 0%R]).
  { revert i H. induction w as [|x w IH]; intros [|n] H; cbn [length] in H; try lia; [reflexivity|].
    cbn [firstn nth app]. rewrite <- IH by lia. reflexivity. }
  rewrite E, fold_left_app. reflexivity.
Qed.

Lemma cfun_R : forall (w : list R) s j, (j < length w)%nat -> s <> 0%R ->
  @eq R (cfun rops w s j) (partial_sum w (S j) / s)%R.
Proof.
  intros w s j H Hs. induction j as [|j IH].
  - rewrite partial_S by lia. change (nth 0 w 0 / s = (0 + nth 0 w 0) / s)%R. now rewrite Rplus_0_l.
  - cbn [cfun]. rewrite IH by lia. rewrite (partial_S w (S j)) by lia. change (partial_sum w (S j) / s + nth (S j) w 0 / s = (partial_sum w (S j) + nth (S j) w 0) / s)%R.
    field. exact Hs.
Qed.

Lemma pick_real : forall (w : list R) (u : R), Forall (fun x => 0 <= x)%R w ->
  (0 < partial_sum w (length w))%R -> (0 < u <= 1)%R ->
  exists p i, turn_array_into_probability rops w (Z.of_nat (length w)) (-1)%R = Ok p /\
    pick_from_distribution rops u p (Z.of_nat (length w)) = Ok i /\ 0 <= i < Z.of_nat (length w) /\
    (partial_sum w (Z.to_nat i) / partial_sum w (length w) < u <= partial_sum w (S (Z.to_nat i)) / partial_sum w (length w))%R /\
    (0 < nth (Z.to_nat i) w 0)%R.
Proof.
  intros w u Hw Hs Hu. set (s := partial_sum w (length w)) in *.
  assert (Ne : w <> []) by (intros ->; cbn in Hs; lra).
  destruct (turn_ok rops w Ne) as [p [P1 [P2 P3]]]. { cbn [nlt nofZ rops]. apply Rlt_bool_true. lra. }
  assert (Es : fold_left (nadd rops) w (nofZ rops 0) = s). { unfold s, partial_sum. now rewrite firstn_all. }
  rewrite Es in P3.
  destruct (pick_ok rops u p (Z.of_nat (length w))) as [i [Q1 [Q2 [Q3 Q4]]]]. { now rewrite P2. }
  change (num rops) with R in *.
  assert (Ln : (0 < length w)%nat) by (destruct w; [congruence|cbn; lia]).
  assert (Q5 : i < Z.of_nat (length w)).
  { destruct (Z.eq_dec i (Z.of_nat (length w))) as [E|E]; [|lia]. exfalso.
    specialize (Q3 (length w - 1)%nat _ ltac:(lia) (P3 (length w - 1)%nat ltac:(lia))).
    rewrite cfun_R in Q3 by (try lia; lra). cbn [nle rops] in Q3.
    replace (S (length w - 1)) with (length w) in Q3 by lia. fold s in Q3.
    unfold Rdiv in Q3. rewrite Rinv_r in Q3 by lra. rewrite Rle_bool_true in Q3 by lra. discriminate. }
  exists p, i. split; [exact P1|]. split; [exact Q1|]. split; [lia|].
  destruct (Q4 Q5) as [x [X1 X2]]. rewrite P3 in X1 by lia. injection X1 as <-.
  rewrite cfun_R in X2 by (try lia; lra). cbn [nle rops] in X2.
  assert (X3 : (u <= partial_sum w (S (Z.to_nat i)) / s)%R).
  { destruct (Rle_bool_spec u (partial_sum w (S (Z.to_nat i)) / s)) as [H|H]; [exact H|discriminate]. }
  assert (X4 : (partial_sum w (Z.to_nat i) / s < u)%R).
  { destruct (Z.eq_dec i 0) as [->|N].
    - change (Z.to_nat 0) with 0%nat. unfold partial_sum, Rdiv. cbn [firstn fold_left]. lra.
    - assert (E : exists n, Z.to_nat i = S n) by (exists (Z.to_nat i - 1)%nat; lia). destruct E as [n En]. rewrite En.
      specialize (Q3 n _ ltac:(lia) (P3 n ltac:(lia))). rewrite cfun_R in Q3 by (try lia; lra). cbn [nle rops] in Q3.
      destruct (Rle_bool_spec u (partial_sum w (S n) / s)) as [H|H]; [discriminate|exact H]. }
  split; [split; assumption|]. rewrite partial_S in X3 by lia. rewrite Forall_forall in Hw.
  assert (Hx : (0 <= nth (Z.to_nat i) w 0)%R) by (apply Hw, nth_In; lia).
  destruct (Rle_lt_or_eq_dec _ _ Hx) as [H|H]; [exact H|]. exfalso. rewrite <- H in X3.
  rewrite Rplus_0_r in X3. lra.
Qed.

(** Binary64: an index of weight zero is never picked for a positive draw. *)
Lemma dadd_zero : forall (u x q : dbl), is_finite u = true -> is_finite q = true -> B2R q = 0%R ->
  dle u (dadd x q) = dle u x.
Proof.
  intros u x q Fu Fq Rq. destruct (is_finite x) eqn:Fx.
  - pose proof (Bplus_correct 53 1024 Hprec64 Hmax64 mode_NE x q Fx Fq) as C.
    change (round_mode mode_NE) with ZnearestE in C. rewrite Rq, Rplus_0_r in C.
    rewrite (rnd_id (B2R x)) in C by apply generic_format_B2R.
    rewrite Rlt_bool_true in C by apply abs_B2R_lt_emax. destruct C as [A [B _]].
    fold (dadd x q) in A, B. unfold dle. rewrite !Bleb_correct by auto. now rewrite A.
  - destruct x as [| | |]; try discriminate; destruct q; try discriminate; try reflexivity;
    exfalso; cbn in Rq; apply eq_0_F2R in Rq; now destruct s0.
Qed.

Lemma ddiv_zero : forall x s : dbl, is_finite x = true -> B2R x = 0%R -> is_finite s = true -> B2R s <> 0%R ->
  is_finite (ddiv x s) = true /\ B2R (ddiv x s) = 0%R.
Proof.
  intros x s Fx Rx Fs Rs. destruct (ddiv_R x s Fx Rs) as [A B].
  - rewrite Rx. unfold Rdiv. rewrite Rmult_0_l, Rabs_R0. apply bpow_ge_0.
  - split; [exact B|]. rewrite A, Rx. unfold Rdiv. rewrite Rmult_0_l. apply rnd_0.
Qed.

Lemma pick_positive_ieee : forall (w : list dbl) (u : dbl), w <> [] ->
  is_finite u = true -> (0 < B2R u)%R ->
  let s := fold_left dadd w dzero in is_finite s = true -> B2R s <> 0%R ->
  exists p i, turn_array_into_probability dops w (Z.of_nat (length w)) (dofZ (-1)) = Ok p /\
    pick_from_distribution dops u p (Z.of_nat (length w)) = Ok i /\ 0 <= i <= Z.of_nat (length w) /\
    forall x, nth_error w (Z.to_nat i) = Some x -> is_finite x = true -> B2R x <> 0%R.
Proof.
  intros w u Ne Fu Hu s Fs Rs.
  destruct (turn_ok dops w Ne) as [p [P1 [P2 P3]]]; [reflexivity|].
  change (fold_left (nadd dops) w (nofZ dops 0)) with s in P3.
  destruct (pick_ok dops u p (Z.of_nat (length w))) as [i [Q1 [Q2 [Q3 Q4]]]]. { now rewrite P2. }
  change (num dops) with dbl in *.
  exists p, i. split; [exact P1|]. split; [exact Q1|]. split; [exact Q2|].
  intros x Hx Fx Rx.
  assert (Li : (Z.to_nat i < length w)%nat) by (apply nth_error_Some; congruence).
  destruct (Q4 ltac:(lia)) as [y [Y1 Y2]]. rewrite P3 in Y1 by exact Li. injection Y1 as <-.
  pose proof (nth_error_nth _ _ (nofZ dops 0) Hx) as En.
  destruct (ddiv_zero x s Fx Rx Fs Rs) as [Fq Rq].
  destruct (Z.to_nat i) as [|n] eqn:E; cbn [cfun] in Y2; rewrite En in Y2; cbn [nle nadd ndiv dops] in Y2.
  - apply dle_true in Y2; auto. lra.
  - rewrite dadd_zero in Y2 by auto.
    specialize (Q3 n _ ltac:(lia) (P3 n ltac:(lia))). cbn [nle dops] in Q3. congruence.
Qed.

(** ** index_max *)
Lemma index_max_ok : forall T (gt : T -> T -> bool) (key : T -> R) (a : list T),
  (forall x y, In x a -> In y a -> (gt x y = true <-> (key y < key x)%R)) -> a <> [] ->
  exists b v, index_max gt a (Z.of_nat (length a)) = Ok (Z.of_nat b) /\ nth_error a b = Some v /\
    (forall j x, nth_error a j = Some x -> (key x <= key v)%R) /\
    (forall j x, (j < b)%nat -> nth_error a j = Some x -> (key x < key v)%R).
Proof.
  intros T gt key a Hg Ne. assert (Ln : (0 < length a)%nat) by (destruct a; [congruence|cbn; lia]).
  unfold index_max. rewrite Nat2Z.id.
  destruct (forZ_inv _ (fun i best => exists b v, best = Z.of_nat b /\ nth_error a b = Some v /\ (Z.of_nat b < i) /\
      (forall j x, (Z.of_nat j < i) -> nth_error a j = Some x -> (key x <= key v)%R) /\
      (forall j x, (j < b)%nat -> nth_error a j = Some x -> (key x < key v)%R))
    (fun i best => do x <- rd a i; do y <- rd a best; Ok (if gt x y then i else best)) (length a - 1) 1 0)
    as [best [H1 [b [v [-> [H2 [H3 [H4 H5]]]]]]]].
  - destruct (nth_error a 0) as [v|] eqn:E; [|apply nth_error_None in E; lia].
    exists 0%nat, v. split; [reflexivity|]. split; [exact E|]. split; [lia|]. split; [|lia].
    intros j x Hj Hx. assert (j = 0)%nat by lia. subst. assert (x = v) by congruence. subst. lra.
  - intros i best Hi [b [v [-> [B1 [B2 [B3 B4]]]]]].
    destruct (rd_in_bounds _ a i) as [x Hx]; [lia|]. rewrite Hx. cbn [bind]. apply rd_ok_iff in Hx. destruct Hx as [_ Hx].
    assert (Rb : rd a (Z.of_nat b) = Ok v) by (apply rd_ok_iff; split; [lia|now rewrite Nat2Z.id]).
    rewrite Rb. cbn [bind]. eexists. split; [reflexivity|].
    pose proof (Hg x v (nth_error_In _ _ Hx) (nth_error_In _ _ B1)) as G.
    destruct (gt x v) eqn:Eg.
    + assert (Hk : (key v < key x)%R) by now apply G. exists (Z.to_nat i), x.
      split; [lia|]. split; [exact Hx|]. split; [lia|]. split.
      * intros j y Hj Hy. destruct (Z.eq_dec (Z.of_nat j) i) as [E|E].
        -- subst i. rewrite Nat2Z.id in Hx. assert (y = x) by congruence. subst. lra.
        -- specialize (B3 j y ltac:(lia) Hy). lra.
      * intros j y Hj Hy. specialize (B3 j y ltac:(lia) Hy). lra.
    + assert (Hk : (key x <= key v)%R). { destruct (Rle_lt_dec (key x) (key v)) as [L|L]; [exact L|]. apply G in L. discriminate. }
      exists b, v. split; [reflexivity|]. split; [exact B1|]. split; [lia|]. split; [|exact B4].
      intros j y Hj Hy. destruct (Z.eq_dec (Z.of_nat j) i) as [E|E].
      * subst i. rewrite Nat2Z.id in Hx. assert (y = x) by congruence. subst. exact Hk.
      * apply (B3 j y); [lia|exact Hy].
  - exists b, v. split; [exact H1|]. split; [exact H2|]. split; [|exact H5].
    intros j x Hx. apply (H4 j x); auto. assert (nth_error a j <> None) by congruence. apply nth_error_Some in H. lia.
Qed.

(** Doubles without NaN are ordered by a real key. *)
Definition dkey (x : dbl) : R :=
  match x with
  | B754_infinity false => bpow radix2 1024
  | B754_infinity true => (- bpow radix2 1024)%R
  | _ => B2R x
  end.

Lemma dlt_key : forall x y, not_nan x -> not_nan y -> (dlt x y = true <-> (dkey x < dkey y)%R).
Proof.
  intros x y Nx Ny. pose proof (bpow_gt_0 radix2 1024) as P.
  pose proof (abs_B2R_lt_emax 53 1024 x) as Bx. pose proof (abs_B2R_lt_emax 53 1024 y) as By.
  apply Rabs_lt_inv in Bx. apply Rabs_lt_inv in By.
  destruct (is_finite x) eqn:Fx, (is_finite y) eqn:Fy.
  - rewrite dlt_true by auto. destruct x; try discriminate; destruct y; try discriminate; reflexivity.
  - destruct y as [| [|] | |]; try discriminate; [| |now contradiction Ny].
    + replace (dlt x (B754_infinity true)) with false by (destruct x as [| | |[|]]; try discriminate; reflexivity).
      split; [discriminate|]. destruct x; try discriminate; cbn [dkey]; lra.
    + replace (dlt x (B754_infinity false)) with true by (destruct x as [| | |[|]]; try discriminate; reflexivity).
      split; [|auto]. intros _. destruct x; try discriminate; cbn [dkey]; lra.
  - destruct x as [| [|] | |]; try discriminate; [| |now contradiction Nx].
    + replace (dlt (B754_infinity true) y) with true by (destruct y as [| | |[|]]; try discriminate; reflexivity).
      split; [|auto]. intros _. destruct y; try discriminate; cbn [dkey]; lra.
    + replace (dlt (B754_infinity false) y) with false by (destruct y as [| | |[|]]; try discriminate; reflexivity).
      split; [discriminate|]. destruct y; try discriminate; cbn [dkey]; lra.
  - destruct x as [| [|] | |]; try discriminate; try (now contradiction Nx);
    destruct y as [| [|] | |]; try discriminate; try (now contradiction Ny);
    cbn [dkey]; (split; [intros H; first [discriminate H | lra] | intros H; first [reflexivity | exfalso; lra]]).
Qed.

(** ** round *)
Lemma round_real : forall v, (-2147483647 <= v <= 2147483646)%R ->
  exists z, round rops (/ 2)%R v = Ok z /\ (Rabs (IZR z - v) <= / 2)%R.
Proof.
  intros v Hv. unfold round. cbn [nlt nofZ nsub nadd n2int rops].
  assert (T : forall z, -2147483648 <= z <= 2147483647 -> in_int z = Ok z).
  { intros z Hz. unfold in_int. destruct (Z.leb_spec (-2147483648) z); [|lia]. destruct (Z.leb_spec z 2147483647); [reflexivity|lia]. }
  destruct (Rlt_bool_spec v 0) as [H|H].
  - rewrite Ztrunc_ceil by lra. pose proof (Zceil_ub (v - / 2)) as U. pose proof (Zceil_lb (v - / 2)) as L.
    rewrite T; [eexists; split; [reflexivity|]; apply Rabs_le; lra|].
    split; apply le_IZR; lra.
  - rewrite Ztrunc_floor by lra. pose proof (Zfloor_lb (v + / 2)) as U. pose proof (Zfloor_ub (v + / 2)) as L.
    rewrite T; [eexists; split; [reflexivity|]; apply Rabs_le; lra|].
    split; apply le_IZR; lra.
Qed.

(** ** rand_exponential *)
Lemma rand_exp_real : forall u rate, (0 <= u < 1)%R -> (0 < rate)%R ->
  let x := rand_exponential rops ln u rate in (0 <= x)%R /\ (1 - exp (- rate * x) = u)%R.
Proof.
  intros u rate Hu Hr x. unfold x, rand_exponential. cbn [ndiv nsub nofZ nopp rops].
  assert (H1 : (ln (1 - u) <= 0)%R).
  { rewrite <- ln_1. destruct (Req_dec u 0) as [->|N]; [right; f_equal; ring|]. left. apply ln_increasing; lra. }
  split.
  - replace (ln (1 - u) / - rate)%R with ((- ln (1 - u)) * / rate)%R by (field; lra).
    apply Rmult_le_pos; [lra|]. left. now apply Rinv_0_lt_compat.
  - replace (- rate * (ln (1 - u) / - rate))%R with (ln (1 - u)) by (field; lra). rewrite exp_ln by lra. ring.
Qed.

(** ** div_int *)
Lemma div_int_ok : forall a b, -2147483648 <= a <= 2147483647 -> -2147483648 <= b <= 2147483647 -> b <> 0 ->
  (a, b) <> (-2147483648, -1) ->
  exists q, div_int a b = Ok q /\ Z.abs (q * b) <= Z.abs a < Z.abs (q * b) + Z.abs b /\ 0 <= a * (q * b).
Proof.
  intros a b Ha Hb Nb Ne. unfold div_int. rewrite (proj2 (Z.eqb_neq b 0)) by auto.
  pose proof (Z.quot_rem' a b) as E. pose proof (Z.rem_bound_abs a b Nb) as B. pose proof (Z.rem_sign_mul a b Nb) as Sg.
  set (q := Z.quot a b) in *. set (r := Z.rem a b) in *.
  assert (Sr : 0 <= a * (q * b) /\ Z.abs a = Z.abs (q * b) + Z.abs r).
  { destruct (Z.le_gt_cases 0 a) as [Pa|Na].
    - assert (0 <= r) by (apply Z.rem_nonneg; auto). assert (0 <= q * b).
      { destruct (Z.le_gt_cases 0 (q * b)); [auto|]. assert (1 <= Z.abs q) by lia. rewrite (Z.mul_comm b q) in E.
        assert (Z.abs b <= Z.abs (q * b)) by (rewrite Z.abs_mul; nia). lia. }
      nia.
    - assert (r <= 0) by (apply Z.rem_nonpos; auto; lia). assert (q * b <= 0).
      { destruct (Z.le_gt_cases (q * b) 0); [auto|]. assert (1 <= Z.abs q) by lia. rewrite (Z.mul_comm b q) in E.
        assert (Z.abs b <= Z.abs (q * b)) by (rewrite Z.abs_mul; nia). lia. }
      nia. }
  destruct Sr as [S1 S2].
  assert (Q : -2147483648 <= q <= 2147483647).
  { destruct (Z.eq_dec b (-1)) as [->|N1]; [assert (a <> -2147483648) by congruence; assert (r = 0) by lia; lia|].
    destruct (Z.eq_dec b 1) as [->|N2]; [lia|].
    assert (2 * Z.abs q <= Z.abs a). { transitivity (Z.abs (q * b)); [rewrite Z.abs_mul; nia|lia]. } lia. }
  rewrite sint_ok by exact Q. cbn [bind].
  replace (a - r) with (q * b) by lia. rewrite sint_ok by lia. cbn [bind]. rewrite Z.quot_mul by auto.
  rewrite sint_ok by exact Q. exists q. split; [reflexivity|]. lia.
Qed.
