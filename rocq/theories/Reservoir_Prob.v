From Coq Require Import ZArith QArith Qround List Permutation Bool Lia.
From Verif Require Import CppBase CppFacts NumOps Reservoir_Model Reservoir_Spec Reservoir_Proofs.
Import ListNotations.
Local Open Scope Z_scope.

(** ** Counting *)
Lemma count_app : forall A (p : A -> bool) l1 l2, count_if p (l1 ++ l2) = count_if p l1 + count_if p l2.
Proof. intros. unfold count_if. rewrite filter_app, app_length. lia. Qed.

Lemma count_cons : forall A (p : A -> bool) x l, count_if p (x :: l) = (if p x then 1 else 0) + count_if p l.
Proof. intros. unfold count_if. cbn [filter]. destruct (p x); cbn [length]; lia. Qed.

Lemma count_map : forall A B (f : A -> B) (p : B -> bool) l, count_if p (map f l) = count_if (fun x => p (f x)) l.
Proof. intros. induction l as [|x l IH]; [reflexivity|]. cbn [map]. rewrite !count_cons, IH. reflexivity. Qed.

Lemma count_ext : forall A (p q : A -> bool) l, (forall x, In x l -> p x = q x) -> count_if p l = count_if q l.
Proof.
  intros A p q l H. induction l as [|x l IH]; [reflexivity|]. rewrite !count_cons, IH.
  - rewrite H by now left. reflexivity.
  - intros. apply H. now right.
Qed.

Lemma count_false : forall A (l : list A), count_if (fun _ => false) l = 0.
Proof. intros. induction l as [|x l IH]; auto. Qed.

Lemma count_true_all : forall A (l : list A), count_if (fun _ => true) l = Z.of_nat (length l).
Proof. intros. induction l as [|x l IH]; auto. rewrite count_cons, IH. cbn [length]. lia. Qed.

Lemma count_negb : forall A (p : A -> bool) l, count_if (fun x => negb (p x)) l = Z.of_nat (length l) - count_if p l.
Proof. intros. induction l as [|x l IH]; auto. rewrite !count_cons, IH. cbn [length]. destruct (p x); cbn [negb]; lia. Qed.

Lemma count_prod : forall A B (p : A -> bool) (q : B -> bool) l1 l2,
  count_if (fun x => p (fst x) && q (snd x)) (list_prod l1 l2) = count_if p l1 * count_if q l2.
Proof.
  intros. induction l1 as [|a l1 IH]; [reflexivity|]. cbn [list_prod]. rewrite count_app, count_cons, IH, count_map.
  cbn [fst snd]. destruct (p a); cbn [andb]; [|rewrite count_false; lia].
  change (fun x => q x) with q. lia.
Qed.

(** seq 0 n, blocks of width w *)
Lemma count_lt : forall n b, (b <= n)%nat ->
  count_if (fun i => Z.of_nat i <? Z.of_nat b) (seq 0 n) = Z.of_nat b.
Proof.
  intros n b Hb. replace n with (b + (n - b))%nat by lia. rewrite seq_app, count_app.
  rewrite (count_ext _ _ (fun _ => true) (seq 0 b)), (count_ext _ _ (fun _ => false) (seq (0 + b) (n - b))).
  - rewrite count_true_all, count_false, seq_length. lia.
  - intros x Hx. apply in_seq in Hx. apply Z.ltb_ge. lia.
  - intros x Hx. apply in_seq in Hx. apply Z.ltb_lt. lia.
Qed.

Lemma count_blocks : forall (h : Z -> bool) w k, (0 < w)%nat ->
  count_if (fun i => h (Z.of_nat i / Z.of_nat w)) (seq 0 (k * w)) =
  Z.of_nat w * count_if (fun s => h (Z.of_nat s)) (seq 0 k).
Proof.
  intros h w k Hw. induction k as [|k IH]; [unfold count_if; cbn; lia|].
  replace (S k * w)%nat with (k * w + w)%nat by lia. rewrite seq_app, count_app, IH.
  rewrite seq_S, count_app, Z.mul_add_distr_l. f_equal.
  rewrite (count_ext _ _ (fun _ => h (Z.of_nat k))).
  - rewrite count_cons. cbn [plus]. destruct (h (Z.of_nat k)).
    + rewrite count_true_all, seq_length. unfold count_if. cbn. lia.
    + rewrite count_false. unfold count_if. cbn. lia.
  - intros x Hx. apply in_seq in Hx. f_equal. symmetry.
    apply (Z.div_unique_pos _ _ _ (Z.of_nat x - Z.of_nat k * Z.of_nat w)); lia.
Qed.

(** ** Membership in arrays *)
Definition memz (p : Z) (X : list Z) : bool := existsb (fun q => q =? p) X.
Lemma memz_in : forall p X, memz p X = true <-> In p X.
Proof.
  intros. unfold memz. rewrite existsb_exists. split.
  - intros [x [H1 H2]]. apply Z.eqb_eq in H2. now subst.
  - intros H. exists p. split; auto. apply Z.eqb_refl.
Qed.

Lemma all_in_map : forall S X, all_in S (map Some X) = forallb (fun p => memz p X) S.
Proof.
  intros S X. unfold all_in, memz. induction S as [|p S IH]; [reflexivity|]. cbn [forallb]. rewrite IH. f_equal.
  clear. induction X as [|x X IH]; [reflexivity|]. cbn [map existsb]. now rewrite IH.
Qed.

Lemma sub_iff : forall S X, forallb (fun p => memz p X) S = true <-> incl S X.
Proof.
  intros. rewrite forallb_forall. split; intros H p Hp.
  - apply memz_in. auto.
  - apply memz_in. now apply H.
Qed.

(** Slots of X whose element is in S. *)
Definition hit (X S : list Z) (s : Z) : bool := memz (nth (Z.to_nat s) X (-1)) S.

Lemma hit_count : forall X S, NoDup X -> NoDup S -> incl S X ->
  count_if (fun s => hit X S (Z.of_nat s)) (seq 0 (length X)) = Z.of_nat (length S).
Proof.
  intros X S NX NS Hi.
  assert (E : count_if (fun s => hit X S (Z.of_nat s)) (seq 0 (length X)) = count_if (fun p => memz p S) X).
  { clear Hi NX NS. unfold hit. induction X as [|x X IH] using rev_ind; [reflexivity|].
    rewrite app_length. cbn [length]. rewrite Nat.add_1_r, seq_S, !count_app. f_equal.
    - rewrite <- IH. apply count_ext. intros s Hs. apply in_seq in Hs.
      rewrite !Nat2Z.id, app_nth1 by lia. reflexivity.
    - rewrite !count_cons. cbn [plus]. rewrite Nat2Z.id, app_nth2, Nat.sub_diag by lia. reflexivity. }
  rewrite E. unfold count_if. f_equal. apply Permutation_length. apply NoDup_Permutation; auto.
  { now apply NoDup_filter. }
  intros p. rewrite filter_In, memz_in. split; [tauto|]. intros H. split; auto.
Qed.

Lemma incl_upd : forall (X S : list Z) s m, NoDup X -> ~ In m S -> (s < length X)%nat -> incl S X ->
  (incl S (upd X s m) <-> ~ In (nth s X (-1)) S).
Proof.
  intros X S s m NX Hm Hs Hi. split.
  - intros H C. specialize (H _ C). clear Hi.
    assert (Hin : In (nth s X (-1)) (upd X s m)) by exact H.
    assert (Hne : nth s X (-1) <> m) by (intros E; apply Hm; rewrite <- E; auto).
    apply In_nth_error in Hin. destruct Hin as [j Hj]. rewrite nth_error_upd in Hj.
    destruct (Nat.eqb_spec s j) as [->|Hsj]; cbn [andb] in Hj.
    + destruct (Nat.ltb_spec j (length X)); [|lia]. congruence.
    + rewrite <- (nth_error_nth' X (-1) Hs) in Hj.
      assert (s = j); [|congruence]. eapply (proj1 (NoDup_nth_error X) NX); auto.
  - intros H p Hp. specialize (Hi p Hp). apply In_nth_error in Hi. destruct Hi as [j Hj].
    apply (nth_error_In _ j). rewrite nth_error_upd. destruct (Nat.eqb_spec s j) as [->|Hsj]; cbn [andb]; auto.
    exfalso. apply H. apply nth_error_nth with (d := -1) in Hj. now rewrite Hj.
Qed.

Lemma not_incl_upd : forall (X S : list Z) s m, ~ In m S -> ~ incl S X -> ~ incl S (upd X s m).
Proof.
  intros X S s m Hm Hn H. apply Hn. intros p Hp. specialize (H p Hp).
  apply in_upd in H. destruct H as [->|H]; auto. contradiction.
Qed.

(** ** The draws *)
Section Draws.
  Variable N : positive.
  Notation NN := (Pos.to_nat N).

  Lemma grid_len : length (grid N) = NN.
  Proof. unfold grid. now rewrite map_length, seq_length. Qed.

  Lemma acc_count : forall k m q, 0 <= k -> 0 < m -> Z.pos N = m * q -> k <= m ->
    count_if (fun r => Qltb r (Qdiv (inject_Z k) (inject_Z m))) (grid N) = k * q.
  Proof.
    intros k m q Hk Hm Hq Hkm. unfold grid. rewrite count_map.
    assert (Hq0 : 0 < q) by nia.
    rewrite (count_ext _ _ (fun i => Z.of_nat i <? Z.of_nat (Z.to_nat (k * q)))).
    - rewrite count_lt; nia.
    - intros i Hi. rewrite Z2Nat.id by nia. unfold Qltb.
      destruct (Z.ltb_spec (Z.of_nat i) (k * q)) as [Hlt|Hge].
      + apply negb_true_iff. destruct (Qle_bool _ _) eqn:E; auto. exfalso.
        apply Qle_bool_iff in E.
        assert (E2 : (inject_Z k <= (Z.of_nat i # N) * inject_Z m)%Q).
        { apply (Qmult_le_compat_r _ _ (inject_Z m)) in E.
          - rewrite Qmult_comm, Qmult_div_r in E; auto. intros C. unfold Qeq, inject_Z in C. cbn in C. lia.
          - unfold Qle, inject_Z. cbn. lia. }
        unfold Qle, inject_Z in E2. cbn in E2. nia.
      + apply negb_false_iff. apply Qle_bool_iff. apply Qle_shift_div_r.
        { unfold Qlt, inject_Z. cbn. lia. }
        unfold Qle, inject_Z. cbn. nia.
  Qed.

  Lemma slot_val : forall k w i, 0 < k -> Z.pos N = k * w -> 
    Qfloor ((Z.of_nat i # N) * inject_Z k) = Z.of_nat i / w.
  Proof.
    intros k w i Hk Hw. assert (0 < w) by nia. unfold Qfloor, Qmult, inject_Z. cbn [Qnum Qden].
    rewrite Pos.mul_1_r, Hw. rewrite Z.mul_comm, (Z.mul_comm k w).
    rewrite (Z.mul_comm w k). now rewrite Z.div_mul_cancel_l by lia.
  Qed.

  Lemma slot_count : forall (h : Z -> bool) k w, 0 < k -> Z.pos N = k * w ->
    count_if (fun r => h (Qfloor (r * inject_Z k))) (grid N) =
    w * count_if (fun s => h (Z.of_nat s)) (seq 0 (Z.to_nat k)).
  Proof.
    intros h k w Hk Hw. assert (Hw0 : 0 < w) by nia. unfold grid. rewrite count_map.
    replace NN with (Z.to_nat k * Z.to_nat w)%nat by nia.
    rewrite (count_ext _ _ (fun i => h (Z.of_nat i / Z.of_nat (Z.to_nat w)))).
    - rewrite count_blocks by lia. lia.
    - intros i _. rewrite (slot_val k w) by auto. f_equal. f_equal. lia.
  Qed.

  Lemma all_draws_spec : forall m d, In d (all_draws N m) ->
    length d = m /\ forall r, In r d -> In (fst r) (grid N) /\ In (snd r) (grid N).
  Proof.
    induction m as [|m IH]; intros d Hd.
    - destruct Hd as [<-|[]]. split; auto. intros r [].
    - cbn [all_draws] in Hd. apply in_flat_map in Hd. destruct Hd as [d' [H1 H2]].
      apply in_map_iff in H2. destruct H2 as [[a b] [<- H2]]. apply in_prod_iff in H2.
      destruct (IH d' H1) as [L V]. rewrite app_length. cbn [length]. split; [lia|].
      intros r Hr. apply in_app_or in Hr. destruct Hr as [Hr|[<-|[]]]; auto.
  Qed.

  Lemma all_draws_len : forall m, Z.of_nat (length (all_draws N m)) = (Z.pos N * Z.pos N) ^ Z.of_nat m.
  Proof.
    induction m as [|m IH]; [reflexivity|]. cbn [all_draws].
    assert (H : forall l : list (list (Q * Q)),
      Z.of_nat (length (flat_map (fun d => map (fun p => d ++ [p]) (list_prod (grid N) (grid N))) l)) =
      Z.of_nat (length l) * (Z.pos N * Z.pos N)).
    { induction l as [|d l IHl]; [reflexivity|]. cbn [flat_map]. rewrite app_length, map_length, prod_length, grid_len.
      cbn [length]. nia. }
    rewrite H, IH, Nat2Z.inj_succ, Z.pow_succ_r by lia. lia.
  Qed.

  Lemma count_draws_S : forall (P : list (Q * Q) -> bool) m,
    count_if P (all_draws N (S m)) =
    fold_right (fun d acc => count_if (fun p => P (d ++ [p])) (list_prod (grid N) (grid N)) + acc) 0 (all_draws N m).
  Proof.
    intros P m. cbn [all_draws]. induction (all_draws N m) as [|d l IH]; [reflexivity|].
    cbn [flat_map fold_right]. rewrite count_app, count_map, IH. reflexivity.
  Qed.

  Lemma fold_const : forall (G : list (Q * Q) -> Z) (P : list (Q * Q) -> bool) c l,
    (forall d, In d l -> G d = if P d then c else 0) ->
    fold_right (fun d acc => G d + acc) 0 l = c * count_if P l.
  Proof.
    intros G P c l H. induction l as [|d l IH]; [unfold count_if; cbn; lia|].
    cbn [fold_right]. rewrite IH, H, count_cons by (intros; auto with datatypes). destruct (P d); lia.
  Qed.
End Draws.

Lemma enumerate_app : forall D (d1 d2 : list D) i,
  enumerate i (d1 ++ d2) = enumerate i d1 ++ enumerate (i + Z.of_nat (length d1)) d2.
Proof.
  induction d1 as [|x d1 IH]; intros d2 i.
  - cbn. f_equal. lia.
  - cbn [app enumerate length]. rewrite IH. do 2 f_equal. f_equal. lia.
Qed.

Lemma enumerate_fst : forall D (d : list D) i,
  map fst (enumerate i d) = map (fun n => i + Z.of_nat n) (seq 0 (length d)).
Proof.
  induction d as [|x d IH]; intros i; [reflexivity|]. cbn [enumerate map length seq fst].
  f_equal; [lia|]. rewrite IH, <- seq_shift, map_map. apply map_ext. intros. lia.
Qed.

Lemma enumerate_len : forall D (d : list D) i, length (enumerate i d) = length d.
Proof. induction d as [|x d IH]; intros i; cbn; auto. Qed.

Lemma enumerate_in : forall D (d : list D) i e x, In (e, x) (enumerate i d) -> In x d.
Proof.
  induction d as [|y d IH]; intros i e x; cbn; [tauto|]. intros [H|H]; [left; congruence|right; eauto].
Qed.

(** ** The sample after m draws *)
Section Prob.
  Variable N : positive.
  Variable k w : Z.
  Hypothesis Hk : 1 <= k <= 2147483647.
  Hypothesis Hw : Z.pos N = k * w.

  Definition after (d : list (Q * Q)) := rrun qops k (enumerate 0 d).

  Lemma grid_range : forall r, In r (grid N) -> exists i, (i < Pos.to_nat N)%nat /\ r = (Z.of_nat i # N)%Q.
  Proof.
    intros r H. unfold grid in H. apply in_map_iff in H. destruct H as [i [<- H]]. apply in_seq in H.
    exists i. split; auto. lia.
  Qed.

  Lemma floor_ok : forall r n, In r (grid N) -> 1 <= n <= k ->
    n2int qops (nfloor qops (nmul qops r (nofZ qops n))) = Ok (Qfloor (r * inject_Z n)) /\
    0 <= Qfloor (r * inject_Z n) < n.
  Proof.
    intros r n Hr Hn. destruct (grid_range r Hr) as [i [Hi ->]].
    assert (B : 0 <= Qfloor ((Z.of_nat i # N) * inject_Z n) < n).
    { unfold Qfloor, Qmult, inject_Z. cbn [Qnum Qden]. rewrite Pos.mul_1_r. split.
      - apply Z.div_pos; lia.
      - apply Z.div_lt_upper_bound; nia. }
    split; auto. cbn [n2int nfloor nmul nofZ qops].
    assert (T : forall z, Qtrunc (inject_Z z) = z).
    { intros z. unfold Qtrunc, inject_Z. cbn [Qnum Qden]. apply Z.quot_1_r. }
    rewrite T. unfold in_int. destruct (Z.leb_spec (-2147483648) (Qfloor ((Z.of_nat i # N) * inject_Z n))); [|lia].
    destruct (Z.leb_spec (Qfloor ((Z.of_nat i # N) * inject_Z n)) 2147483647); [reflexivity|lia].
  Qed.

  Lemma state_after : forall m d, In d (all_draws N m) -> k <= Z.of_nat m < 4294967296 ->
    exists s is X, after d = Ok (s, is) /\ sample s = map Some X /\ counter s = Z.of_nat m /\
      NoDup X /\ Z.of_nat (length X) = k /\ (forall p, In p X -> 0 <= p < Z.of_nat m) /\
      (Z.of_nat m = k -> X = map Z.of_nat (seq 0 m)).
  Proof.
    intros m d Hd Hm. destruct (all_draws_spec N m d Hd) as [L V].
    destruct (rrun_holds qops (A := Z) k (fun r => In r (grid N)) Hk) with (l := enumerate 0 d)
      as [s [is [pos [R1 [R2 [R3 [R4 [R5 R6]]]]]]]].
    { intros r n Hr Hn. destruct (floor_ok r n Hr Hn). eauto. }
    { intros e r1 r2 Hin. apply enumerate_in in Hin. exact (V _ Hin). }
    { rewrite enumerate_len. lia. }
    rewrite enumerate_len, L in *.
    exists s, is, (map Z.of_nat pos). split; auto.
    destruct R2 as [H1 [H2 [H3 H4]]]. rewrite enumerate_fst, L in *. rewrite map_length, seq_length in H2.
    split.
    { apply nth_error_ext. intros i. rewrite H4, map_map, nth_error_map.
      destruct (nth_error pos i) as [p|] eqn:Ep; cbn [option_map].
      - apply nth_error_In in Ep. specialize (H2 p Ep).
        rewrite (map_nth_error _ p (seq 0 m) (d := p)).
        + reflexivity.
        + rewrite (nth_error_nth' _ 0%nat) by (rewrite seq_length; auto). now rewrite seq_nth.
      - apply nth_error_None in Ep. destruct (Nat.ltb_spec i (length (sample s))); [lia|reflexivity]. }
    split; auto. split.
    { apply FinFun.Injective_map_NoDup; auto. intros a b. lia. }
    split. { rewrite map_length. lia. }
    split. { intros p Hp. apply in_map_iff in Hp. destruct Hp as [x [<- Hx]]. specialize (H2 x Hx). lia. }
    intros He. rewrite R6 by lia. reflexivity.
  Qed.

  Lemma step_after : forall m d r1 r2, In d (all_draws N m) -> In r1 (grid N) -> In r2 (grid N) ->
    k <= Z.of_nat m < 4294967295 ->
    exists s is X s' is', after d = Ok (s, is) /\ sample s = map Some X /\
      NoDup X /\ Z.of_nat (length X) = k /\ (forall p, In p X -> 0 <= p < Z.of_nat m) /\
      after (d ++ [(r1, r2)]) = Ok (s', is') /\
      sample s' = map Some (if Qltb r1 (Qdiv (inject_Z k) (inject_Z (Z.of_nat m + 1)))
                            then upd X (Z.to_nat (Qfloor (r2 * inject_Z k))) (Z.of_nat m) else X).
  Proof.
    intros m d r1 r2 Hd V1 V2 Hm. destruct (state_after m d Hd) as [s [is [X [A1 [A2 [A3 [A4 [A5 [A6 _]]]]]]]]]; [lia|].
    destruct (all_draws_spec N m d Hd) as [L _].
    unfold after in *. rewrite enumerate_app, L. cbn [enumerate]. unfold rrun in *. rewrite rrun_app, A1.
    cbn [bind run_with]. unfold radd, sample_index. rewrite A3.
    destruct (Z.ltb_spec (Z.of_nat m) k); [lia|]. rewrite u32_small by lia.
    cbn [num nlt ndiv nofZ qops]. change (@fst Q Q) with (@fst Q Q).
    destruct (floor_ok r2 k V2) as [F1 F2]; [lia|]. cbn [n2int nfloor nmul nofZ qops] in F1.
    destruct (Qltb r1 _) eqn:Eq.
    - cbn [n2int nfloor nmul nofZ qops]. rewrite F1. cbn [bind].
      destruct (Z.leb_spec 0 (Qfloor (r2 * inject_Z k))); [|lia].
      assert (Hlen : Z.of_nat (length (sample s)) = k) by (rewrite A2, map_length; auto).
      rewrite wr_ok by lia. cbn [bind]. exists s, is, X. do 2 eexists. repeat split; auto; try apply A6; auto.
      cbn [sample]. rewrite A2. clear. generalize (Z.to_nat (Qfloor (r2 * inject_Z k))) as i.
      induction X as [|x X IH]; intros [|i]; cbn; auto. now rewrite IH.
    - cbn [bind]. change (0 <=? -1) with false. cbn iota. cbn [bind]. exists s, is, X. do 2 eexists. repeat split; auto; apply A6; auto.
  Qed.

  Definition ev (S : list Z) (d : list (Q * Q)) : bool :=
    match after d with Ok (s, _) => all_in S (sample s) | _ => false end.

  Lemma ev_step_out : forall m q S d, In d (all_draws N m) -> k <= Z.of_nat m < 4294967295 ->
    Z.pos N = (Z.of_nat m + 1) * q -> NoDup S -> ~ In (Z.of_nat m) S ->
    count_if (fun p => ev S (d ++ [p])) (list_prod (grid N) (grid N)) =
    if ev S d then Z.pos N * q * (Z.of_nat m + 1 - Z.of_nat (length S)) else 0.
  Proof.
    intros m q S d Hd Hm Hq NS Hnot.
    destruct (state_after m d Hd) as [s [is [X [A1 [A2 [A3 [A4 [A5 [A6 _]]]]]]]]]; [lia|].
    unfold ev at 2. rewrite A1, A2, all_in_map.
    assert (Ev : forall p, In p (list_prod (grid N) (grid N)) -> ev S (d ++ [p]) =
      forallb (fun x => memz x (if Qltb (fst p) (Qdiv (inject_Z k) (inject_Z (Z.of_nat m + 1)))
                            then upd X (Z.to_nat (Qfloor (snd p * inject_Z k))) (Z.of_nat m) else X)) S).
    { intros [r1 r2] Hp. apply in_prod_iff in Hp. destruct Hp as [V1 V2].
      destruct (step_after m d r1 r2 Hd V1 V2 Hm) as [s0 [is0 [X0 [s' [is' [B1 [B2 [B3 [B4 [B5 [B6 B7]]]]]]]]]]].
      unfold ev. rewrite B6, B7, all_in_map. rewrite A1 in B1. injection B1 as <- <-.
      assert (X0 = X); [|now subst]. rewrite A2 in B2. clear - B2. revert X0 B2.
      induction X as [|x X IH]; intros [|y Y]; cbn; intros H; try discriminate; auto. injection H as -> H. f_equal; auto. }
    rewrite (count_ext _ _ _ _ Ev). clear Ev.
    destruct (forallb (fun p => memz p X) S) eqn:Es.
    - apply sub_iff in Es.
      rewrite (count_ext _ _ (fun p => negb (Qltb (fst p) (Qdiv (inject_Z k) (inject_Z (Z.of_nat m + 1)))
                                       && hit X S (Qfloor (snd p * inject_Z k))))).
      + rewrite count_negb. rewrite (count_prod _ _ (fun r => Qltb r (Qdiv (inject_Z k) (inject_Z (Z.of_nat m + 1)))) (fun r => hit X S (Qfloor (r * inject_Z k)))).
        rewrite (acc_count N k (Z.of_nat m + 1) q) by lia. rewrite (slot_count N (hit X S) k w) by lia.
        replace (Z.to_nat k) with (length X) by lia. rewrite hit_count by auto.
        rewrite prod_length, grid_len. nia.
      + intros [r1 r2] Hp. apply in_prod_iff in Hp. destruct Hp as [V1 V2]. cbn [fst snd].
        destruct (Qltb r1 _); cbn [andb negb]; [|now apply sub_iff].
        destruct (floor_ok r2 k V2) as [_ F2]; [lia|].
        apply eq_true_iff_eq. rewrite sub_iff, incl_upd by (auto; lia). unfold hit. rewrite negb_true_iff.
        rewrite <- not_true_iff_false, memz_in. reflexivity.
    - rewrite (count_ext _ _ (fun _ => false)); [apply count_false|].
      intros [r1 r2] _. cbn [fst snd]. assert (Hn : ~ incl S X) by (rewrite <- sub_iff, Es; discriminate).
      destruct (Qltb r1 _); auto. apply not_true_iff_false. rewrite sub_iff. now apply not_incl_upd.
  Qed.

  Lemma ev_step_in : forall m q S1 S2 d, In d (all_draws N m) -> k <= Z.of_nat m < 4294967295 ->
    Z.pos N = (Z.of_nat m + 1) * q -> NoDup (S1 ++ S2) -> ~ In (Z.of_nat m) (S1 ++ S2) ->
    count_if (fun p => ev (S1 ++ Z.of_nat m :: S2) (d ++ [p])) (list_prod (grid N) (grid N)) =
    if ev (S1 ++ S2) d then Z.pos N * q * (k - Z.of_nat (length (S1 ++ S2))) else 0.
  Proof.
    intros m q S1 S2 d Hd Hm Hq NS Hnot. set (S := S1 ++ S2) in *.
    destruct (state_after m d Hd) as [s [is [X [A1 [A2 [A3 [A4 [A5 [A6 _]]]]]]]]]; [lia|].
    unfold ev at 2. rewrite A1, A2, all_in_map.
    assert (HmX : ~ In (Z.of_nat m) X) by (intros C; specialize (A6 _ C); lia).
    assert (Ev : forall p, In p (list_prod (grid N) (grid N)) -> ev (S1 ++ Z.of_nat m :: S2) (d ++ [p]) =
      forallb (fun x => memz x (if Qltb (fst p) (Qdiv (inject_Z k) (inject_Z (Z.of_nat m + 1)))
                            then upd X (Z.to_nat (Qfloor (snd p * inject_Z k))) (Z.of_nat m) else X)) (S1 ++ Z.of_nat m :: S2)).
    { intros [r1 r2] Hp. apply in_prod_iff in Hp. destruct Hp as [V1 V2].
      destruct (step_after m d r1 r2 Hd V1 V2 Hm) as [s0 [is0 [X0 [s' [is' [B1 [B2 [B3 [B4 [B5 [B6 B7]]]]]]]]]]].
      unfold ev. rewrite B6, B7, all_in_map. rewrite A1 in B1. injection B1 as <- <-.
      assert (X0 = X); [|now subst]. rewrite A2 in B2. clear - B2. revert X0 B2.
      induction X as [|x X IH]; intros [|y Y]; cbn; intros H; try discriminate; auto. injection H as -> H. f_equal; auto. }
    rewrite (count_ext _ _ _ _ Ev). clear Ev.
    assert (Hins : forall Y, incl (S1 ++ Z.of_nat m :: S2) Y <-> In (Z.of_nat m) Y /\ incl S Y).
    { intros Y. unfold S, incl. split.
      - intros H. split; [apply H; apply in_or_app; right; now left|]. intros x Hx. apply H.
        apply in_app_or in Hx. apply in_or_app. cbn. tauto.
      - intros [Ha Hb] x Hx. apply in_app_or in Hx. cbn in Hx.
        destruct Hx as [Hx|[<-|Hx]]; auto; apply Hb; apply in_or_app; auto. }
    destruct (forallb (fun p => memz p X) S) eqn:Es.
    - apply sub_iff in Es.
      rewrite (count_ext _ _ (fun p => Qltb (fst p) (Qdiv (inject_Z k) (inject_Z (Z.of_nat m + 1)))
                                       && negb (hit X S (Qfloor (snd p * inject_Z k))))).
      + rewrite (count_prod _ _ (fun r => Qltb r (Qdiv (inject_Z k) (inject_Z (Z.of_nat m + 1)))) (fun r => negb (hit X S (Qfloor (r * inject_Z k))))).
        rewrite (acc_count N k (Z.of_nat m + 1) q) by lia.
        rewrite count_negb, (slot_count N (hit X S) k w) by lia.
        replace (Z.to_nat k) with (length X) by lia. rewrite hit_count by auto.
        rewrite grid_len. nia.
      + intros [r1 r2] Hp. apply in_prod_iff in Hp. destruct Hp as [V1 V2]. cbn [fst snd].
        apply eq_true_iff_eq. rewrite sub_iff, Hins.
        destruct (Qltb r1 _); cbn [andb negb].
        * destruct (floor_ok r2 k V2) as [_ F2]; [lia|]. rewrite incl_upd by (auto; lia).
          unfold hit. rewrite negb_true_iff, <- not_true_iff_false, memz_in. split; [tauto|]. intros H. split; auto.
          apply (nth_error_In _ (Z.to_nat (Qfloor (r2 * inject_Z k)))). apply nth_error_upd_same. lia.
        * split; [tauto|discriminate].
    - rewrite (count_ext _ _ (fun _ => false)); [apply count_false|].
      intros [r1 r2] _. cbn [fst snd]. assert (Hn : ~ incl S X) by (rewrite <- sub_iff, Es; discriminate).
      apply not_true_iff_false. rewrite sub_iff, Hins. intros [_ H]. revert H.
      destruct (Qltb r1 _); auto. now apply not_incl_upd.
  Qed.

  Lemma falling_S : forall r x, falling (x + 1) r * (x + 1 - Z.of_nat r) = falling x r * (x + 1).
  Proof.
    induction r as [|r IH]; intros x; [cbn [falling]; change (Z.of_nat 0) with 0; ring|]. cbn [falling]. replace (x + 1 - 1) with x by lia.
    specialize (IH (x - 1)). replace (x - 1 + 1) with x in IH by lia. rewrite Nat2Z.inj_succ. 
    replace (x + 1 - Z.succ (Z.of_nat r)) with (x - Z.of_nat r) by lia.
    rewrite <- Z.mul_assoc, IH. ring.
  Qed.

  Lemma falling_pos : forall r x, Z.of_nat r <= x -> 0 < falling x r.
  Proof. induction r as [|r IH]; intros x H; [reflexivity|]. cbn [falling]. specialize (IH (x - 1)). nia. Qed.

  Lemma falling_last : forall r x, falling x (S r) = falling x r * (x - Z.of_nat r).
  Proof.
    induction r as [|r IH]; intros x; [cbn [falling]; change (Z.of_nat 0) with 0; ring|]. change (falling x (S (S r))) with (x * falling (x - 1) (S r)).
    rewrite IH. cbn [falling]. rewrite Nat2Z.inj_succ. unfold Z.succ. ring.
  Qed.

  Lemma set_prob : forall n, k <= Z.of_nat n < 4294967296 ->
    (forall m, k < m <= Z.of_nat n -> (m | Z.pos N)) ->
    forall S, NoDup S -> (forall p, In p S -> 0 <= p < Z.of_nat n) ->
    falling (Z.of_nat n) (length S) * count_if (ev S) (all_draws N n) =
    falling k (length S) * Z.of_nat (length (all_draws N n)).
  Proof.
    intros n Hn. remember (n - Z.to_nat k)%nat as t. revert n Hn Heqt.
    induction t as [|t IH]; intros n Hn Ht Hdiv S NS HS.
    - assert (Z.of_nat n = k) by lia. rewrite H. f_equal.
      rewrite (count_ext _ _ (fun _ => true)); [apply count_true_all|].
      intros d Hd. destruct (state_after n d Hd Hn) as [s [is [X [A1 [A2 [A3 [A4 [A5 [A6 A7]]]]]]]]].
      unfold ev. rewrite A1, A2, all_in_map. apply sub_iff. intros p Hp. rewrite A7 by auto.
      specialize (HS p Hp). replace p with (Z.of_nat (Z.to_nat p)) by lia. apply in_map. apply in_seq. lia.
    - destruct n as [|m]; [lia|]. destruct (Hdiv (Z.of_nat (Datatypes.S m))) as [q Hq]; [lia|].
      rewrite count_draws_S.
      assert (IHm := IH m ltac:(lia) ltac:(lia)). clear IH.
      assert (Hdm : forall m0, k < m0 <= Z.of_nat m -> (m0 | Z.pos N)) by (intros; apply Hdiv; lia).
      specialize (IHm Hdm).
      assert (HT : Z.of_nat (length (all_draws N (Datatypes.S m))) = Z.pos N * Z.pos N * Z.of_nat (length (all_draws N m))).
      { rewrite !all_draws_len, Nat2Z.inj_succ, Z.pow_succ_r by lia. reflexivity. }
      rewrite HT. rewrite Nat2Z.inj_succ in *. unfold Z.succ in *.
      assert (Hq' : Z.pos N = (Z.of_nat m + 1) * q) by lia.
      assert (Hq0 : 0 < q) by nia.
      destruct (in_dec Z.eq_dec (Z.of_nat m) S) as [Hin|Hout].
      + apply in_split in Hin. destruct Hin as [S1 [S2 ->]].
        pose proof (NoDup_remove_1 _ _ _ NS) as NS'. pose proof (NoDup_remove_2 _ _ _ NS) as Hnot.
        rewrite (fold_const _ (ev (S1 ++ S2)) (Z.pos N * q * (k - Z.of_nat (length (S1 ++ S2))))).
        2:{ intros d Hd. apply ev_step_in; auto; lia. }
        assert (Hlen : length (S1 ++ Z.of_nat m :: S2) = Datatypes.S (length (S1 ++ S2))).
        { rewrite !app_length. cbn. lia. }
        rewrite Hlen, (falling_last _ k).
        change (falling (Z.of_nat m + 1) (Datatypes.S (length (S1 ++ S2)))) with
          ((Z.of_nat m + 1) * falling (Z.of_nat m + 1 - 1) (length (S1 ++ S2))). replace (Z.of_nat m + 1 - 1) with (Z.of_nat m) by lia.
        specialize (IHm (S1 ++ S2) NS').
        assert (HS' : forall p, In p (S1 ++ S2) -> 0 <= p < Z.of_nat m).
        { intros p Hp. assert (p <> Z.of_nat m) by (intros ->; auto).
          specialize (HS p). assert (In p (S1 ++ Z.of_nat m :: S2)); [|specialize (HS H0); lia].
          apply in_app_or in Hp. apply in_or_app. cbn. tauto. }
        specialize (IHm HS').
        set (L := Z.of_nat (length (S1 ++ S2))) in *.
        set (c := count_if (ev (S1 ++ S2)) (all_draws N m)) in *.
        set (FM := falling (Z.of_nat m) (length (S1 ++ S2))) in *. set (FK := falling k (length (S1 ++ S2))) in *.
        transitivity ((FM * c) * (((Z.of_nat m + 1) * q) * Z.pos N * (k - L))); [ring|]. rewrite IHm, <- Hq'. ring.
      + rewrite (fold_const _ (ev S) (Z.pos N * q * (Z.of_nat m + 1 - Z.of_nat (length S)))).
        2:{ intros d Hd. apply ev_step_out; auto; lia. }
        assert (HS' : forall p, In p S -> 0 <= p < Z.of_nat m).
        { intros p Hp. assert (p <> Z.of_nat m) by (intros ->; auto). specialize (HS p Hp). lia. }
        specialize (IHm S NS HS'). pose proof (falling_S (length S) (Z.of_nat m)) as F.
        set (c := count_if (ev S) (all_draws N m)) in *.
        transitivity ((falling (Z.of_nat m + 1) (length S) * (Z.of_nat m + 1 - Z.of_nat (length S))) * (Z.pos N * q * c)); [ring|].
        rewrite F.
        transitivity ((falling (Z.of_nat m) (length S) * c) * (((Z.of_nat m + 1) * q) * Z.pos N)); [ring|].
        rewrite IHm, <- Hq'. ring.
  Qed.
End Prob.
