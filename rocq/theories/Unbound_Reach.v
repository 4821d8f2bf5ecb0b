(** * Proofs for the unbounded Mondrian forest: histories *)
From Coq Require Import ZArith List Bool Lia Reals Lra Permutation.
From Flocq Require Import Core BinarySingleNaN.
From Verif Require Import CppBase CppFacts Dbl NumOps Utils_Model Utils_Spec Utils_Proofs MCNN_Num Mondrian_Model Mondrian_Spec Mondrian_Proofs Mondrian_Train Mondrian_Forest Mondrian_Num Mondrian_Predict Mondrian_Reach Mondrian_Runs.
From Verif Require Import Unbound_Model Unbound_Spec Unbound_Count Unbound_Train Unbound_Forest.
Import ListNotations.
Local Open Scope Z_scope.

Section Reach.
  Variable O : ops.
  Variable log_ : num O -> num O.
  Variable rnd : nat -> num O.
  Variable tc fc lc : Z.
  Variable lifetime : num O.
  Variable key : num O -> R.
  Variable cmp fine draw : num O -> Prop.
  Hypothesis L : laws O key cmp fine draw fc.
  Hypothesis Hdraw : forall k, draw (rnd k).
  Hypothesis Sz : usizes tc fc lc.
  Hypothesis Hlife : nle O (nofZ O 0) lifetime = true.
  (** A property of trees kept by training. *)
  Variable Q : mtree O -> Prop.
  Hypothesis Qleaf : forall a pt, Q (Leaf a [pt]).
  Hypothesis Qgrow : forall pt t t', grows O fine draw pt t t' -> Q t -> Q t'.
  Local Notation ureached := (ureached O log_ rnd tc fc lc lifetime fine).
  Local Notation holdsU := (holdsU O tc fc lc lifetime).
  Local Notation utrees := (utrees O tc fc lc lifetime).
  Local Notation input := (input O fc fine).
  Local Notation train := (train O log_ rnd tc fc lc lifetime).
  Local Notation fine_pt := (fine_pt O fc fine).

  Definition stateU (f : forest O) (h : list (point O)) (ts : list (mtree O)) : Prop :=
    holdsU f ts /\ ((h = [] /\ ts = []) \/ Z.of_nat (length ts) = tc) /\ Forall (fun t => Permutation (points O t) h /\ Q t) ts.
  Lemma fitsU : forall h ts, Forall fine_pt h -> Z.of_nat (length h) < 9223372036854775807 -> Forall (fun t => Permutation (points O t) h /\ Q t) ts -> Forall (fitU O fc fine) ts.
  Proof.
    intros h ts F Hn H. apply Forall_forall. intros t Ht. rewrite Forall_forall in H. destruct (H t Ht) as [P _]. split.
    - apply Forall_forall. intros p Hp. rewrite Forall_forall in F. apply F. now apply (Permutation_in _ P).
    - now rewrite (Permutation_length P).
  Qed.
  (** One training. *)
  Lemma train_stateU : forall f h ts x label, stateU f h ts -> Forall fine_pt h -> Z.of_nat (length h) < 9223372036854775807 -> input x -> 0 <= label < lc ->
    ((exists e, train f x label = Undef e) /\ h <> [] /\ (able_pick O draw fc -> False)) \/
    exists f' ts', train f x label = Ok (f', None) /\ stateU f' ((x, label) :: h) ts' /\ Z.of_nat (length ts') = tc.
  Proof.
    intros f h ts x label [H1 [H2 H3]] F Hn Hx Hl. pose proof Sz as [S1 [S2 S3]].
    destruct H2 as [[-> ->]|H2].
    - right. destruct (first_trainU O log_ rnd tc fc lc lifetime key cmp fine draw L ltac:(lia) ltac:(lia) Hlife x label (input_len O fc fine x Hx) Hl (input_fine O fc fine x label Hx) f H1)
        as [f' [ts' [E [A1 [A2 A3]]]]].
      exists f', ts'. split; [exact E|]. split; [|exact A2]. split; [exact A1|]. split; [now right|].
      apply Forall_forall. intros t Ht. rewrite Forall_forall in A3. destruct (A3 t Ht) as [a ->]. split; [reflexivity|apply Qleaf].
    - destruct (next_trainU O log_ rnd tc fc lc lifetime key cmp fine draw L Hdraw ltac:(lia) Hlife x label (input_len O fc fine x Hx) Hl (input_fine O fc fine x label Hx) f ts H1 H2 (fitsU h ts F Hn H3))
        as [[[e E] B]|[f' [ts' [E [A1 A2]]]]].
      + left. split; [eauto|]. split; [|exact B]. intros ->. destruct ts as [|t ts].
        * unfold Unbound_Model.train in E. cbn in H2. rewrite <- H2 in E. discriminate.
        * apply Forall_cons_iff in H3. destruct H3 as [[P _] _]. apply Permutation_sym, Permutation_nil in P.
          destruct H1 as [_ [_ [H1 _]]]. destruct (H1 0%nat t eq_refl) as [_ [T _]].
          pose proof (tree_leaves O fc lc lifetime t f (-1) (nofZ O 0) ltac:(lia) T) as C. rewrite P in C. cbn in C. pose proof (tree_size O t). lia.
      + right. pose proof (forall2_length _ _ _ _ _ A2) as Le. exists f', ts'. split; [exact E|]. assert (Lt : Z.of_nat (length ts') = tc) by (rewrite <- Le; exact H2).
        split; [|exact Lt]. split; [exact A1|]. split; [now right|]. now apply (grow_all O fine draw Q Qgrow) with ts.
  Qed.
  Lemma ureached_fine : forall f h, ureached f h -> Forall fine_pt h.
  Proof.
    intros f h R. induction R as [|f h x label f' r R IH Hx Hl E]; [constructor|]. constructor; [now apply input_fine|exact IH].
  Qed.
  Lemma ureached_state : forall f h, ureached f h -> Z.of_nat (length h) <= 9223372036854775807 ->
    exists ts, stateU f h ts /\ (h <> [] -> Z.of_nat (length ts) = tc).
  Proof.
    intros f h R. pose proof Sz as [S1 [S2 S3]]. induction R as [|f h x label f' r R IH Hx Hl E]; intros Hn.
    - exists []. split; [|congruence]. split; [|split; [now left|constructor]].
      apply (holdsU_init O tc fc lc lifetime ltac:(lia) ltac:(lia) (repeat (nofZ O 0) (Z.to_nat fc))). apply repeat_length.
    - cbn [length] in Hn. destruct IH as [ts [S _]]; [lia|].
      destruct (train_stateU f h ts x label S (ureached_fine f h R) ltac:(lia) Hx Hl) as [[[e B] _]|[f1 [ts' [E1 [A1 A2]]]]]; [congruence|].
      assert (f1 = f') by congruence. subst f1. exists ts'. auto.
  Qed.
  Lemma stateU_utrees : forall f h ts, stateU f h ts -> Z.of_nat (length ts) = tc -> utrees f h ts.
  Proof.
    intros f h ts [[H1 [H2 [H3 [H4 H5]]]] [_ F]] Lt. split; [exact Lt|]. split; [|exact H5]. intros i t Ht. destruct (H3 i t Ht) as [A [B C]].
    split; [exact A|]. split; [exact B|]. split; [|exact C]. rewrite Forall_forall in F. apply (F t). now apply nth_error_In with i.
  Qed.

  (** The heap seen as a pool without free nodes. *)
  Lemma taken : forall t f p pt i n, nle O (nofZ O 0) pt = true -> tree_at O fc lc lifetime f p pt t -> In i (ids O t) -> rd (nodes O f) i = Ok n -> available O n = false.
  Proof.
    induction t as [j q|j d v a IHa b IHb]; intros f p pt i n P T I E.
    - destruct T as [m [T1 [_ [_ [_ [T5 _]]]]]]. destruct I as [<-|[]]. cbn [top] in T1. assert (m = n) by congruence. subst m.
      apply (used O fc key cmp fine draw L). now apply (le_trans O fc key cmp fine draw L) with pt.
    - destruct T as [m [T1 [_ [_ [_ [T5 [_ [_ [_ [_ [_ [_ [_ [Ta Tb]]]]]]]]]]]]]]. assert (P' : nle O (nofZ O 0) (tau O m) = true) by now apply (le_trans O fc key cmp fine draw L) with pt.
      destruct I as [<-|I]; [cbn [top] in T1; assert (m = n) by congruence; subst m; now apply (used O fc key cmp fine draw L)|].
      apply in_app_or in I. destruct I as [I|I]; [now apply (IHa f j (tau O m) i)|now apply (IHb f j (tau O m) i)].
  Qed.
  Lemma holds_of : forall f ts, holdsU f ts -> holds O tc fc lc (Z.of_nat (length (nodes O f))) lifetime f ts [].
  Proof.
    intros f ts [H1 [H2 [H3 [H4 H5]]]]. pose proof (le_refl O fc key cmp fine draw L (nofZ O 0) (proj1 (l_0 _ _ _ _ _ _ L))) as Z0.
    assert (HI : forall i, 0 <= i < Z.of_nat (length (nodes O f)) -> In i (all_ids O ts)) by (intros i Hi; apply (Permutation_in _ (Permutation_sym H5)), in_addresses; exact Hi).
    assert (A : forall i n, rd (nodes O f) i = Ok n -> available O n = false).
    { intros i n E. assert (I : In i (all_ids O ts)) by (apply HI; now apply rd_bounds in E).
      apply in_concat in I. destruct I as [u [I1 I2]]. apply in_map_iff in I1. destruct I1 as [t [<- It]]. apply In_nth_error in It. destruct It as [k Hk].
      destruct (H3 k t Hk) as [_ [T _]]. now apply (taken t f (-1) (nofZ O 0) i n). }
    split; [exact H1|]. split; [exact H2|]. split; [intros i t Ht; destruct (H3 i t Ht) as [B [C _]]; auto|]. split; [exact H4|]. split; [|split].
    - split; [reflexivity|]. rewrite app_nil_r. split; [now apply (heap_nodup O f)|]. split; [intros i I; now apply (heap_in O f _ i H5)|].
      intros i Hi. split; [intros [n [E E']]; rewrite (A i n E) in E'; discriminate|]. intros N. exfalso. now apply N, HI.
    - split; [cbn; lia|congruence].
    - intros i n E E'. rewrite (A i n E) in E'. discriminate.
  Qed.
End Reach.

(** ** Concrete histories *)
Section Runs.
  Variable O : ops.
  Variable log_ : num O -> num O.
  Variable rnd : nat -> num O.
  Variable tc fc lc : Z.
  Variable lifetime : num O.
  Variable ok_value : num O -> Prop.
  Local Notation train := (train O log_ rnd tc fc lc lifetime).
  Local Notation ureached := (ureached O log_ rnd tc fc lc lifetime ok_value).
  Local Notation input := (input O fc ok_value).
  Fixpoint urun (f : forest O) (cs : list (point O)) : res (forest O) :=
    match cs with
    | [] => Ok f
    | (x, label) :: cs => do r <- train f x label; urun (fst r) cs
    end.
  Lemma urun_reached : forall cs f h f', Forall (valid O fc lc ok_value) cs -> ureached f h -> urun f cs = Ok f' -> ureached f' (rev cs ++ h).
  Proof.
    induction cs as [|[x label] cs IH]; intros f h f' V R E; cbn [urun rev app] in *; [congruence|].
    apply Forall_cons_iff in V. destruct V as [V1 V2]. destruct (bind_inv _ _ _ _ _ E) as [[f1 r] [E1 E2]]. cbn [fst] in E2.
    rewrite <- app_assoc. cbn [app]. apply IH with f1; auto. apply ureached_train with f r; auto; [now apply (valid_input O fc lc ok_value (x, label))|apply V1].
  Qed.
  Hypothesis total : forall f h x label, ureached f h -> Z.of_nat (length h) < 9223372036854775807 -> input x -> 0 <= label < lc -> exists f', train f x label = Ok (f', None).
  Lemma any_ureached : forall h, Forall (valid O fc lc ok_value) h -> Z.of_nat (length h) <= 9223372036854775807 -> exists f, ureached f h.
  Proof.
    induction h as [|[x label] h IH]; intros V Hn; [eexists; constructor|]. cbn [length] in Hn. apply Forall_cons_iff in V. destruct V as [V1 V2].
    destruct IH as [f R]; [exact V2|lia|]. destruct (total f h x label R ltac:(lia) (valid_input O fc lc ok_value (x, label) V1) ltac:(apply V1)) as [f' E].
    exists f'. apply ureached_train with f None; auto; [now apply (valid_input O fc lc ok_value (x, label))|apply V1].
  Qed.
End Runs.

Section Log.
  Variable O : ops.
  Variable log_ log' : num O -> num O.
  Variable rnd : nat -> num O.
  Variable tc fc lc : Z.
  Variable lifetime : num O.
  Hypothesis Same : forall k, log' (nsub O (nofZ O 1) (rnd k)) = log_ (nsub O (nofZ O 1) (rnd k)).
  Lemma uextend_log : forall steps f i t x l,
    extend_block O log' rnd fc lc lifetime steps f i t x l = extend_block O log_ rnd fc lc lifetime steps f i t x l.
  Proof.
    induction steps as [|steps IH]; intros f i t x l; cbn [extend_block]; [reflexivity|].
    apply bind_ext. intros n. apply bind_ext. intros pt. apply bind_ext. intros [ps sum].
    assert (E : (if neq O sum (nofZ O 0) then (nofZ O (-1), f) else let (u, f) := uniform O rnd f in (rand_exponential O log' u sum, f)) =
                (if neq O sum (nofZ O 0) then (nofZ O (-1), f) else let (u, f) := uniform O rnd f in (rand_exponential O log_ u sum, f))).
    { destruct (neq O sum (nofZ O 0)); [reflexivity|]. cbn [uniform]. unfold rand_exponential. now rewrite Same. }
    rewrite E. clear E. match goal with |- (let (_, _) := ?q in _) = _ => destruct q as [e f1] end. destruct (_ && _); [reflexivity|].
    apply bind_ext. intros f3. apply bind_ext. intros n1. destruct (is_leaf O n1); [reflexivity|]. apply bind_ext. intros y. apply bind_ext. intros v. apply IH.
  Qed.
  Lemma utrain_log : forall f x l, train O log' rnd tc fc lc lifetime f x l = train O log_ rnd tc fc lc lifetime f x l.
  Proof.
    intros f x l. unfold train. apply forZ_ext. intros i [g r]. unfold train_tree. f_equal. apply bind_ext. intros k. destruct (k =? -1); [reflexivity|]. apply uextend_log.
  Qed.
  Lemma urun_log : forall cs f, urun O log' rnd tc fc lc lifetime f cs = urun O log_ rnd tc fc lc lifetime f cs.
  Proof. induction cs as [|[x l] cs IH]; intros f; cbn [urun]; [reflexivity|]. rewrite utrain_log. apply bind_ext. intros r. apply IH. Qed.
End Log.

(** ** The choice of the dimension *)
Lemma able_rops : forall fc, 1 <= fc -> able_pick rops rdraw fc.
Proof.
  intros fc Hfc lo hi x u Hu w sum Hs. cbn [neq nofZ rops] in Hs. change (num rops) with R in *.
  assert (Lw : length w = Z.to_nat fc) by (unfold w; now rewrite map_length, zrange_length).
  assert (Pw : Forall (fun y => 0 <= y)%R w).
  { apply Forall_forall. intros y Hy. unfold w in Hy. apply in_map_iff in Hy. destruct Hy as [d [<- _]]. apply rdist_pos. }
  assert (Es : sum = partial_sum w (length w)) by (unfold partial_sum; now rewrite firstn_all).
  assert (Ps : (0 <= sum)%R).
  { unfold sum. cbn [nadd nofZ rops]. clear - Pw. assert (G : forall a, (0 <= a -> 0 <= fold_left Rplus w a)%R).
    { induction Pw as [|y l Hy Hl IH]; intros a Ha; cbn; [exact Ha|]. apply IH. lra. }
    apply G. lra. }
  assert (Ns : sum <> 0%R) by (intros E; rewrite E, Req_bool_true in Hs; [discriminate|reflexivity]).
  destruct (pick_real w u Pw) as [p [i [P1 [P2 [P3 [_ P5]]]]]]; [apply Rlt_le_trans with sum; [|apply Req_le, Es]; destruct (Rle_lt_or_eq_dec _ _ Ps) as [|E]; [assumption|now symmetry in E]|unfold rdraw in Hu; lra|].
  rewrite <- turn_given in P1; [|intros E; rewrite E in Lw; cbn in Lw; lia|exact Ps].
  rewrite Lw, Z2Nat.id in P1, P2, P3 by lia.
  exists p, i. split; [exact P1|]. split; [exact P2|]. split; [exact P3|].
  assert (E : nth (Z.to_nat i) w 0%R = dist rops (lo i) (hi i) (x i)).
  { pose proof (rd_zrange _ (fun d => dist rops (lo d) (hi d) (x d)) fc i P3) as E. fold w in E. apply rd_ok_iff in E. destruct E as [_ E].
    now apply nth_error_nth with (d := 0%R) in E. }
  rewrite E in P5. apply rdist_pos in P5. cbn [nlt rops]. rewrite !Rlt_iff. exact P5.
Qed.
