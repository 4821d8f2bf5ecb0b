(** * Proofs for the Mondrian forest: histories *)
From Coq Require Import ZArith List Bool Lia Reals Lra Permutation.
From Verif Require Import CppBase CppFacts NumOps Mondrian_Model Mondrian_Spec Mondrian_Proofs Mondrian_Train Mondrian_Forest Mondrian_Predict.
Import ListNotations.
Local Open Scope Z_scope.

Lemma forall2_length : forall A B (P : A -> B -> Prop) a b, Forall2 P a b -> length a = length b.
Proof. intros A B P a b H. induction H; cbn; congruence. Qed.

Section Reach.
  Variable O : ops.
  Variable exp_ log_ : num O -> num O.
  Variable rnd : nat -> num O.
  Variable tc fc lc mn : Z.
  Variable lifetime base_measure discount_factor : num O.
  Variable key : num O -> R.
  Variable cmp fine draw : num O -> Prop.
  Hypothesis L : laws O key cmp fine draw fc.
  Hypothesis Hdraw : forall k, draw (rnd k).
  Hypothesis Sz : sizes tc fc lc mn.
  Hypothesis Hlife : nle O (nofZ O 0) lifetime = true.
  (** A property of trees kept by training. *)
  Variable Q : mtree O -> Prop.
  Hypothesis Qleaf : forall a pt, Q (Leaf a [pt]).
  Hypothesis Qgrow : forall pt t t', grows O fine draw pt t t' -> Q t -> Q t'.
  Local Notation reached := (reached O exp_ log_ rnd tc fc lc mn lifetime base_measure discount_factor fine).
  Local Notation holds := (holds O tc fc lc mn lifetime).
  Local Notation trees := (trees O tc fc lc mn lifetime).
  Local Notation input := (input O fc fine).
  Local Notation train := (train O log_ rnd tc fc lc mn lifetime).
  Local Notation fine_pt := (fine_pt O fc fine).

  Definition state (f : forest O) (h : list (point O)) (ts : list (mtree O)) (lost : list Z) : Prop :=
    holds f ts lost /\ ((h = [] /\ ts = [] /\ lost = []) \/ Z.of_nat (length ts) = tc) /\
    Forall (fun t => Permutation (points O t) h /\ Q t) ts.
  Lemma input_len : forall x, input x -> length x = Z.to_nat fc.
  Proof. intros x [H _]. rewrite <- H. symmetry. apply Nat2Z.id. Qed.
  Lemma input_fine : forall x label, input x -> fine_pt (x, label).
  Proof. intros x label [_ H] d Hd. now apply H. Qed.
  Lemma fits : forall h ts, Forall fine_pt h -> Z.of_nat (length h) < 2147483647 -> Forall (fun t => Permutation (points O t) h /\ Q t) ts -> Forall (fit O fc fine) ts.
  Proof.
    intros h ts F Hn H. apply Forall_forall. intros t Ht. rewrite Forall_forall in H. destruct (H t Ht) as [P _]. split.
    - apply Forall_forall. intros p Hp. rewrite Forall_forall in F. apply F. now apply (Permutation_in _ P).
    - now rewrite (Permutation_length P).
  Qed.
  Lemma grow_all : forall pt h ts ts', Forall2 (grows O fine draw pt) ts ts' -> Forall (fun t => Permutation (points O t) h /\ Q t) ts ->
    Forall (fun t => Permutation (points O t) (pt :: h) /\ Q t) ts'.
  Proof.
    intros pt h ts ts' G. induction G as [|t t' ts ts' Hg G IH]; intros F; [constructor|]. apply Forall_cons_iff in F. destruct F as [[F1 F2] F3].
    constructor; [|now apply IH]. split; [|now apply Qgrow with pt t]. rewrite (grows_points _ _ _ _ _ _ Hg). now constructor.
  Qed.
  (** One training. *)
  Lemma train_state : forall f h ts lost x label, state f h ts lost -> Forall fine_pt h -> Z.of_nat (length h) < 2147483647 -> input x -> 0 <= label < lc ->
    (train f x label = Undef Uninitialised /\ (sure_pick O draw fc -> False)) \/
    exists f' ts' lost', train f x label = Ok (f', None) /\ state f' ((x, label) :: h) ts' lost' /\ Z.of_nat (length ts') = tc.
  Proof.
    intros f h ts lost x label [H1 [H2 H3]] F Hn Hx Hl. pose proof Sz as [S1 [S2 S3]].
    destruct H2 as [[-> [-> ->]]|H2].
    - right. destruct (first_train O log_ rnd tc fc lc mn lifetime key cmp fine draw L ltac:(lia) ltac:(lia) Hlife x label (input_len x Hx) Hl (input_fine x label Hx) f H1 ltac:(lia))
        as [f' [ts' [E [A1 [A2 A3]]]]].
      exists f', ts', []. split; [exact E|]. split; [|exact A2]. split; [exact A1|]. split; [now right|].
      apply Forall_forall. intros t Ht. rewrite Forall_forall in A3. destruct (A3 t Ht) as [a ->]. split; [reflexivity|apply Qleaf].
    - destruct (next_train O log_ rnd tc fc lc mn lifetime key cmp fine draw L Hdraw ltac:(lia) Hlife x label (input_len x Hx) Hl (input_fine x label Hx) f ts lost H1 H2 (fits h ts F Hn H3))
        as [B|[f' [ts' [lost' [E [A1 A2]]]]]]; [now left|]. right.
      pose proof (forall2_length _ _ _ _ _ A2) as Le. exists f', ts', lost'. split; [exact E|]. assert (Lt : Z.of_nat (length ts') = tc) by (rewrite <- Le; exact H2).
      split; [|exact Lt]. split; [exact A1|]. split; [now right|]. now apply grow_all with ts.
  Qed.
  Lemma reached_fine : forall f h, reached f h -> Forall fine_pt h.
  Proof.
    intros f h R. induction R as [|f h x label f' r R IH Hx Hl E|f h x s f' b s' R IH Hx E]; [constructor| |exact IH].
    constructor; [now apply input_fine|exact IH].
  Qed.
  Lemma reached_state : forall f h, reached f h -> Z.of_nat (length h) <= 2147483647 ->
    exists ts lost, state f h ts lost /\ (h <> [] -> Z.of_nat (length ts) = tc).
  Proof.
    intros f h R. pose proof Sz as [S1 [S2 S3]]. induction R as [|f h x label f' r R IH Hx Hl E|f h x s f' b s' R IH Hx E]; intros Hn.
    - exists [], []. split; [|congruence]. split; [|split; [now left|constructor]]. apply (holds_init O tc fc lc mn lifetime key cmp fine draw L); lia.
    - cbn [length] in Hn. destruct IH as [ts [lost [S _]]]; [lia|].
      destruct (train_state f h ts lost x label S (reached_fine f h R) ltac:(lia) Hx Hl) as [[B _]|[f1 [ts' [lost' [E1 [A1 A2]]]]]]; [congruence|].
      assert (f1 = f') by congruence. subst f1. exists ts', lost'. auto.
    - destruct IH as [ts [lost [[H1 [H2 H3]] H4]]]; [exact Hn|].
      destruct (predict_ok O exp_ tc fc lc mn lifetime base_measure discount_factor ltac:(lia) ltac:(lia) ltac:(lia) x ltac:(lia) f ts lost s H1)
        as [f1 [m [b1 [E1 [_ [A1 _]]]]]]. assert (f1 = f') by congruence. subst f1. exists ts, lost. split; [|exact H4]. split; [exact A1|]. auto.
  Qed.
  Lemma state_trees : forall f h ts lost, state f h ts lost -> Z.of_nat (length ts) = tc -> trees f h ts lost.
  Proof.
    intros f h ts lost [[H1 [H2 [H3 [H4 [H5 _]]]]] [_ F]] Lt. split; [exact Lt|]. split; [|exact H5]. intros i t Ht. destruct (H3 i t Ht) as [A B].
    split; [exact A|]. split; [exact B|]. rewrite Forall_forall in F. apply (F t). now apply nth_error_In with i.
  Qed.
End Reach.

(** ** Consequences *)
Section Facts.
  Variable O : ops.
  Variable fc lc : Z.
  Variable lifetime : num O.
  Local Notation tree_at := (tree_at O fc lc lifetime).
  Lemma zsum_app : forall a b, zsum (a ++ b) = zsum a + zsum b.
  Proof. unfold zsum. induction a as [|x a IH]; intros b; cbn [app fold_right]; [lia|]. rewrite IH. lia. Qed.
  Lemma tree_counts : forall t f p pt l, tree_at f p pt t -> 0 <= l < lc -> zsum (map (counter O f l) (leaf_ids O t)) = count O l (points O t).
  Proof.
    induction t as [i pts|i d v a IHa b IHb]; intros f p pt l T Hl.
    - destruct T as [n [T1 [_ [_ [_ [_ [_ [_ [_ [_ [_ T]]]]]]]]]]]. cbn [top leaf_ids map points] in *. unfold zsum. cbn [fold_right]. unfold counter. rewrite T1, (T l Hl). lia.
    - destruct T as [n [T1 [_ [_ [_ [_ [_ [_ [_ [_ [_ [_ [_ [Ta Tb]]]]]]]]]]]]]]. cbn [leaf_ids points]. rewrite map_app, zsum_app, count_app.
      rewrite (IHa f i (tau O n) l Ta Hl), (IHb f i (tau O n) l Tb Hl). reflexivity.
  Qed.
  Lemma tree_size : forall (t : mtree O), length (ids O t) = (2 * length (leaf_ids O t) - 1)%nat /\ (1 <= length (leaf_ids O t))%nat.
  Proof. induction t as [i pts|i d v a [A1 A2] b [B1 B2]]; cbn [ids leaf_ids length]; [lia|]. rewrite !app_length. lia. Qed.
  Lemma tree_leaves : forall t f p pt, 1 <= fc -> tree_at f p pt t -> (length (leaf_ids O t) <= length (points O t))%nat.
  Proof.
    induction t as [i pts|i d v a IHa b IHb]; intros f p pt Hf T.
    - destruct T as [n [_ [_ [[_ [_ B]] _]]]]. destruct (B 0 ltac:(lia)) as [q [_ [Hq _]]]. cbn [points leaf_ids length] in *. destruct pts; [destruct Hq|cbn; lia].
    - destruct T as [n [T1 [_ [_ [_ [_ [_ [_ [_ [_ [_ [_ [_ [Ta Tb]]]]]]]]]]]]]]. cbn [leaf_ids points]. rewrite !app_length.
      specialize (IHa _ _ _ Hf Ta). specialize (IHb _ _ _ Hf Tb). lia.
  Qed.
  Lemma leaf_ids_map : forall t : mtree O, map fst (leaves O t) = leaf_ids O t.
  Proof. induction t as [i pts|i d v a IHa b IHb]; cbn [leaves leaf_ids]; [reflexivity|]. now rewrite map_app, IHa, IHb. Qed.
  (** The leaf of a point among separated points. *)
  Lemma routed_leaf : forall t p, (forall v y, nlt O v y = true -> nle O y v = false) -> separated O t -> In p (points O t) ->
    exists pts, In (routed O (fst p) t, pts) (leaves O t) /\ In p pts.
  Proof.
    intros t p X. induction t as [i pts|i d v a IHa b IHb]; intros S I.
    - exists pts. split; [now left|exact I].
    - destruct S as [S1 [S2 [S3 S4]]]. cbn [routed leaves points] in *. change (coord O (fst p, 0) d) with (coord O p d). apply in_app_or in I. destruct I as [I|I].
      + rewrite (S1 p I). destruct (IHa S3 I) as [pts [A B]]. exists pts. split; [apply in_or_app; now left|exact B].
      + rewrite (X _ _ (S2 p I)). destruct (IHb S4 I) as [pts [A B]]. exists pts. split; [apply in_or_app; now right|exact B].
  Qed.
  Lemma leaf_node : forall t f p pt i pts, tree_at f p pt t -> In (i, pts) (leaves O t) ->
    exists n, rd (nodes O f) i = Ok n /\ split_dimension O n = -1 /\ bounding O fc pts (bound_lower O n) (bound_upper O n) /\
      forall l, 0 <= l < lc -> rd (counters O n) l = Ok (count O l pts).
  Proof.
    induction t as [j q|j d v a IHa b IHb]; intros f p pt i pts T I.
    - destruct I as [E|[]]. injection E as <- <-. destruct T as [n [T1 [T2 [T3 [T4 [_ [_ [T5 [_ [_ [_ T6]]]]]]]]]]]. exists n. auto.
    - destruct T as [n [T1 [_ [_ [_ [_ [_ [_ [_ [_ [_ [_ [_ [Ta Tb]]]]]]]]]]]]]]. cbn [leaves] in I. apply in_app_or in I. destruct I as [I|I]; [now apply (IHa f j (tau O n))|now apply (IHb f j (tau O n))].
  Qed.
  Lemma count_in : forall p pts, In p pts -> 0 < count O (snd p) pts.
  Proof.
    intros p pts I. unfold count, with_label. assert (In p (filter (fun q => snd q =? snd p) pts)) by (apply filter_In; split; [exact I|apply Z.eqb_refl]).
    destruct (filter _ pts); [destruct H|cbn; lia].
  Qed.
End Facts.
