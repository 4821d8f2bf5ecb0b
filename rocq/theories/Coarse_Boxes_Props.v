(** * Properties of the coarse Mondrian forest: the boxes after a split at the barycenter *)
From Coq Require Import ZArith List Bool Lia Reals Lra.
From Flocq Require Import Core BinarySingleNaN.
From Verif Require Import CppBase CppFacts Dbl DblFacts NumOps NumFacts Utils_Model Utils_Proofs MCNN_Num.
From Verif Require Import Mondrian_Model Mondrian_Spec Mondrian_Proofs Mondrian_Num Mondrian_Runs Mondrian_Props.
From Verif Require Import Coarse_Model Coarse_Spec Coarse_Heap Coarse_Walk Coarse_Train Coarse_Trim Coarse_Forest Coarse_Props Coarse_Trim_Props Coarse_Center Coarse_Center_Laws Coarse_Place Coarse_Place_Props Coarse_Boxes.
Import ListNotations.
Local Open Scope Z_scope.

(** The box of a node in dimension [j] is the interval from [lo] to [hi]. *)
Definition spans (n : node dops) (j : Z) (lo hi : R) : Prop :=
  exists l u : dbl, rdi (bound_lower dops n) j = Ok l /\ rdi (bound_upper dops n) j = Ok u /\ is_finite l = true /\ is_finite u = true /\ B2R l = lo /\ B2R u = hi.

Lemma sub_finite : forall lo hi a b : dbl, is_finite lo = true -> is_finite hi = true -> is_finite a = true -> is_finite b = true -> (B2R lo <= B2R a <= B2R hi)%R -> (B2R lo <= B2R b <= B2R hi)%R ->
  is_finite (dsub hi lo) = true -> is_finite (dsub a b) = true.
Proof.
  intros lo hi a b Fl Fh Fa Fb Ha Hb F.
  pose proof (Bminus_correct 53 1024 Hprec64 Hmax64 mode_NE hi lo Fh Fl) as C. change (Bminus mode_NE hi lo) with (dsub hi lo) in C. change (round_mode mode_NE) with ZnearestE in C.
  pose proof (Bminus_correct 53 1024 Hprec64 Hmax64 mode_NE a b Fa Fb) as D. change (Bminus mode_NE a b) with (dsub a b) in D. change (round_mode mode_NE) with ZnearestE in D.
  destruct (Rlt_bool_spec (Rabs (rnd64 (B2R hi - B2R lo))) (bpow radix2 1024)) as [G|G]; [|exfalso; destruct C as [C1 _]; destruct (dsub hi lo); discriminate].
  apply Rabs_lt_inv in G. rewrite Rlt_bool_true in D; [apply D|].
  assert (U : (rnd64 (B2R a - B2R b) <= rnd64 (B2R hi - B2R lo))%R) by (apply rnd_le; lra).
  assert (L : (- rnd64 (B2R hi - B2R lo) <= rnd64 (B2R a - B2R b))%R). { rewrite <- round_NE_opp. apply rnd_le. lra. }
  apply Rabs_def1; lra.
Qed.
Lemma way_finite : forall u lo hi : dbl, is_finite u = true -> (0 < B2R u < 1)%R -> is_finite lo = true -> is_finite hi = true -> (B2R lo <= B2R hi)%R -> is_finite (dsub hi lo) = true ->
  is_finite (dadd (dmul u (dsub hi lo)) lo) = true.
Proof.
  intros u lo hi Fu Hu Fl Fh Le Fd. destruct (share_le u lo hi Hu Le) as [S1 S2]. unfold share in *.
  assert (Ed : B2R (dsub hi lo) = rnd64 (B2R hi - B2R lo)).
  { pose proof (Bminus_correct 53 1024 Hprec64 Hmax64 mode_NE hi lo Fh Fl) as C. change (Bminus mode_NE hi lo) with (dsub hi lo) in C. change (round_mode mode_NE) with ZnearestE in C.
    destruct (Rlt_bool _ _); [apply C|]. destruct C as [C1 _]. exfalso. destruct (dsub hi lo); try discriminate. }
  set (d := dsub hi lo) in *. clearbody d. rewrite <- Ed in *. pose proof (abs_lt d) as Ad. apply Rabs_lt_inv in Ad.
  assert (Pd : (0 <= B2R d)%R) by (rewrite Ed, <- NumFacts.rnd_0; apply rnd_le; lra).
  assert (Sd : (rnd64 (B2R u * B2R d) <= B2R d)%R) by (rewrite <- (rnd_dbl d) at 2; apply rnd_le; nra).
  pose proof (Bmult_correct 53 1024 Hprec64 Hmax64 mode_NE u d) as C. change (Bmult mode_NE u d) with (dmul u d) in C. change (round_mode mode_NE) with ZnearestE in C.
  rewrite Rlt_bool_true in C by (apply Rabs_def1; lra). destruct C as [C1 [C2 _]]. rewrite Fu, Fd in C2. cbn in C2.
  pose proof (Bplus_correct 53 1024 Hprec64 Hmax64 mode_NE (dmul u d) lo C2 Fl) as C. change (Bplus mode_NE (dmul u d) lo) with (dadd (dmul u d) lo) in C. change (round_mode mode_NE) with ZnearestE in C. rewrite C1 in C.
  assert (B : (B2R lo <= rnd64 (rnd64 (B2R u * B2R d) + B2R lo) <= B2R hi)%R) by (apply rnd_between; [apply rnd_dbl|apply rnd_dbl|lra]).
  pose proof (abs_lt lo) as A1. pose proof (abs_lt hi) as A2. apply Rabs_lt_inv in A1, A2. rewrite Rlt_bool_true in C by (apply Rabs_def1; lra). apply C.
Qed.

Lemma rdi_wr : forall A (b b' : list (option A)) d v j, wr b d (Some v) = Ok b' -> 0 <= j -> rdi b' j = if j =? d then Ok v else rdi b j.
Proof. intros A b b' d v j H Hj. apply wr_inv in H. destruct H as [B ->]. unfold rdi. rewrite rd_upd, (Z.eqb_sym d j) by lia. destruct (j =? d); reflexivity. Qed.
Lemma hull_at : forall (O : ops) (c : config O) n x l u, hull_box O c n x = Ok (l, u) -> forall j, 0 <= j < c_features O c ->
  exists xj lo hi, rd x j = Ok xj /\ rdi (bound_lower O n) j = Ok lo /\ rdi (bound_upper O n) j = Ok hi /\ rdi l j = Ok (if nlt O lo xj then lo else xj) /\ rdi u j = Ok (if nlt O xj hi then hi else xj).
Proof.
  intros O c n x l u H.
  assert (P : Z.of_nat (length (fst (l, u))) = 0 + Z.of_nat (Z.to_nat (c_features O c)) /\ Z.of_nat (length (snd (l, u))) = 0 + Z.of_nat (Z.to_nat (c_features O c)) /\ forall j, 0 <= j < 0 + Z.of_nat (Z.to_nat (c_features O c)) ->
    exists xj lo hi, rd x j = Ok xj /\ rdi (bound_lower O n) j = Ok lo /\ rdi (bound_upper O n) j = Ok hi /\ rdi (fst (l, u)) j = Ok (if nlt O lo xj then lo else xj) /\ rdi (snd (l, u)) j = Ok (if nlt O xj hi then hi else xj)).
  { refine (forZ_inv_post _ (fun q (r : list (option (num O)) * list (option (num O))) => Z.of_nat (length (fst r)) = q /\ Z.of_nat (length (snd r)) = q /\ forall j, 0 <= j < q ->
      exists xj lo hi, rd x j = Ok xj /\ rdi (bound_lower O n) j = Ok lo /\ rdi (bound_upper O n) j = Ok hi /\ rdi (fst r) j = Ok (if nlt O lo xj then lo else xj) /\ rdi (snd r) j = Ok (if nlt O xj hi then hi else xj)) _ _ 0 _ _ _ _ H).
    - cbn. split; [reflexivity|]. split; [reflexivity|]. intros; lia.
    - intros q [a b] r Hq [La [Lb F]] E. cbn [fst snd] in *. inv_bind E. inv_bind E. inv_bind E. injection E as <-. cbn [fst snd]. rewrite !app_length. cbn [length]. split; [lia|]. split; [lia|]. intros j Hj.
      destruct (Z.eq_dec j q) as [->|Nj].
      + exists v, v0, v1. split; [exact E0|]. split; [exact E1|]. split; [exact E2|]. unfold rdi, rd. rewrite (proj2 (Z.ltb_ge q 0)) by lia. rewrite !nth_error_app2 by lia. replace (Z.to_nat q - length a)%nat with 0%nat by lia. replace (Z.to_nat q - length b)%nat with 0%nat by lia. auto.
      + destruct (F j) as [xj [lo [hi [F1 [F2 [F3 [F4 F5]]]]]]]; [lia|]. exists xj, lo, hi. split; [exact F1|]. split; [exact F2|]. split; [exact F3|]. unfold rdi, rd in F4, F5 |- *. destruct (j <? 0); [discriminate|]. rewrite !nth_error_app1 by lia. auto. }
  cbn [fst snd] in P. destruct P as [_ [_ P]]. intros j Hj. apply P. lia.
Qed.
(** A box is not changed by a point inside. *)
Lemma hull_spans : forall (c : config dops) n x m, hull_box dops c n x = Ok (box dops m) -> forall j lo hi xj, 0 <= j < c_features dops c -> spans n j lo hi -> rd x j = Ok xj -> is_finite xj = true -> (lo <= B2R xj <= hi)%R -> spans m j lo hi.
Proof.
  intros c n x m H j lo hi xj Hj [l [u [Rl [Ru [Fl [Fu [<- <-]]]]]]] Rx Fx In. destruct (hull_at dops c n x _ _ H j Hj) as [xj' [l' [u' [H1 [H2 [H3 [H4 H5]]]]]]].
  assert (xj' = xj) by congruence. assert (l' = l) by congruence. assert (u' = u) by congruence. subst xj' l' u'. cbn [nlt dops] in H4, H5.
  exists (if dlt l xj then l else xj), (if dlt xj u then u else xj). split; [exact H4|]. split; [exact H5|]. split; [now destruct (dlt l xj)|]. split; [now destruct (dlt xj u)|].
  split; [destruct (dlt l xj) eqn:G|destruct (dlt xj u) eqn:G]; try reflexivity; apply Rle_antisym; try apply In; apply Rnot_lt_le; intros X; apply dlt_true in X; auto; congruence.
Qed.
Lemma parts_spans : forall n d v left m1 m2 l1 u1 lo hi, parts dops n d v left m1 m2 -> clip dops d v left (set_box dops n (fst m1) (snd m1)) = Ok (set_box dops n l1 u1) -> is_finite v = true ->
  spans n d lo hi -> (lo <= B2R v <= hi)%R -> forall j lj hj, 0 <= j -> spans n j lj hj ->
  spans (set_box dops n l1 u1) j (if (j =? d) && negb left then B2R v else lj) (if (j =? d) && left then B2R v else hj) /\
  spans (set_box dops n (fst m2) (snd m2)) j (if (j =? d) && left then B2R v else lj) (if (j =? d) && negb left then B2R v else hj).
Proof.
  intros n d v left m1 m2 l1 u1 lo hi P C Fv Sd Hv j lj hj Hj Sj. unfold clip in C. cbn [bound_lower bound_upper set_box] in C. inv_bind C. inv_bind C. inv_bind C. inv_bind C.
  assert (El : v3 = l1) by (injection C; auto). assert (Eu : v1 = u1) by (injection C; auto). subst v3 v1. clear C.
  destruct Sj as [l [u [Rl [Ru [Fl [Fu [El Eu]]]]]]]. destruct Sd as [l0 [u0 [Rl0 [Ru0 [Fl0 [Fu0 [El0 Eu0]]]]]]].
  pose proof (rdi_wr _ _ _ _ _ j E0 Hj) as W1. pose proof (rdi_wr _ _ _ _ _ j E2 Hj) as W2. assert (Dd : 0 <= d) by (apply wr_inv in E0; destruct E0; lia).
  unfold parts in P. cbn [nlt dops] in W1, W2. destruct left.
  - destruct P as [P1 [P2 [P3 P4]]]. pose proof (rdi_wr _ _ _ _ _ j P2 Hj) as W3. pose proof (rdi_wr _ _ _ _ _ d P2 Dd) as W3d. pose proof (rdi_wr _ _ _ _ _ j P3 Hj) as W4. rewrite Z.eqb_refl in W3d.
    rewrite P1 in *. assert (v0 = v) by congruence. assert (v2 = l0) by congruence. subst v0 v2. rewrite W3 in W1. clear W3.
    assert (G : dlt v l0 = false) by (destruct (dlt v l0) eqn:G; auto; apply dlt_true in G; auto; lra). rewrite G in W2. assert (G' : dlt v v = false) by (destruct (dlt v v) eqn:G'; auto; apply dlt_true in G'; auto; lra). rewrite G' in W1.
    destruct (Z.eqb_spec j d) as [->|N]; cbn [andb negb].
    + assert (l = l0) by congruence. assert (u = u0) by congruence. subst l u. split; [exists l0, v; cbn [bound_lower bound_upper set_box]; auto 8|exists v, u0; cbn [bound_lower bound_upper set_box]; rewrite P4; auto 8].
    + split; [exists l, u; cbn [bound_lower bound_upper set_box]; rewrite W1, W2; auto 8|exists l, u; cbn [bound_lower bound_upper set_box]; rewrite W4, P4; auto 8].
  - destruct P as [P1 [P2 [P3 P4]]]. pose proof (rdi_wr _ _ _ _ _ j P2 Hj) as W3. pose proof (rdi_wr _ _ _ _ _ d P2 Dd) as W3d. pose proof (rdi_wr _ _ _ _ _ j P3 Hj) as W4. rewrite Z.eqb_refl in W3d.
    rewrite P1 in *. assert (v0 = u0) by congruence. assert (v2 = v) by congruence. subst v0 v2. rewrite W3 in W2. clear W3.
    assert (G : dlt u0 v = false) by (destruct (dlt u0 v) eqn:G; auto; apply dlt_true in G; auto; lra). rewrite G in W1. assert (G' : dlt v v = false) by (destruct (dlt v v) eqn:G'; auto; apply dlt_true in G'; auto; lra). rewrite G' in W2.
    destruct (Z.eqb_spec j d) as [->|N]; cbn [andb negb].
    + assert (l = l0) by congruence. assert (u = u0) by congruence. subst l u. split; [exists v, u0; cbn [bound_lower bound_upper set_box]; auto 8|exists l0, v; cbn [bound_lower bound_upper set_box]; rewrite P4; auto 8].
    + split; [exists l, u; cbn [bound_lower bound_upper set_box]; rewrite W1, W2; auto 8|exists l, u; cbn [bound_lower bound_upper set_box]; rewrite W4, P4; auto 8].
Qed.
(** Two results of the same call. *)
Ltac both A B := let X := fresh in pose proof (eq_trans (eq_sym A) B) as X; injection X as X; exact X.
(** The point is inside the box, whose sides are finite. *)
Definition inside (c : config dops) (n : node dops) (x : list dbl) : Prop := forall j, 0 <= j < c_features dops c ->
  exists lo hi xj : dbl, rdi (bound_lower dops n) j = Ok lo /\ rdi (bound_upper dops n) j = Ok hi /\ rd x j = Ok xj /\ is_finite lo = true /\ is_finite hi = true /\ is_finite xj = true /\
    (B2R lo <= B2R xj <= B2R hi)%R /\ is_finite (dsub hi lo) = true.

(** *** C123: a split at the barycenter gives the box of the leaf to the new node and the two parts of it to the children *)
Theorem coarse_barycenter_boxes : forall log_ rnd (c : config dops) s ts k t i cs n t0 x label s', (forall q, ddraw (rnd q)) -> dlt (c_life dops c) (dofZ 0) = false -> 0 < c_nodes dops c ->
  ctrees dops c s ts -> avail dops s = free_count dops s -> (forall j m, get dops s j = Ok m -> available dops m = true -> m = blank_node dops c) ->
  nth_error ts k = Some (Some t) -> In (i, cs) (cleaves dops t) -> (forall l, 0 <= l < c_labels dops c -> 0 <= at_label l cs) ->
  Z.of_nat (length x) = c_features dops c -> get dops s i = Ok n -> parent_time dops (fr dops s) n = Ok t0 -> inside c n x ->
  split_barycenter dops log_ rnd c s i (Z.of_nat k) x label t0 = Ok (s', true) ->
  exists a na nl nr d v, get dops s' a = Ok na /\ split_dimension dops na = d /\ split_value dops na = Some v /\ 0 <= d < c_features dops c /\
    get dops s' (child_left dops na) = Ok nl /\ get dops s' (child_right dops na) = Ok nr /\ (child_left dops na = i \/ child_right dops na = i) /\
    is_leaf dops nl = true /\ is_leaf dops nr = true /\ parent dops nl = a /\ parent dops nr = a /\
    (* the split is inside the box *)
    (forall lo hi, spans n d lo hi -> lo <= B2R v <= hi)%R /\
    (* the boxes *)
    forall j lo hi, 0 <= j < c_features dops c -> spans n j lo hi ->
      spans na j lo hi /\ spans nl j lo (if j =? d then B2R v else hi) /\ spans nr j (if j =? d then B2R v else lo) hi.
Proof.
  intros log_ rnd c s ts k t i cs n t0 x label s' Hd Hlife Hn T Ha Hb Hk Hi Hcs Hx Gn Et In H.
  destruct (trees_before dops c s ts k t ltac:(lia) T Ha Hb Hk) as [lim [rest Bf]]. destruct (leaf_before dops c _ _ t s (-1) rest 0 i cs Bf Hi) as [p [rest' [D Bl]]].
  assert (Ht : dlt t0 (dofZ 0) = false).
  { pose proof Bl as [St [[_ [_ [P _]]] [Ab _]]]. destruct St as [m [G [Pm _]]]. cbn [ctop] in G. assert (m = n) by (unfold get in Gn; congruence). subst m.
    apply (parent_time_ok dops tlaws_dops s rest' p D n t0 Ab); auto. intros j Hj. apply P, in_or_app. now left. }
  destruct (split_place log_ rnd c Hd Hlife Hn _ _ s p i cs rest' D t0 n x label s' Bl Ht Hcs Hx Gn H) as [d [b [lo [hi [xd [q [a [na [ni [Q1 [Q2 [Q3 [Q4 [Q5 [Q6 [Q7 [Q8 [Q9 [Q10 [Q11 [Q12 [Q13 Q14]]]]]]]]]]]]]]]]]]]]]].
  set (v := dadd _ _) in Q13. assert (Fb : is_finite b = true) by (eapply inside_finite; eauto).
  destruct (In d Q1) as [lo' [hi' [xd' [I1 [I2 [I3 [I4 [I5 [I6 [I7 I8]]]]]]]]]]. assert (lo' = lo) by both I1 Q3. assert (hi' = hi) by both I2 Q4. assert (xd' = xd) by both I3 Q5. subst lo' hi' xd'.
  apply dlt_true in Q6; auto. apply dlt_true in Q7; auto. destruct (Hd q) as [Fu Hu].
  assert (V : is_finite v = true /\ (B2R lo <= B2R v <= B2R hi)%R).
  { assert (F1 : is_finite (dsub b xd) = true) by (apply (sub_finite lo hi); auto; lra). assert (F2 : is_finite (dsub xd b) = true) by (apply (sub_finite lo hi); auto; lra). specialize (Q8 I6). unfold v.
    destruct (dlt b xd) eqn:L1; [apply dlt_true in L1; auto|].
    - destruct (dlt xd b) eqn:L2; [apply dlt_true in L2; auto; lra|]. split; [apply way_finite; auto; lra|]. pose proof (proj1 (way (rnd q) b xd Fu Hu Fb I6 ltac:(lra) F2)). lra.
    - assert (L2 : (B2R xd < B2R b)%R). { destruct (Rlt_le_dec (B2R xd) (B2R b)) as [G|G]; [exact G|exfalso]. assert (X : dlt b xd = true) by (apply dlt_true; auto; lra). congruence. }
      replace (dlt xd b) with true by (symmetry; apply dlt_true; auto). split; [apply way_finite; auto; lra|]. pose proof (proj1 (way (rnd q) xd b Fu Hu I6 Fb ltac:(lra) F1)). lra. }
  destruct V as [Fv Bv]. clearbody v. clear Q2 Q8 Q14.
  (* the call of [split_at] *)
  assert (C : exists s1 d1 v1 q1, drawn_only dops s s1 /\ split_at dops rnd c s1 i (Z.of_nat k) d1 v1 (dadd t0 (dmul (dsub (tau dops n) t0) (rnd q1))) x label = Ok s').
  { clear - H Gn. unfold split_barycenter in H. rewrite Gn in H. cbn [bind] in H. destruct (c_helper dops c =? SPLIT_HELPER_NONE); [discriminate|].
    inv_bind H. inv_bind H. destruct v0 as [probs sum]. destruct (draw_time dops log_ rnd s sum) as [e s0] eqn:Ed. apply draw_time_only in Ed. destruct (neq dops sum (nofZ dops 0)); [discriminate|].
    inv_bind H. destruct (Coarse_Model.uniform dops rnd s0) as [u s1] eqn:Eu. inv_bind H. inv_bind H. inv_bind H. destruct (Coarse_Model.uniform dops rnd s1) as [u2 s2] eqn:Eu2. inv_bind H. injection H as <-.
    unfold Coarse_Model.uniform, Mondrian_Model.uniform in Eu, Eu2. injection Eu as Eu <-. injection Eu2 as Eu2 <-. rewrite <- Eu2 in E5. do 4 eexists. split; [|exact E5]. eapply drawn_only_trans; [exact Ed|repeat split]. }
  destruct C as [s1 [d1 [v1 [q1 [Dr C]]]]].
  assert (Gn1 : get dops s1 i = Ok n) by (unfold get; rewrite (proj1 Dr); exact Gn).
  assert (Tn : dlt (tau dops n) (dofZ 0) = false).
  { pose proof Bl as [St _]. destruct (stored_node dops c _ (fr dops s) p St) as [m [M1 [_ [_ [_ [M5 _]]]]]]. cbn [Coarse_Spec.ctop] in M1. assert (m = n) by (unfold Coarse_Model.get in Gn; congruence). now subst m. }
  apply (split_at_boxes dops rnd c tlaws_dops (Z.of_nat k) lim x label Hn s1 p i cs rest' D d1 v1 _ s' n) in C; [|eapply before_drawn; [exact Dr|exact Bl]|exact (mid_dops _ _ _ Ht Tn (Hd q1))|exact Gn1].
  destruct C as [a1 [b1 [left [xd1 [na1 [nb1 [ni1 [m1 [m2 [l1 [u1 [C1 [C2 [C3 [C4 [C5 [C6 [C7 [C8 [C9 [C10 [C11 [C12 [C13 [C14 [C15 C16]]]]]]]]]]]]]]]]]]]]]]]]]].
  assert (ni1 = ni) by congruence. subst ni1. assert (Xa : a1 = a) by congruence. rewrite Xa in C2, C6. clear a1 C5 Xa. assert (na1 = na) by congruence. subst na1. assert (Xd : d1 = d) by congruence. clear C7. subst d1. assert (v1 = v) by (pose proof (eq_trans (eq_sym C8) Q13) as X; injection X as X; exact X). subst v1. assert (xd1 = xd) by both C1 Q5. subst xd1.
  assert (Sd : spans n d (B2R lo) (B2R hi)) by (exists lo, hi; auto 8).
  assert (Hull : forall j lj hj, 0 <= j < c_features dops c -> spans n j lj hj -> exists xj, rd x j = Ok xj /\ is_finite xj = true /\ (lj <= B2R xj <= hj)%R).
  { intros j lj hj Hj [l [u [S1 [S2 [S3 [S4 [<- <-]]]]]]]. destruct (In j Hj) as [l' [u' [xj [J1 [J2 [J3 [_ [_ [J6 [J7 _]]]]]]]]]]. assert (l' = l) by both J1 S1. assert (u' = u) by both J2 S2. subst. eauto. }
  assert (Un : forall lo2 hi2, spans n d lo2 hi2 -> (lo2 <= B2R v <= hi2)%R).
  { intros lo2 hi2 [l [u [S1 [S2 [_ [_ [<- <-]]]]]]]. assert (l = lo) by both S1 Q3. assert (u = hi) by both S2 Q4. now subst. }
  exists a, na, (if left then ni else nb1), (if left then nb1 else ni), d, v. split; [exact C2|]. split; [exact Q12|]. split; [exact Q13|]. split; [exact Q1|]. split; [rewrite C9; now destruct left|]. split; [rewrite C10; now destruct left|]. split; [destruct left; auto|].
  split; [now destruct left|]. split; [now destruct left|]. split; [now destruct left|]. split; [now destruct left|]. split; [exact Un|]. intros j lj hj Hj Sj. destruct (Hull j lj hj Hj Sj) as [xj [X1 [X2 X3]]].
  split; [apply (hull_spans c n x na C13 j lj hj xj); auto|].
  destruct (parts_spans n d v left m1 m2 l1 u1 _ _ C14 C15 Fv Sd Bv j lj hj ltac:(lia) Sj) as [Y1 Y2]. cbn [nlt dops] in C16.
  assert (Lx : dlt v xd = false -> (B2R xd <= B2R v)%R) by (intros G; apply Rnot_lt_le; intros X; apply dlt_true in X; auto; congruence).
  assert (Jd : j = d -> xj = xd) by (intros ->; both X1 Q5).
  assert (Same : forall m z w, box dops z = (bound_lower dops m, bound_upper dops m) -> forall lw uw, w = j -> spans m w lw uw -> spans z w lw uw).
  { intros m z w B lw uw _. unfold spans. unfold box in B. injection B as -> ->. auto. }
  destruct left; cbn [negb andb Bool.eqb] in *; rewrite ?andb_true_r, ?andb_false_r in Y1, Y2.
  - destruct (dlt v xd) eqn:G.
    + apply dlt_true in G; auto. destruct C16 as [C16 C17]. split; [apply (Same (set_box dops n l1 u1) ni j); [exact C16|reflexivity|exact Y1]|]. apply (hull_spans c _ x nb1 C17 j _ _ xj); auto. destruct (Z.eqb_spec j d) as [E|E]; [rewrite (Jd E) in *; lra|exact X3].
    + specialize (Lx eq_refl). destruct C16 as [C16 C17]. split; [|apply (Same (set_box dops n (fst m2) (snd m2)) nb1 j); [rewrite C17; destruct m2; reflexivity|reflexivity|exact Y2]]. apply (hull_spans c _ x ni C16 j _ _ xj); auto. destruct (Z.eqb_spec j d) as [E|E]; [rewrite (Jd E) in *; lra|exact X3].
  - destruct (dlt v xd) eqn:G; cbn [Bool.eqb] in C16.
    + apply dlt_true in G; auto. destruct C16 as [C16 C17]. split; [apply (Same (set_box dops n (fst m2) (snd m2)) nb1 j); [rewrite C17; destruct m2; reflexivity|reflexivity|exact Y2]|]. apply (hull_spans c _ x ni C16 j _ _ xj); auto. destruct (Z.eqb_spec j d) as [E|E]; [rewrite (Jd E) in *; lra|exact X3].
    + specialize (Lx eq_refl). destruct C16 as [C16 C17]. split; [|apply (Same (set_box dops n l1 u1) ni j); [exact C16|reflexivity|exact Y1]]. apply (hull_spans c _ x nb1 C17 j _ _ xj); auto. destruct (Z.eqb_spec j d) as [E|E]; [rewrite (Jd E) in *; lra|exact X3].
Qed.
Print Assumptions coarse_barycenter_boxes.

(** ** The leaf of C121, from 0 to 16, split for a point at 12 *)
Lemma inside_p : forall h, inside (conf_p h) leaf_p [dofZ 12].
Proof.
  intros h j Hj. change (c_features dops (conf_p h)) with 1 in Hj. assert (j = 0) by lia. subst j. exists (dofZ 0), (dofZ 16), (dofZ 12). do 3 (split; [reflexivity|]). do 3 (split; [vm_compute; reflexivity|]). split; [|vm_compute; reflexivity].
  split; apply dle_true; vm_compute; reflexivity.
Qed.
Definition is_box (n : node dops) (lo hi : dbl) : bool :=
  match bound_lower dops n, bound_upper dops n with [Some l], [Some u] => neq dops l lo && neq dops u hi | _, _ => false end.
Definition cut_p (s' : coarse dops) : bool :=
  match get dops s' 1 with
  | Ok na => match split_value dops na, get dops s' (child_left dops na), get dops s' (child_right dops na) with
             | Some v, Ok nl, Ok nr => is_box na (dofZ 0) (dofZ 16) && is_box nl (dofZ 0) v && is_box nr v (dofZ 16) && dlt (dofZ 10) v && dlt v (dofZ 12)
             | _, _, _ => false end
  | _ => false
  end.
Lemma cut_run : forall c s x, match split_barycenter dops log_c (cycle draws_b) c s 0 0 x 1 (dofZ 0) with Ok (s', true) => cut_p s' | _ => false end = true ->
  exists s', split_barycenter dops log_c (cycle draws_b) c s 0 0 x 1 (dofZ 0) = Ok (s', true) /\ cut_p s' = true.
Proof. intros c s x H. destruct (split_barycenter _ _ _ _ _ _ _ _ _ _) as [[s' [|]]|u| |]; try discriminate. eauto. Qed.
(** The hypotheses hold, and the new node 1 has the box from 0 to 16, its children the parts below and above the split between 10 and 12. *)
Example coarse_barycenter_boxes_example : exists c s, inside c leaf_p [dofZ 12] /\ ctrees dops c s [Some tree_p] /\ get dops s 0 = Ok leaf_p /\
  exists s', split_barycenter dops log_c (cycle draws_b) c s 0 0 [dofZ 12] 1 (dofZ 0) = Ok (s', true) /\ cut_p s' = true.
Proof.
  exists (conf_p SPLIT_HELPER_AVG), (state_p SPLIT_HELPER_AVG). split; [apply inside_p|]. split; [apply trees_p|]. split; [reflexivity|]. apply cut_run. vm_compute. reflexivity.
Qed.
