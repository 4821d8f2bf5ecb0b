(** * Properties of the coarse Mondrian forest: trimming, and the barycenter extension *)
From Coq Require Import ZArith List Bool Lia Reals Lra Permutation.
From Flocq Require Import Core BinarySingleNaN.
From Verif Require Import CppBase CppFacts Dbl DblFacts NumOps NumFacts Utils_Model Utils_Spec Utils_Proofs MCNN_Num.
From Verif Require Import Mondrian_Model Mondrian_Spec Mondrian_Proofs Mondrian_Num Mondrian_Runs Mondrian_Props.
From Verif Require Import Coarse_Model Coarse_Spec Coarse_Heap Coarse_Walk Coarse_Train Coarse_Trim Coarse_Forest Coarse_Reach Coarse_Props.
From Verif Require Import Coarse_Smallest.
Import ListNotations.
Local Open Scope Z_scope.

Lemma ofZ_key : forall a, -1 <= a <= 2^53 -> not_nan (dofZ a) /\ dkey (dofZ a) = IZR a.
Proof. intros a Ha. destruct (dofZ_exact a ltac:(lia)) as [F V]. destruct (finite_key _ V) as [A K]. split; [exact A|]. now rewrite K. Qed.
Lemma ofZ_lt : forall a b, -1 <= a <= 2^53 -> 0 <= b <= 2^53 -> nlt dops (nofZ dops a) (nofZ dops b) = (a <? b).
Proof.
  intros a b Ha Hb. destruct (ofZ_key a Ha) as [A1 A2]. destruct (ofZ_key b ltac:(lia)) as [B1 B2]. cbn [nlt nofZ dops]. apply eq_true_iff_eq. rewrite dlt_iff, A2, B2, Z.ltb_lt. split; [intros [_ [_ H]]; now apply lt_IZR|]. intros H. repeat split; auto. now apply IZR_lt.
Qed.
Lemma ofZ_eq : forall a b, 0 <= a <= 2^53 -> 0 <= b <= 2^53 -> neq dops (nofZ dops a) (nofZ dops b) = true -> a = b.
Proof.
  intros a b Ha Hb H. destruct (ofZ_key a ltac:(lia)) as [A1 A2]. destruct (ofZ_key b ltac:(lia)) as [B1 B2]. cbn [neq nofZ dops] in H. apply deq_iff in H. rewrite A2, B2 in H. now apply eq_IZR.
Qed.

(** *** C99: trimming by counts removes a leaf with the fewest points *)
Theorem coarse_trim_smallest : forall exp_ log_ rnd (c : config dops) l0, csizes dops c l0 -> c_extend dops c <> EXTEND_BARYCENTER -> c_extend dops c <> EXTEND_COUNTER_NO_UPDATE -> c_trim dops c = TRIM_COUNT ->
  forall s h s', creached dops exp_ log_ rnd c l0 s h -> Z.of_nat (length h) <= 2^53 -> tree_trim dops rnd c s = Ok s' ->
  exists ts ts', ctrees dops c s ts /\ ctrees dops c s' ts' /\ avail dops s' = free_count dops s' /\
    Forall2 (fun o o' => o' = o \/ exists t t' j cs, o = Some t /\ o' = Some t' /\ Permutation (cleaves dops t) ((j, cs) :: cleaves dops t') /\
      (forall k ks, In (k, ks) (cleaves dops t) -> zsum cs <= zsum ks) /\
      (let total := zsum (concat (map snd (cleaves dops t))) in 0 < total -> dlt (c_max_trim dops c) (ddiv (dofZ (zsum cs)) (dofZ total)) = false)) ts ts'.
Proof.
  intros exp_ log_ rnd c l0 Hs Hk Ho Ht s h s' R Hh T.
  assert (Sf : trim_safe dops rnd c) by (right; now left).
  destruct (reached_bounded dops exp_ log_ rnd c l0 tlaws_dops Hs Hk Ho Sf s h R) as [ts [V F]].
  destruct (tree_trim_smallest dops exp_ log_ rnd c l0 (2^53) tlaws_dops Hs dops_exact ofZ_lt ofZ_eq Ht s ts s' V) as [ts' [F2 V']]; [|exact T|].
  { eapply Forall_impl; [|exact F]. intros [t|] X; [|exact I]. destruct X as [X1 X2]. split; [exact X1|lia]. }
  exists ts, ts'. split; [now apply inv_ctrees|]. split; [now apply inv_ctrees|]. split; [|exact F2].
  symmetry. destruct V' as [_ [_ [C _]]]. destruct Hs as [_ [_ [_ [X _]]]]. apply (pool_free dops c s' _ ltac:(lia) C).
Qed.
Print Assumptions coarse_trim_smallest.

(** Each of the two trees loses one of its smallest leaves. *)
Definition leaf_counts (s : coarse dops) (i : Z) : list Z := match get dops s i with Ok n => if is_leaf dops n && negb (available dops n) then counters dops n else [] | _ => [] end.
Definition trims_to (s : coarse dops) (before after : list (list Z)) : bool :=
  match tree_trim dops (cycle draws_c) conf_trim s with
  | Ok s' => (if list_eq_dec (list_eq_dec Z.eq_dec) (map (leaf_counts s) (zrange 12)) before then true else false) &&
             (if list_eq_dec (list_eq_dec Z.eq_dec) (map (leaf_counts s') (zrange 12)) after then true else false)
  | _ => false
  end.
Lemma run_trims : ccheck conf_trim (around 99) (fun s => trims_to s
  [[25; 0]; [49; 0]; []; [0; 25]; []; [0; 25]; []; [0; 25]; []; [0; 25]; []; [24; 0]]
  [[25; 0]; [49; 0]; []; [0; 25]; []; [0; 25]; []; [0; 25]; []; []; []; []]) = true.
Proof. vm_compute. reflexivity. Qed.
Example coarse_trim_smallest_example : exists s s', creached dops exp_h log_c (cycle draws_c) conf_trim 0 s (rev (around 99)) /\ tree_trim dops (cycle draws_c) conf_trim s = Ok s' /\
  map (leaf_counts s) (zrange 12) = [[25; 0]; [49; 0]; []; [0; 25]; []; [0; 25]; []; [0; 25]; []; [0; 25]; []; [24; 0]] /\
  map (leaf_counts s') (zrange 12) = [[25; 0]; [49; 0]; []; [0; 25]; []; [0; 25]; []; [0; 25]; []; []; []; []].
Proof.
  pose proof run_trims as H. apply ccheck_reached in H. destruct H as [s [R H]]. unfold trims_to in H. destruct (tree_trim dops (cycle draws_c) conf_trim s) as [s'|u| |] eqn:T; try discriminate.
  exists s, s'. split; [exact R|]. split; [exact T|]. apply andb_true_iff in H. destruct H as [H1 H2].
  destruct (list_eq_dec (list_eq_dec Z.eq_dec) (map (leaf_counts s) (zrange 12)) _) as [E1|]; [|discriminate]. destruct (list_eq_dec (list_eq_dec Z.eq_dec) (map (leaf_counts s') (zrange 12)) _) as [E2|]; [|discriminate]. auto.
Qed.

(** *** C101: trimming by fading counts removes a leaf whose points are the least recent (refuted) *)
Definition conf_fade : config dops :=
  Build_config dops 1 2 2 5 (dofZ 10) dhalf dhalf PHOENIX_MANAGEMENT (-1) FE_DISTRIBUTION_ZERO SPLIT_TRIGGER_NONE dhalf dhalf SPLIT_HELPER_NONE EXTEND_ORIGINAL TRIM_FADING done false.
(** Two points at one place, 197 at another one, then one with the other label. *)
Definition points_f : list (point dops) := [(sixteenths 1 2, 0); (sixteenths 1 2, 0)] ++ repeat (sixteenths 8 4, 0) 197 ++ [(sixteenths 20 20, 1)].
Definition same_counts (a b : list Z) : bool := if list_eq_dec Z.eq_dec a b then true else false.
Lemma same_counts_ok : forall a b, same_counts a b = true -> a = b.
Proof. intros a b H. unfold same_counts in H. destruct (list_eq_dec Z.eq_dec a b); [assumption|discriminate]. Qed.
Definition fades (c : config dops) (s : coarse dops) (x : list dbl) : bool :=
  same_counts (leaf_counts s 0) [2; 0] && same_counts (leaf_counts s 2) [197; 0] && same_counts (leaf_counts s 4) [0; 1] &&
  match train dops log_c (cycle draws_c) c s x 0 with
  | Ok (s', b) => b && same_counts (leaf_counts s' 0) [2; 0] && same_counts (leaf_counts s' 2) [198; 0] && match get dops s' 4 with Ok n => available dops n | _ => false end
  | _ => false
  end.
Lemma run_fades : ccheck conf_fade points_f (fun s => fades conf_fade s (sixteenths 8 4)) = true.
Proof. vm_compute. reflexivity. Qed.
Lemma fades_ok : forall c ps x, ccheck c ps (fun s => fades c s x) = true -> exists s s' n, creached dops exp_h log_c (cycle draws_c) c 0 s (rev ps) /\
  leaf_counts s 0 = [2; 0] /\ leaf_counts s 2 = [197; 0] /\ leaf_counts s 4 = [0; 1] /\ train dops log_c (cycle draws_c) c s x 0 = Ok (s', true) /\
  leaf_counts s' 0 = [2; 0] /\ leaf_counts s' 2 = [198; 0] /\ get dops s' 4 = Ok n /\ available dops n = true.
Proof.
  intros c ps x H. apply ccheck_reached in H. destruct H as [s [R H]]. unfold fades in H. destruct (train dops log_c (cycle draws_c) c s x 0) as [[s' b]|u| |] eqn:T; try (now rewrite andb_false_r in H).
  destruct (get dops s' 4) as [n|u| |] eqn:G; try (now rewrite !andb_false_r in H). repeat (apply andb_true_iff in H; destruct H as [H ?]). repeat match goal with X : _ && _ = true |- _ => apply andb_true_iff in X; destruct X end.
  repeat match goal with X : same_counts _ _ = true |- _ => apply same_counts_ok in X end. subst b. exists s, s', n. auto 10.
Qed.
(** Leaf 4 holds the last point and leaf 0 two points that are at least 198 trainings older. The next training frees leaf 4 and keeps leaf 0, although with the factor 0.995 per training
    the point of leaf 4 weighs 0.995 and the points of leaf 0 weigh at most [2 * 0.995 ^ 199], which is less. *)
Theorem coarse_fading_refuted : exists (c : config dops) s s' x y z n, csizes dops c 0 /\ c_extend dops c = EXTEND_ORIGINAL /\ c_trim dops c = TRIM_FADING /\ x <> y /\ y <> z /\
  creached dops exp_h log_c (cycle draws_c) c 0 s ((z, 1) :: repeat (y, 0) 197 ++ [(x, 0); (x, 0)]) /\
  leaf_counts s 0 = [2; 0] /\ leaf_counts s 2 = [197; 0] /\ leaf_counts s 4 = [0; 1] /\ train dops log_c (cycle draws_c) c s y 0 = Ok (s', true) /\
  leaf_counts s' 0 = [2; 0] /\ leaf_counts s' 2 = [198; 0] /\ get dops s' 4 = Ok n /\ available dops n = true /\
  2 * 995 ^ 199 * 1000 < 995 * 1000 ^ 199.
Proof.
  destruct (fades_ok _ _ _ run_fades) as [s [s' [n [R [A1 [A2 [A3 [T [A4 [A5 [A6 A7]]]]]]]]]]].
  exists conf_fade, s, s', (sixteenths 1 2), (sixteenths 8 4), (sixteenths 20 20), n. split; [unfold csizes, conf_fade; cbn [c_trees c_features c_labels c_nodes c_life]; repeat split; lia|].
  split; [reflexivity|]. split; [reflexivity|]. split; [intros X; apply (f_equal (map B2SF)) in X; vm_compute in X; discriminate|]. split; [intros X; apply (f_equal (map B2SF)) in X; vm_compute in X; discriminate|].
  split; [exact R|]. repeat (split; [assumption|]). vm_compute. reflexivity.
Qed.
Print Assumptions coarse_fading_refuted.

(** *** C100: training with barycenter extension keeps the trees (refuted) *)
Lemma csub_in : forall (t : ctree dops) j, In j (cids dops t) -> exists u, csub u t /\ ctop dops u = j.
Proof.
  induction t as [i cs|i d v cs l IHl r IHr]; intros j H; cbn [cids] in H.
  - destruct H as [<-|[]]. exists (CLeaf i cs). split; [now left|reflexivity].
  - destruct H as [<-|H]; [exists (CFork i d v cs l r); split; [now left|reflexivity]|]. apply in_app_or in H. destruct H as [H|H].
    + destruct (IHl j H) as [u [U1 U2]]. exists u. split; [right; now left|exact U2].
    + destruct (IHr j H) as [u [U1 U2]]. exists u. split; [right; now right|exact U2].
Qed.
Lemma csub_ids : forall (u t : ctree dops) j, csub u t -> In j (cids dops u) -> In j (cids dops t).
Proof.
  intros u t. induction t as [i cs|i d v cs l IHl r IHr]; intros j [-> |H] I; auto; [contradiction|]. cbn [cids]. right. apply in_or_app. destruct H as [H|H]; [left|right]; eauto.
Qed.
(** In a forest that is made of trees, the children of a node in use are in use. *)
Lemma ctrees_children : forall c (s : coarse dops) ts i n m, ctrees dops c s ts -> get dops s i = Ok n -> available dops n = false -> 0 <= child_left dops n -> get dops s (child_left dops n) = Ok m -> available dops m = false.
Proof.
  intros c s ts i n m [_ [T [_ [_ U]]]] Hn An Hc Hm. apply (U i n Hn) in An. apply (U _ _ Hm). unfold all_cids in *. apply in_concat in An. destruct An as [ids [A1 A2]]. apply in_map_iff in A1. destruct A1 as [o [<- Io]]. destruct o as [t|]; [|contradiction].
  destruct (csub_in t i A2) as [u [U1 U2]]. apply In_nth_error in Io as Hk. destruct Hk as [k Hk]. destruct (T k _ Hk) as [_ St]. destruct (csub_stored _ _ _ _ _ _ U1 St) as [[q Su] _].
  apply in_concat. exists (cids dops t). split; [apply in_map_iff; exists (Some t); auto|]. apply (csub_ids u t); [exact U1|].
  destruct u as [i' cs|i' d v cs l r]; cbn [ctop] in U2; subst i'; destruct Su as [n' [N1 N2]]; cbn [ctop] in N1; assert (n' = n) by (unfold get in Hn; congruence); subst n'.
  - destruct N2 as [_ [_ [_ [_ [_ [X _]]]]]]. lia.
  - destruct N2 as [_ [_ [_ [_ [_ [_ [_ [X _]]]]]]]]. rewrite X. cbn [cids]. right. apply in_or_app. left. apply ctop_in.
Qed.

Fixpoint lcg (n : nat) (x : Z) : list Z := match n with Datatypes.O => [] | S n => let y := (x * 1103515245 + 12345) mod 2147483648 in (y / 65536) :: lcg n y end.
Definition draws_b : list dbl := map (fun y => dlit (2 * (y mod 4096) + 1) (-13)) (lcg 97 3).
(** Points that spread out: each feature of the [k]-th point is at most [k] in absolute value. *)
Fixpoint spread (k : Z) (l : list Z) : list (point dops) :=
  match l with a :: b :: q :: l => ([dlit ((a mod 33 - 16) * k) (-4); dlit ((b mod 33 - 16) * k) (-4)], q mod 2) :: spread (k + 1) l | _ => [] end.
Definition points_b : list (point dops) := spread 1 (lcg 612 10).
Definition conf_b : config dops :=
  Build_config dops 1 2 2 15 (dofZ 10) dhalf dhalf PHOENIX_MANAGEMENT (-1) FE_DISTRIBUTION_ZERO SPLIT_TRIGGER_POSITIVE dhalf dhalf SPLIT_HELPER_NONE EXTEND_BARYCENTER TRIM_RANDOM done false.
(** Node 5 is in use, its left child is free. *)
Definition dangles (s : coarse dops) : bool :=
  match get dops s 5 with
  | Ok n => negb (available dops n) && (0 <=? child_left dops n) && match get dops s (child_left dops n) with Ok m => available dops m | _ => false end
  | _ => false
  end.
(** Nodes 5 and 10 are in use and have a child in common. *)
Definition shares (s : coarse dops) : bool :=
  match get dops s 5, get dops s 10 with
  | Ok n, Ok m => negb (available dops n) && negb (available dops m) && (0 <=? child_right dops n) && (child_right dops n =? child_left dops m)
  | _, _ => false
  end.
(** Runs the first 201 points, the next one, the next one, and looks at the last one. *)
Definition check_b (c : config dops) (rnd : nat -> dbl) (ps1 : list (point dops)) (p2 p3 p4 : point dops) : bool :=
  forallb (valid_d (c_features dops c) (c_labels dops c)) (p4 :: p2 :: p3 :: ps1) &&
  match crun c log_c rnd (forest_init dops c true 0) ps1 with
  | Ok s1 => dangles s1 &&
      match crun c log_c rnd s1 [p2] with
      | Ok s2 => shares s2 &&
          match crun c log_c rnd s2 [p3] with
          | Ok s3 => match train dops log_c rnd c s3 (fst p4) (snd p4) with Undef OutOfBounds => true | _ => false end
          | _ => false
          end
      | _ => false
      end
  | _ => false
  end.
Lemma check_b_ok : forall c rnd ps1 p2 p3 p4, check_b c rnd ps1 p2 p3 p4 = true ->
  let reached := creached dops exp_h log_c rnd c 0 in exists s1 h1 s2 h2 s3 h3,
  (reached s1 h1 /\ ~ exists ts, ctrees dops c s1 ts) /\
  (reached s2 h2 /\ exists i j n m, i <> j /\ get dops s2 i = Ok n /\ get dops s2 j = Ok m /\ available dops n = false /\ available dops m = false /\ 0 <= child_right dops n /\ child_right dops n = child_left dops m) /\
  (reached s3 h3 /\ exists x label, valid dops (c_features dops c) (c_labels dops c) dfine (x, label) /\ train dops log_c rnd c s3 x label = Undef OutOfBounds).
Proof.
  intros c rnd ps1 p2 p3 p4 H reached. unfold check_b in H. apply andb_true_iff in H. destruct H as [V H]. apply valid_d_ok in V. inversion V as [|? ? V4 V']; subst. inversion V' as [|? ? V2 V'']; subst. inversion V'' as [|? ? V3 V1]; subst.
  destruct (crun c log_c rnd _ ps1) as [s1|u| |] eqn:E1; try discriminate. apply andb_true_iff in H. destruct H as [D H].
  destruct (crun c log_c rnd s1 _) as [s2|u| |] eqn:E2; try discriminate. apply andb_true_iff in H. destruct H as [Sh H].
  destruct (crun c log_c rnd s2 _) as [s3|u| |] eqn:E3; try discriminate.
  assert (R1 := crun_reached exp_h log_c rnd c 0 _ _ _ _ V1 (creached_new _ _ _ _ _ _) E1).
  assert (R2 := crun_reached exp_h log_c rnd c 0 _ _ _ _ (Forall_cons _ V2 (Forall_nil _)) R1 E2). assert (R3 := crun_reached exp_h log_c rnd c 0 _ _ _ _ (Forall_cons _ V3 (Forall_nil _)) R2 E3).
  exists s1; eexists; exists s2; eexists; exists s3; eexists. split; [|split]; (split; [eassumption|]).
  - intros [ts T]. unfold dangles in D. destruct (get dops s1 5) as [n|u| |] eqn:G; try discriminate. apply andb_true_iff in D. destruct D as [D D3]. apply andb_true_iff in D. destruct D as [D1 D2]. apply negb_true_iff in D1. apply Z.leb_le in D2.
    destruct (get dops s1 (child_left dops n)) as [m|u| |] eqn:Gm; try discriminate. pose proof (ctrees_children _ _ _ _ _ _ T G D1 D2 Gm). congruence.
  - unfold shares in Sh. destruct (get dops s2 5) as [n|u| |] eqn:Gn; try discriminate. destruct (get dops s2 10) as [m|u| |] eqn:Gm; try discriminate. apply andb_true_iff in Sh. destruct Sh as [Sh A4]. apply andb_true_iff in Sh. destruct Sh as [Sh A3]. apply andb_true_iff in Sh. destruct Sh as [A1 A2]. apply negb_true_iff in A1, A2. apply Z.leb_le in A3. apply Z.eqb_eq in A4.
    exists 5, 10, n, m. repeat split; auto. lia.
  - exists (fst p4), (snd p4). split; [now rewrite <- surjective_pairing|]. destruct (train dops log_c rnd c s3 (fst p4) (snd p4)) as [|[]| |]; try discriminate. reflexivity.
Qed.
Definition no_point : point dops := ([], 0).
Definition nth_b (k : nat) : point dops := nth k points_b no_point.
Lemma run_center : check_b conf_b (cycle draws_b) (firstn 201 points_b) (nth_b 201) (nth_b 202) (nth_b 203) = true.
Proof. vm_compute. reflexivity. Qed.
Lemma csizes_b : csizes dops conf_b 0.
Proof. unfold csizes, conf_b. cbn [c_trees c_features c_labels c_nodes c_life]. repeat split; try lia. Qed.
Lemma draws_b_ok : forall k, ddraw (cycle draws_b k).
Proof. apply cycle_draw. vm_compute. reflexivity. Qed.
Lemma draws_trims : forall rnd c, (forall k, ddraw (rnd k)) -> c_trim dops c = TRIM_RANDOM -> ctrims dops rnd c.
Proof.
  intros rnd c D H. right. right. right. split; [exact H|]. intros k. destruct (D k) as [A B]. apply dlt_iff. destruct (finite_key _ A) as [N K]. destruct (dofZ_exact 1 ltac:(lia)) as [V F]. destruct (finite_key _ F) as [N1 K1].
  split; [exact N|]. split; [exact N1|]. cbn [nofZ dops]. rewrite K, K1, V. apply B.
Qed.
Theorem coarse_barycenter_refuted : exists (c : config dops) rnd,
  csizes dops c 0 /\ c_extend dops c = EXTEND_BARYCENTER /\ ctrims dops rnd c /\
  let reached := creached dops exp_h log_c rnd c 0 in exists s1 h1 s2 h2 s3 h3,
  (reached s1 h1 /\ ~ exists ts, ctrees dops c s1 ts) /\
  (reached s2 h2 /\ exists i j n m, i <> j /\ get dops s2 i = Ok n /\ get dops s2 j = Ok m /\ available dops n = false /\ available dops m = false /\ 0 <= child_right dops n /\ child_right dops n = child_left dops m) /\
  (reached s3 h3 /\ exists x label, valid dops (c_features dops c) (c_labels dops c) dfine (x, label) /\ train dops log_c rnd c s3 x label = Undef OutOfBounds).
Proof.
  exists conf_b, (cycle draws_b). split; [exact csizes_b|]. split; [reflexivity|]. split; [exact (draws_trims (cycle draws_b) conf_b draws_b_ok eq_refl)|].
  exact (check_b_ok _ _ _ _ _ _ run_center).
Qed.
Print Assumptions coarse_barycenter_refuted.
