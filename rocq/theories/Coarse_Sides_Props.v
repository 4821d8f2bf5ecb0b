(** * Properties of the coarse Mondrian forest: the barycenter and the two sides of a split *)
From Coq Require Import ZArith List Bool Lia Reals Lra Permutation.
From Flocq Require Import Core.
From Verif Require Import CppBase CppFacts Dbl DblFacts NumOps Utils_Model Utils_Proofs MCNN_Num.
From Verif Require Import Mondrian_Model Mondrian_Spec Mondrian_Proofs Mondrian_Num Mondrian_Runs Mondrian_Props.
From Verif Require Import Coarse_Model Coarse_Spec Coarse_Heap Coarse_Forest Coarse_Smallest Coarse_Reach Coarse_Props Coarse_Trim_Props Coarse_Sides_Spec Coarse_Sides.
Import ListNotations.
Local Open Scope Z_scope.

(** *** C118: the barycenter is the mean of the leaves *)
Theorem coarse_barycenter_mean : forall (c : config rops) s p t lo hi, 0 <= c_features rops c -> stored rops (c_features rops c) (c_labels rops c) (fr rops s) p t -> NoDup (cids rops t) ->
  (forall j, In j (cids rops t) -> 0 <= j < c_nodes rops c) -> height rops t <= 100 ->
  (forall j cs d, In (j, cs) (cleaves rops t) -> 0 <= d < c_features rops c -> side_of rops s j d (lo j d) (hi j d)) ->
  exists b, find_barycenter rops c s (ctop rops t) = Ok b /\ Z.of_nat (length b) = c_features rops c /\
  forall d, 0 <= d < c_features rops c ->
    rd b d = Ok (rsums (fun e => (lo (fst e) d + hi (fst e) d) / 2 * IZR (zsum (snd e))) (cleaves rops t) / IZR (points_in rops t))%R.
Proof.
  intros c s p t lo hi Hf T ND B Hh Hb. eexists. split; [exact (find_barycenter_ok c Hf s p t lo hi T ND B Hh Hb)|]. split; [rewrite map_length, zrange_length; lia|]. intros d Hd. now rewrite rd_zrange.
Qed.
Print Assumptions coarse_barycenter_mean.

(** *** C119: the two sides of a split have all points, but the sides of the boxes that are not divided are exchanged *)
Theorem coarse_count_sides : forall rnd (c : config rops) s p t d v lo hi, stored rops (c_features rops c) (c_labels rops c) (fr rops s) p t -> NoDup (cids rops t) ->
  (forall j, In j (cids rops t) -> 0 <= j < c_nodes rops c) -> height rops t <= 100 -> 0 <= d < c_features rops c ->
  (forall j cs, In (j, cs) (cleaves rops t) -> side_of rops s j d (lo j) (hi j) /\ Forall (fun k => 0 <= k) cs) -> points_in rops t <= 2147483647 ->
  exists s' shares, Forall2 (fun e ab => divided (lo (fst e)) (hi (fst e)) v (zsum (snd e)) ab) (cleaves rops t) shares /\ nodes rops (fr rops s') = nodes rops (fr rops s) /\
    count_sides rops rnd c s (ctop rops t) d v = Ok (s', (zsum (map fst shares), zsum (map snd shares))) /\ zsum (map fst shares) + zsum (map snd shares) = points_in rops t.
Proof.
  intros rnd c s p t d v lo hi T ND B Hh Hd Hb Hp.
  destruct (count_sides_ok rnd c s p t d v lo hi T ND B Hh Hd Hb Hp) as [s' [shares [F [Fs E]]]].
  destruct (Permutation_Forall2 (rev_leaves_perm t) F) as [shares' [P F']]. exists s', shares'. split; [exact F'|]. split; [exact Fs|].
  rewrite (zsum_perm (map fst shares') (map fst shares)) by (apply Permutation_map; now symmetry). rewrite (zsum_perm (map snd shares') (map snd shares)) by (apply Permutation_map; now symmetry). split; [exact E|].
  unfold points_in. rewrite (zsum_perm (map (fun e => zsum (snd e)) (cleaves rops t)) (map (fun e => zsum (snd e)) (rev_leaves t))) by (apply Permutation_map; symmetry; apply rev_leaves_perm).
  clear -F. induction F as [|e ab es shares [D _] F IH]; [reflexivity|]. unfold zsum in *. cbn [map fold_right]. lia.
Qed.
Print Assumptions coarse_count_sides.

(** ** Two leaves: three points with the box from 0 to 2, one point at 4 *)
Definition conf_w : config rops :=
  Build_config rops 1 1 1 3 10%R (/ 2)%R (/ 2)%R PHOENIX_MANAGEMENT (-1) FE_DISTRIBUTION_ZERO SPLIT_TRIGGER_NONE (/ 2)%R (/ 2)%R SPLIT_HELPER_WEIGHTED EXTEND_BARYCENTER TRIM_NONE 1%R false.
Definition leaf_w (lo hi : R) (k : Z) : node rops := mkNode rops (-1) (Some 0%R) [Some lo] [Some hi] (-1) (-1) 0 10%R [k].
Definition state_w : coarse rops :=
  mkCoarse rops (mkForest rops [mkNode rops 0 (Some 3%R) [Some 0%R] [Some 4%R] 1 2 (-1) 5%R [1]; leaf_w 0 2 3; leaf_w 4 4 1] [0] 0) [0; 0; 0] [0%R; 0%R; 0%R] [3] [Some 3] [Some 0%R] 0%R 0 0 0 4.
Definition tree_w : ctree rops := @CFork rops 0 0 3%R [1] (CLeaf 1 [3]) (CLeaf 2 [1]).
Lemma stored_w : stored rops 1 1 (fr rops state_w) (-1) tree_w.
Proof.
  assert (T : forall x : R, (0 <= x)%R -> nlt rops x (nofZ rops 0) = false) by (intros x Hx; cbn; apply Rlt_bool_false; exact Hx).
  cbn [stored tree_w ctop]. eexists. split; [reflexivity|]. repeat split; try lia; try (apply T; cbn; lra).
  - exists (leaf_w 0 2 3). split; [reflexivity|]. repeat split. apply T. cbn. lra.
  - exists (leaf_w 4 4 1). split; [reflexivity|]. repeat split. apply T. cbn. lra.
Qed.
Lemma ids_w : NoDup (cids rops tree_w) /\ forall j, In j (cids rops tree_w) -> 0 <= j < c_nodes rops conf_w.
Proof. cbn. split; [repeat constructor; cbn; intuition lia|]. intros j H. intuition lia. Qed.
Definition low_w (j : Z) : R := if j =? 1 then 0%R else 4%R.
Definition high_w (j : Z) : R := if j =? 1 then 2%R else 4%R.
Lemma sides_w : forall j cs, In (j, cs) (cleaves rops tree_w) -> side_of rops state_w j 0 (low_w j) (high_w j) /\ Forall (fun k => 0 <= k) cs.
Proof.
  intros j cs H. cbn in H. destruct H as [H|[H|[]]]; injection H as <- <-; (split; [|repeat constructor; lia]); [exists (leaf_w 0 2 3)|exists (leaf_w 4 4 1)]; repeat split.
Qed.
(** The barycenter is (3 * 1 + 1 * 4) / 4. A split at 1 counts three points on the left side (one or two of the box that is divided and the point at 4, which lies on the right side). *)
Example coarse_barycenter_example : exists b, find_barycenter rops conf_w state_w 0 = Ok b /\ rd b 0 = Ok (7 / 4)%R.
Proof.
  destruct ids_w as [ND B]. destruct (coarse_barycenter_mean conf_w state_w (-1) tree_w (fun j _ => low_w j) (fun j _ => high_w j)) as [b [E [_ D]]]; auto; try (cbn; lia); [exact stored_w| |].
  - intros j cs d H Hd. cbn in Hd. replace d with 0 by lia. now apply (sides_w j cs).
  - exists b. split; [exact E|]. rewrite D by (cbn; lia). f_equal. unfold rsums, points_in, low_w, high_w, zsum. cbn. lra.
Qed.
Example coarse_sides_example : exists s' a b, count_sides rops (fun _ => / 2)%R conf_w state_w 0 0 1%R = Ok (s', (a, b)) /\ a + b = 4 /\ 2 <= a <= 3.
Proof.
  destruct ids_w as [ND B]. destruct (coarse_count_sides (fun _ => / 2)%R conf_w state_w (-1) tree_w 0 1%R low_w high_w) as [s' [shares [F [_ [E S]]]]]; auto; try (cbn; lia); [exact stored_w|exact sides_w|].
  exists s', (zsum (map fst shares)), (zsum (map snd shares)). split; [exact E|]. split; [exact S|].
  cbn [cleaves tree_w app] in F. inversion F as [|? [a1 b1] ? l1 D1 F1]; subst. inversion F1 as [|? [a2 b2] ? l2 D2 F2]; subst. inversion F2; subst. unfold low_w, high_w in *. cbn [fst snd Z.eqb] in *.
  destruct D1 as [X1 [X2 [X3 [X4 _]]]]. destruct D2 as [_ [_ [_ [_ [Y _]]]]]. cbn [fst snd] in *. specialize (Y ltac:(cbn; lra)). injection Y as -> ->. specialize (X4 ltac:(cbn; lra)). unfold zsum in *. cbn [map fold_right fst snd] in *.
  change (1 =? 1) with true in *. cbn match in *.
  assert (Q : (Rabs (IZR a1 - 3 * ((1 - 0) / (2 - 0))) < 1)%R) by exact X4. apply Rabs_def2 in Q. destruct Q as [Q1 Q2]. assert (a1 < 3) by (apply lt_IZR; lra). assert (0 < a1) by (apply lt_IZR; lra). lia.
Qed.

(** ** Refutations *)
(** One tree, one feature, two labels, nine nodes, split trigger. *)
Definition conf_t (life : Z) : config dops :=
  Build_config dops 1 1 2 9 (dofZ life) dhalf dhalf PHOENIX_MANAGEMENT (-1) FE_DISTRIBUTION_ZERO SPLIT_TRIGGER_POSITIVE dhalf dhalf SPLIT_HELPER_NONE EXTEND_BARYCENTER TRIM_RANDOM done false.
Lemma csizes_t : forall life, life = 0 \/ life = 10 -> csizes dops (conf_t life) 0.
Proof. intros life [-> | ->]; unfold csizes, conf_t; cbn [c_trees c_features c_labels c_nodes c_life]; repeat split; try lia. Qed.
(** The points that the leaves in use hold. *)
Definition in_leaf (n : node dops) : bool := negb (available dops n) && is_leaf dops n.
Definition held (s : coarse dops) : Z := zsum (map (fun n => zsum (counters dops n)) (filter in_leaf (nodes dops (fr dops s)))).
Fixpoint lcgs (n : nat) (x : Z) : list Z := match n with Datatypes.O => [] | S n => x :: lcgs n ((x * 1103515245 + 12345) mod 2147483648) end.
Definition draws_t : list dbl := map (fun y => dlit (2 * ((y / 65536) mod 64) + 1) (-7)) (lcgs 97 55).
Fixpoint points_from (k : Z) (l : list Z) : list (point dops) :=
  match l with a :: l => ([dlit (((a / 65536) mod 33 - 16) * k) (-4)], (a / 4194304) mod 2) :: points_from (k + 1) l | [] => [] end.
Definition points_t : list (point dops) := points_from 1 (lcgs 101 386).
Lemma draws_t_ok : forall k, ddraw (cycle draws_t k).
Proof. apply cycle_draw. vm_compute. reflexivity. Qed.

(** A point at 1, a split at 5: the point is counted on the right side. *)
Definition check_side (c : config dops) (rnd : nat -> dbl) (ps : list (point dops)) (v : dbl) (a b : Z) : bool :=
  forallb (valid_d (c_features dops c) (c_labels dops c)) ps &&
  match crun c log_c rnd (forest_init dops c true 0) ps with
  | Ok s => match count_sides dops rnd c s 0 0 v with Ok (_, (a', b')) => (a =? a') && (b =? b') | _ => false end
  | _ => false
  end.
Lemma check_side_ok : forall c rnd ps v a b, check_side c rnd ps v a b = true -> exists s s', creached dops exp_h log_c rnd c 0 s (rev ps) /\ count_sides dops rnd c s 0 0 v = Ok (s', (a, b)).
Proof.
  intros c rnd ps v a b H. unfold check_side in H. apply andb_true_iff in H. destruct H as [V H]. apply valid_d_ok in V. destruct (crun c log_c rnd _ ps) as [s|u| |] eqn:E; try discriminate.
  destruct (count_sides dops rnd c s 0 0 v) as [[s' [a' b']]|u| |] eqn:C; try discriminate. apply andb_true_iff in H. destruct H as [H1 H2]. apply Z.eqb_eq in H1, H2. subst a' b'.
  assert (R := crun_reached exp_h log_c rnd c 0 _ _ _ _ V (creached_new _ _ _ _ _ _) E). rewrite app_nil_r in R. eauto.
Qed.
Lemma run_side : check_side (conf_t 10) (cycle draws_t) [([dofZ 1], 0)] (dofZ 5) 0 1 = true.
Proof. vm_compute. reflexivity. Qed.
Theorem coarse_count_sides_refuted : exists (c : config dops) rnd s s' x v,
  csizes dops c 0 /\ creached dops exp_h log_c rnd c 0 s [([x], 0)] /\ dlt x v = true /\ count_sides dops rnd c s 0 0 v = Ok (s', (0, 1)).
Proof.
  destruct (check_side_ok _ _ _ _ _ _ run_side) as [s [s' [R E]]]. exists (conf_t 10), (cycle draws_t), s, s', (dofZ 1), (dofZ 5). split; [apply csizes_t; auto|]. split; [exact R|]. split; [vm_compute; reflexivity|exact E].
Qed.
Print Assumptions coarse_count_sides_refuted.

(** *** C120: splitting a node keeps the points (refuted) *)
(** The points 0 and 2 are in one leaf. Half of each counter is moved out, and half of it stays: one and one, for both labels. *)
Definition check_half (c : config dops) (rnd : nat -> dbl) (ps : list (point dops)) (v : dbl) (moved kept : list Z) : bool :=
  forallb (valid_d (c_features dops c) (c_labels dops c)) ps &&
  match crun c log_c rnd (forest_init dops c true 0) ps with
  | Ok s => (held s =? Z.of_nat (length ps)) &&
            match adjust_counters dops c s 0 0 v true with
            | Ok (s', m) => (if list_eq_dec Z.eq_dec m moved then true else false) && match get dops s' 0 with Ok n => if list_eq_dec Z.eq_dec (counters dops n) kept then true else false | _ => false end
            | _ => false
            end
  | _ => false
  end.
Lemma check_half_ok : forall c rnd ps v moved kept, check_half c rnd ps v moved kept = true ->
  exists s s' n, creached dops exp_h log_c rnd c 0 s (rev ps) /\ held s = Z.of_nat (length ps) /\ adjust_counters dops c s 0 0 v true = Ok (s', moved) /\ get dops s' 0 = Ok n /\ counters dops n = kept.
Proof.
  intros c rnd ps v moved kept H. unfold check_half in H. apply andb_true_iff in H. destruct H as [V H]. apply valid_d_ok in V. destruct (crun c log_c rnd _ ps) as [s|u| |] eqn:E; try discriminate.
  apply andb_true_iff in H. destruct H as [Hh H]. apply Z.eqb_eq in Hh.
  destruct (adjust_counters dops c s 0 0 v true) as [[s' m]|u| |] eqn:C; try discriminate. destruct (list_eq_dec Z.eq_dec m moved) as [-> |]; try discriminate. destruct (get dops s' 0) as [n|u| |] eqn:G; try discriminate.
  destruct (list_eq_dec Z.eq_dec (counters dops n) kept) as [<- |]; try discriminate.
  assert (R := crun_reached exp_h log_c rnd c 0 _ _ _ _ V (creached_new _ _ _ _ _ _) E). rewrite app_nil_r in R. exists s, s', n. auto.
Qed.
Lemma run_half : check_half (conf_t 0) (cycle draws_t) [([dofZ 0], 0); ([dofZ 2], 1)] dhalf [1; 1] [1; 1] = true.
Proof. vm_compute. reflexivity. Qed.
Theorem coarse_adjust_counters_refuted : exists (c : config dops) rnd s h s' v moved n,
  csizes dops c 0 /\ creached dops exp_h log_c rnd c 0 s h /\ held s = Z.of_nat (length h) /\
  adjust_counters dops c s 0 0 v true = Ok (s', moved) /\ get dops s' 0 = Ok n /\ zsum moved + zsum (counters dops n) = 2 * held s.
Proof.
  destruct (check_half_ok _ _ _ _ _ _ run_half) as [s [s' [n [R [Hh [E [G K]]]]]]]. exists (conf_t 0), (cycle draws_t), s, (rev [([dofZ 0], 0); ([dofZ 2], 1)]), s', dhalf, [1; 1], n.
  split; [apply csizes_t; auto|]. split; [exact R|]. split; [exact Hh|]. split; [exact E|]. split; [exact G|]. rewrite K, Hh. reflexivity.
Qed.
Print Assumptions coarse_adjust_counters_refuted.

(** The 101st point trims a leaf and splits a node; the points that are lost are not the points of one leaf. *)
Definition check_lost (c : config dops) (rnd : nat -> dbl) (ps : list (point dops)) (p : point dops) : bool :=
  forallb (valid_d (c_features dops c) (c_labels dops c)) (p :: ps) &&
  match crun c log_c rnd (forest_init dops c true 0) ps with
  | Ok s => (held s =? Z.of_nat (length ps)) &&
            match train dops log_c rnd c s (fst p) (snd p) with
            | Ok (s', _) => (held s' <? held s + 1) && forallb (fun n => negb (held s' =? held s + 1 - zsum (counters dops n))) (filter in_leaf (nodes dops (fr dops s)))
            | _ => false
            end
  | _ => false
  end.
Lemma check_lost_ok : forall c rnd ps p, check_lost c rnd ps p = true ->
  exists s s' b, creached dops exp_h log_c rnd c 0 s (rev ps) /\ held s = Z.of_nat (length ps) /\ valid dops (c_features dops c) (c_labels dops c) dfine p /\ train dops log_c rnd c s (fst p) (snd p) = Ok (s', b) /\
    held s' < held s + 1 /\ forall n, In n (nodes dops (fr dops s)) -> in_leaf n = true -> held s' <> held s + 1 - zsum (counters dops n).
Proof.
  intros c rnd ps p H. unfold check_lost in H. apply andb_true_iff in H. destruct H as [V H]. apply valid_d_ok in V. inversion V as [|? ? Vp Vs]; subst. destruct (crun c log_c rnd _ ps) as [s|u| |] eqn:E; try discriminate.
  apply andb_true_iff in H. destruct H as [Hh H]. apply Z.eqb_eq in Hh. destruct (train dops log_c rnd c s _ _) as [[s' b]|u| |] eqn:T; try discriminate. apply andb_true_iff in H. destruct H as [H1 H2]. apply Z.ltb_lt in H1. rewrite forallb_forall in H2.
  assert (R := crun_reached exp_h log_c rnd c 0 _ _ _ _ Vs (creached_new _ _ _ _ _ _) E). rewrite app_nil_r in R. exists s, s', b. split; [exact R|]. split; [exact Hh|]. split; [exact Vp|]. split; [exact T|]. split; [exact H1|].
  intros n I L. apply Z.eqb_neq. apply negb_true_iff. apply H2. apply filter_In. auto.
Qed.
Definition point_t : point dops := nth 100 points_t ([], 0).
Lemma run_lost : check_lost (conf_t 10) (cycle draws_t) (firstn 100 points_t) point_t = true.
Proof. vm_compute. reflexivity. Qed.
Theorem coarse_split_points_refuted : exists (c : config dops) rnd s h x label s' b,
  csizes dops c 0 /\ c_fe_trigger dops c = SPLIT_TRIGGER_POSITIVE /\ ctrims dops rnd c /\ (forall k, ddraw (rnd k)) /\ creached dops exp_h log_c rnd c 0 s h /\ held s = Z.of_nat (length h) /\ valid dops (c_features dops c) (c_labels dops c) dfine (x, label) /\
  train dops log_c rnd c s x label = Ok (s', b) /\ held s' < held s + 1 /\
  forall n, In n (nodes dops (fr dops s)) -> available dops n = false -> is_leaf dops n = true -> held s' <> held s + 1 - zsum (counters dops n).
Proof.
  destruct (check_lost_ok _ _ _ _ run_lost) as [s [s' [b [R [Hh [Vp [T [Lt H]]]]]]]]. exists (conf_t 10), (cycle draws_t), s, (rev (firstn 100 points_t)), (fst point_t), (snd point_t), s', b.
  split; [apply csizes_t; auto|]. split; [reflexivity|]. split; [exact (draws_trims (cycle draws_t) (conf_t 10) draws_t_ok eq_refl)|]. split; [exact draws_t_ok|]. split; [exact R|]. split; [rewrite rev_length; exact Hh|].
  split; [rewrite <- surjective_pairing; exact Vp|]. split; [exact T|]. split; [exact Lt|]. intros n I A L. apply H; [exact I|]. unfold in_leaf. now rewrite A, L.
Qed.
Print Assumptions coarse_split_points_refuted.
