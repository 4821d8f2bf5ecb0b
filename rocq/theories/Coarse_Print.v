(** * Proofs for the self-check and the printing of the coarse Mondrian forest *)
From Coq Require Import ZArith List Bool Lia Permutation.
From Verif Require Import CppBase CppFacts NumOps Utils_Model Mondrian_Model Mondrian_Spec Mondrian_Proofs Coarse_Model Coarse_Spec Coarse_Heap Coarse_Walk Coarse_Train Coarse_Forest Coarse_Reach.
From Verif Require Import Coarse_Trim Coarse_Total Coarse_Predict Coarse_Recount Forest_Sim Coarse_Sim Coarse_Innocent Coarse_Print_Model Coarse_Print_Spec.
Import ListNotations.
Local Open Scope Z_scope.

Section Print.
  Variable O : ops.
  Variable c : config O.
  Local Notation n_ := (nofZ O).
  Local Notation node := (node O).
  Local Notation coarse := (coarse O).
  Local Notation fr := (fr O).
  Local Notation nodes := (nodes O).
  Local Notation get := (get O).
  Local Notation fc := (c_features O c).
  Local Notation lc := (c_labels O c).
  Local Notation nc := (c_nodes O c).
  Local Notation tc := (c_trees O c).
  Local Notation ctree := (ctree O).
  Local Notation ctop := (ctop O).
  Local Notation cids := (cids O).
  Local Notation csize := (csize O).
  Local Notation cost := (cost O).
  Local Notation height := (height O).
  Local Notation shape := (shape O).
  Local Notation stored := (stored O fc lc).
  Local Notation check_walk := (check_walk O c).
  Local Notation print_walk := (print_walk O c).

  Lemma ctop_in : forall t : ctree, In (ctop t) (cids t).
  Proof. intros []; now left. Qed.
  Lemma shape_top : forall t f p, shape f p t -> exists n, rd (nodes f) (ctop t) = Ok n /\ parent O n = p.
  Proof. intros [|] f p [n [A [B _]]]; eauto. Qed.
  Lemma cost_fuel : forall t, csize t <= nc -> exists k, fuel O c = (cost t + Datatypes.S k)%nat.
  Proof. intros t H. pose proof (cost_size O t). exists (fuel O c - cost t - 1)%nat. unfold fuel. lia. Qed.

  (** ** The self-check *)
  Definition child (s : coarse) (p j : Z) : Prop := p = -1 \/ exists m, get s p = Ok m /\ (child_left O m = j \/ child_right O m = j).
  Lemma child_check : forall s p j n, parent O n = p -> child s p j -> child_of_parent O s j n = Ok true.
  Proof.
    intros s p j n Hp H. unfold child_of_parent. rewrite Hp. destruct H as [->|[m [Hm H]]]; [reflexivity|]. pose proof (rd_bounds _ _ _ _ Hm) as B. rewrite (proj2 (Z.leb_le 0 p)) by lia. rewrite Hm. cbn [bind].
    destruct H as [->| ->]; rewrite Z.eqb_refl; cbn [negb andb]; [reflexivity|]. now rewrite andb_false_r.
  Qed.
  Lemma check_inner : forall t s p depth i stack vis, shape (fr s) p t -> child s p (ctop t) -> NoDup (cids t) -> (forall j, In j (cids t) -> rd vis j = Ok false) ->
    0 <= depth -> depth + height t <= 101 -> length stack = 100%nat -> clear stack depth -> i + csize t <= nc ->
    exists vis', (forall j, ~ In j (cids t) -> rd vis' j = rd vis j) /\ forall k, check_walk (cost t + k) s (ctop t) depth i stack vis = check_walk k s p (depth - 1) (i + csize t) stack vis'.
  Proof.
    induction t as [j cs|j d v cs l IHl r IHr]; intros s p depth i stack vis [n [H1 [H2 H3]]] Ch Nd Vi Hd Hh Ls C Hi; cbn [Coarse_Spec.ctop Coarse_Spec.height] in *; assert (G : get s j = Ok n) by exact H1;
      pose proof (rd_bounds _ _ _ _ H1) as Bj; pose proof (child_check _ _ _ _ H2 Ch) as Cc.
    - exists vis. split; [reflexivity|]. intros k. unfold Coarse_Walk.csize in Hi |- *. cbn [Coarse_Spec.cids length] in *. cbn [Coarse_Walk.cost plus Coarse_Print_Model.check_walk].
      rewrite (proj2 (Z.ltb_lt i nc)), (proj2 (Z.leb_le 0 j)), G by lia. cbn [andb bind]. rewrite H3, Vi by (now left). cbn [bind]. rewrite Cc. cbn [bind negb]. rewrite H2. reflexivity.
    - rewrite csize_fork in Hi |- *. pose proof (csize_pos O l) as Sl. pose proof (csize_pos O r) as Sr. pose proof (height_pos O l) as Pl. pose proof (height_pos O r) as Pr. destruct H3 as [A1 [A2 [A3 [A4 A5]]]].
      cbn [Coarse_Spec.cids] in *. apply NoDup_cons_iff in Nd. destruct Nd as [Nj Nd]. apply nodup_app in Nd. destruct Nd as [Nl [Nr Nx]]. rewrite in_app_iff in Nj.
      assert (E : rd stack depth = Ok (-1)). { destruct (rd_in_bounds _ stack depth) as [w Hw]; [lia|]. rewrite Hw. f_equal. apply (C depth w); [lia|exact Hw]. }
      pose proof (Vi j ltac:(now left)) as Vj. pose proof (rd_bounds _ _ _ _ Vj) as Bv. destruct (shape_top _ _ _ A4) as [nl [Gl Pnl]]. destruct (shape_top _ _ _ A5) as [nr [Gr Pnr]].
      set (vis1 := upd vis (Z.to_nat j) true). assert (V1 : forall q, q <> j -> rd vis1 q = rd vis q) by (intros q Hq; unfold vis1; destruct (Z.lt_ge_cases q 0) as [N|N]; [rewrite !rd_oob by lia; reflexivity|]; rewrite rd_upd by (exact Bv || exact N); rewrite (proj2 (Z.eqb_neq j q)) by congruence; reflexivity).
      destruct (IHr s j (depth + 1) i (upd stack (Z.to_nat depth) 0) vis1) as [vis2 [V2 W2]]; [exact A5|right; eauto|exact Nr| |lia|lia|now rewrite upd_length|apply clear_upd; [lia|now apply clear_next]|lia|].
      { intros q Hq. rewrite V1 by (intros ->; tauto). apply Vi. right. apply in_or_app. now right. }
      destruct (IHl s j (depth + 1) (i + csize r) (upd (upd stack (Z.to_nat depth) 0) (Z.to_nat depth) 1) vis2) as [vis3 [V3 W3]]; [exact A4|right; eauto|exact Nl| |lia|lia|now rewrite !upd_length| |lia|].
      { intros q Hq. rewrite V2 by (intros X; apply (Nx q Hq X)). rewrite V1 by (intros ->; tauto). apply Vi. right. apply in_or_app. now left. }
      { apply clear_upd; [rewrite upd_length; lia|]. apply clear_upd; [lia|]. now apply clear_next. }
      exists vis3. split. { intros q Hq. rewrite V3, V2, V1; [reflexivity|..]; intros X; apply Hq; subst; [now left|right..]; apply in_or_app; auto. }
      intros k. replace (cost (CFork j d v cs l r) + k)%nat with (Datatypes.S (cost r + Datatypes.S (cost l + Datatypes.S k)))%nat by (cbn [Coarse_Walk.cost]; lia).
      cbn [Coarse_Print_Model.check_walk]. rewrite (proj2 (Z.ltb_lt i nc)), (proj2 (Z.leb_le 0 j)), G by lia. cbn [andb bind]. rewrite A1, E. cbn [bind Z.eqb].
      rewrite wr_ok by lia. cbn [bind]. rewrite Vj. cbn [bind]. rewrite Cc. cbn [bind negb]. rewrite A3, A2. unfold Coarse_Model.get at 1. rewrite Gr. cbn [bind]. rewrite Pnr, Z.eqb_refl. cbn [negb].
      unfold Coarse_Model.get at 1. rewrite Gl. cbn [bind]. rewrite Pnl, Z.eqb_refl. cbn [negb]. rewrite wr_ok by lia. cbn [bind]. fold vis1. rewrite W2. replace (depth + 1 - 1) with depth by lia.
      cbn [Coarse_Print_Model.check_walk]. rewrite (proj2 (Z.ltb_lt (i + csize r) nc)), (proj2 (Z.leb_le 0 j)), G by lia. cbn [andb bind]. rewrite A1, rd_stack by lia. cbn [bind].
      change (0 =? -1) with false. change (0 =? 0) with true. cbn match. rewrite wr_ok by (rewrite upd_length; lia). cbn [bind]. rewrite A2, W3. replace (depth + 1 - 1) with depth by lia.
      cbn [Coarse_Print_Model.check_walk]. rewrite (proj2 (Z.ltb_lt (i + csize r + csize l) nc)), (proj2 (Z.leb_le 0 j)), G by lia. cbn [andb bind]. rewrite A1, rd_stack by (rewrite upd_length; lia). cbn [bind].
      change (1 =? -1) with false. change (1 =? 0) with false. change (1 =? 1) with true. cbn match. rewrite wr_ok by (rewrite !upd_length; lia). cbn [bind]. rewrite H2, (upd_back stack depth 0 1 (-1) E).
      replace (i + (1 + csize l + csize r)) with (i + csize r + csize l + 1) by lia. reflexivity.
  Qed.
  Lemma checker_ok : forall s i o, rd (roots O (fr s)) i = Ok (match o with Some t => ctop t | None => -1 end) ->
    match o with Some t => shape (fr s) (-1) t /\ NoDup (cids t) /\ (forall j, In j (cids t) -> 0 <= j < nc) /\ csize t <= nc /\ height t <= 101 | None => True end -> tree_checker O c s i = Ok true.
  Proof.
    intros s i o Er H. unfold tree_checker. rewrite Er. cbn [bind]. destruct o as [t|].
    - destruct H as [T [Nd [Bd [Sz Hh]]]]. destruct (cost_fuel t Sz) as [k ->].
      destruct (check_inner t s (-1) 0 0 (repeat (-1) (Z.to_nat max_stack_size)) (repeat false (Z.to_nat nc)) T (or_introl eq_refl) Nd) as [vis [_ ->]]; try lia; [|reflexivity|apply clear_repeat|].
      + intros j Hj. apply rd_repeat. specialize (Bd j Hj). lia.
      + cbn [Coarse_Print_Model.check_walk]. change (0 <=? -1) with false. now rewrite andb_false_r.
    - unfold fuel. cbn [Coarse_Print_Model.check_walk]. change (0 <=? -1) with false. now rewrite andb_false_r.
  Qed.

  (** ** Printing *)
  Local Notation listing := (listing O).
  Local Notation listings := (listings O).
  Local Notation true_line := (true_line O).
  Local Notation columns := (columns O).
  Lemma print_inner : forall t s tree_id p depth i stack out, shape (fr s) p t ->
    0 <= depth -> depth + height t <= 101 -> length stack = 100%nat -> clear stack depth -> i + csize t <= nc ->
    exists lines, map columns lines = map (fun e => (tree_id, e)) (listing depth t) /\ Forall (true_line s) lines /\
      forall k, print_walk (cost t + k) s tree_id (ctop t) depth i stack out = print_walk k s tree_id p (depth - 1) (i + csize t) stack (out ++ lines).
  Proof.
    induction t as [j cs|j d v cs l IHl r IHr]; intros s tree_id p depth i stack out [n [H1 [H2 H3]]] Hd Hh Ls C Hi; cbn [Coarse_Spec.ctop Coarse_Spec.height] in *; assert (G : get s j = Ok n) by exact H1.
    - exists [mkNarval O (total O s) tree_id j depth 1 n]. split; [reflexivity|]. split; [repeat constructor; exact G|]. intros k. unfold Coarse_Walk.csize in Hi |- *. cbn [Coarse_Spec.cids length] in *.
      cbn [Coarse_Walk.cost plus Coarse_Print_Model.print_walk]. rewrite (proj2 (Z.ltb_lt i nc)), (proj2 (Z.leb_le 0 depth)), G by lia. cbn [andb bind]. rewrite H3, H2. reflexivity.
    - rewrite csize_fork in Hi |- *. pose proof (csize_pos O l) as Sl. pose proof (csize_pos O r) as Sr. pose proof (height_pos O l) as Pl. pose proof (height_pos O r) as Pr. destruct H3 as [A1 [A2 [A3 [A4 A5]]]].
      assert (E : rd stack depth = Ok (-1)). { destruct (rd_in_bounds _ stack depth) as [w Hw]; [lia|]. rewrite Hw. f_equal. apply (C depth w); [lia|exact Hw]. }
      set (e := mkNarval O (total O s) tree_id j depth 0 n).
      destruct (IHr s tree_id j (depth + 1) i (upd stack (Z.to_nat depth) 0) (out ++ [e])) as [lr [M2 [F2 W2]]]; [exact A5|lia|lia|now rewrite upd_length|apply clear_upd; [lia|now apply clear_next]|lia|].
      destruct (IHl s tree_id j (depth + 1) (i + csize r) (upd (upd stack (Z.to_nat depth) 0) (Z.to_nat depth) 1) ((out ++ [e]) ++ lr)) as [ll [M3 [F3 W3]]]; [exact A4|lia|lia|now rewrite !upd_length| |lia|].
      { apply clear_upd; [rewrite upd_length; lia|]. apply clear_upd; [lia|]. now apply clear_next. }
      exists (e :: lr ++ ll). split; [cbn [map Coarse_Print_Spec.listing]; rewrite !map_app, M2, M3; reflexivity|]. split; [constructor; [repeat split; exact G|]; apply Forall_app; auto|].
      intros k. replace (cost (CFork j d v cs l r) + k)%nat with (Datatypes.S (cost r + Datatypes.S (cost l + Datatypes.S k)))%nat by (cbn [Coarse_Walk.cost]; lia).
      cbn [Coarse_Print_Model.print_walk]. rewrite (proj2 (Z.ltb_lt i nc)), (proj2 (Z.leb_le 0 depth)), G by lia. cbn [andb bind]. rewrite A1, E. cbn [bind Z.eqb].
      rewrite wr_ok by lia. cbn [bind]. rewrite A3. fold e. rewrite W2. replace (depth + 1 - 1) with depth by lia.
      cbn [Coarse_Print_Model.print_walk]. rewrite (proj2 (Z.ltb_lt (i + csize r) nc)), (proj2 (Z.leb_le 0 depth)), G by lia. cbn [andb bind]. rewrite A1, rd_stack by lia. cbn [bind].
      change (0 =? -1) with false. change (0 =? 0) with true. cbn match. rewrite wr_ok by (rewrite upd_length; lia). cbn [bind]. rewrite A2, W3. replace (depth + 1 - 1) with depth by lia.
      cbn [Coarse_Print_Model.print_walk]. rewrite (proj2 (Z.ltb_lt (i + csize r + csize l) nc)), (proj2 (Z.leb_le 0 depth)), G by lia. cbn [andb bind]. rewrite A1, rd_stack by (rewrite upd_length; lia). cbn [bind].
      change (1 =? -1) with false. change (1 =? 0) with false. change (1 =? 1) with true. cbn match. rewrite wr_ok by (rewrite !upd_length; lia). cbn [bind]. rewrite H2, (upd_back stack depth 0 1 (-1) E).
      replace (i + (1 + csize l + csize r)) with (i + csize r + csize l + 1) by lia. rewrite <- !app_assoc. reflexivity.
  Qed.
  Lemma tree_printed : forall s i t out, shape (fr s) (-1) t -> csize t <= nc -> height t <= 101 ->
    exists lines, tree_printy O c s i (ctop t) out = Ok (out ++ lines) /\ map columns lines = map (fun e => (i, e)) (listing 0 t) /\ Forall (true_line s) lines.
  Proof.
    intros s i t out T Sz Hh. destruct (cost_fuel t Sz) as [k Ek]. destruct (print_inner t s i (-1) 0 0 (repeat (-1) (Z.to_nat max_stack_size)) out T) as [lines [M [F W]]]; try lia; [reflexivity|apply clear_repeat|].
    exists lines. split; [|auto]. unfold tree_printy. rewrite Ek, W. cbn [Coarse_Print_Model.print_walk]. change (0 <=? 0 - 1) with false. now rewrite andb_false_r.
  Qed.
  Lemma listing_ids : forall t depth, Permutation (map (fun e => fst (fst e)) (listing depth t)) (cids t).
  Proof.
    induction t as [i cs|i d v cs l IHl r IHr]; intros depth; [reflexivity|]. cbn [Coarse_Print_Spec.listing map fst Coarse_Spec.cids]. constructor. rewrite map_app, IHr, IHl. apply Permutation_app_comm.
  Qed.

  (** ** The forest *)
  Lemma shape_ids : forall t f p j, shape f p t -> In j (cids t) -> exists n, rd (nodes f) j = Ok n.
  Proof.
    induction t as [i cs|i d v cs l IHl r IHr]; intros f p j [n [A [B C]]] H; cbn [Coarse_Spec.cids Coarse_Spec.ctop] in *.
    - destruct H as [<-|[]]. eauto.
    - destruct C as [_ [_ [_ [C1 C2]]]]. destruct H as [<-|H]; [eauto|]. apply in_app_iff in H. destruct H as [H|H]; eauto.
  Qed.
  Lemma tree_fits : forall s ts t i, ctrees O c s ts -> nth_error ts i = Some (Some t) ->
    rd (roots O (fr s)) (Z.of_nat i) = Ok (ctop t) /\ shape (fr s) (-1) t /\ NoDup (cids t) /\ (forall j, In j (cids t) -> 0 <= j < nc) /\ csize t <= nc.
  Proof.
    intros s ts t i [H1 [H2 [H3 [H4 H5]]]] Ht. destruct (H2 _ _ Ht) as [Er St]. apply stored_shape in St as Sh.
    assert (B : forall j, In j (cids t) -> 0 <= j < nc) by (intros j Hj; destruct (shape_ids _ _ _ _ Sh Hj) as [n Hn]; apply rd_bounds in Hn; lia).
    assert (N : NoDup (cids t)). { apply nth_error_split in Ht. destruct Ht as [a [b [-> _]]]. rewrite all_cids_app, all_cids_cons in H4. apply nodup_app in H4. destruct H4 as [_ [H4 _]]. apply nodup_app in H4. apply H4. }
    split; [exact Er|]. split; [exact Sh|]. split; [exact N|]. split; [exact B|]. assert (X : (length (cids t) <= length (zrange nc))%nat) by (apply NoDup_incl_length; [exact N|]; intros j Hj; apply zrange_in; auto).
    rewrite zrange_length in X. unfold Coarse_Walk.csize. lia.
  Qed.
  Definition low_forest (ts : list (option ctree)) : Prop := forall t, In (Some t) ts -> height t <= 101.
  Lemma forest_checked : forall s ts i, ctrees O c s ts -> low_forest ts -> 0 <= i < tc -> tree_checker O c s i = Ok true.
  Proof.
    intros s ts i T Lo Hi. pose proof T as [H1 [H2 _]]. destruct (nth_error ts (Z.to_nat i)) as [o|] eqn:Ho; [|apply nth_error_None in Ho; lia]. apply checker_ok with o.
    - destruct o as [t|]; [destruct (tree_fits _ _ _ _ T Ho) as [E _]|pose proof (H2 _ _ Ho) as E]; rewrite Z2Nat.id in E by lia; exact E.
    - destruct o as [t|]; [|exact I]. destruct (tree_fits _ _ _ _ T Ho) as [_ [A [B [C D]]]]. repeat split; try (apply C; assumption); auto. apply Lo. now apply nth_error_In in Ho.
  Qed.
  Local Notation print_one s := (fun (i : Z) (out : list (narval O)) => do root <- rd (roots O (fr s)) i; tree_printy O c s i root out).
  Lemma forest_printed : forall s rest k out,
    (forall i o, nth_error rest i = Some o -> exists t, o = Some t /\ rd (roots O (fr s)) (k + Z.of_nat i) = Ok (ctop t) /\ shape (fr s) (-1) t /\ csize t <= nc /\ height t <= 101) ->
    exists lines, forZ (length rest) k (print_one s) out = Ok (out ++ lines) /\ map columns lines = listings k rest /\ Forall (true_line s) lines.
  Proof.
    intros s rest. induction rest as [|o rest IH]; intros k out H; [exists []; rewrite app_nil_r; auto|]. destruct (H 0%nat o eq_refl) as [t [-> [Er [Sh [Sz Hh]]]]]. rewrite Z.add_0_r in Er.
    cbn [length forZ]. rewrite Er. cbn [bind]. destruct (tree_printed s k t out Sh Sz Hh) as [l1 [E1 [M1 F1]]]. rewrite E1. cbn [bind].
    destruct (IH (k + 1) (out ++ l1)) as [l2 [E2 [M2 F2]]]; [intros i o Ho; destruct (H (Datatypes.S i) o Ho) as [t' [-> [X Y]]]; exists t'; rewrite <- Z.add_assoc; replace (1 + Z.of_nat i) with (Z.of_nat (Datatypes.S i)) by lia; auto|].
    exists (l1 ++ l2). rewrite app_assoc. split; [exact E2|]. split; [|apply Forall_app; auto]. cbn [Coarse_Print_Spec.listings]. now rewrite map_app, M1, M2.
  Qed.
  Lemma printy_ok : forall s ts, ctrees O c s ts -> low_forest ts -> ~ In None ts -> exists lines, printy O c s = Ok lines /\ map columns lines = listings 0 ts /\ Forall (true_line s) lines.
  Proof.
    intros s ts T Lo Nn. unfold printy. destruct (forest_printed s ts 0 []) as [lines [E [M F]]].
    - intros i [t|] Ho; [|elim Nn; now apply nth_error_In in Ho]. exists t. split; [reflexivity|]. destruct (tree_fits _ _ _ _ T Ho) as [A [B [C [D D']]]]. cbn [Z.add]. repeat split; auto. apply Lo. now apply nth_error_In in Ho.
    - exists lines. split; [|auto]. pose proof T as [Ln _]. replace (Z.to_nat tc) with (length ts) by lia. exact E.
  Qed.
  Lemma forest_unprinted : forall s rest k out, 1 <= nc -> In None rest ->
    (forall i o, nth_error rest i = Some o -> match o with Some t => rd (roots O (fr s)) (k + Z.of_nat i) = Ok (ctop t) /\ shape (fr s) (-1) t /\ csize t <= nc /\ height t <= 101 | None => rd (roots O (fr s)) (k + Z.of_nat i) = Ok (-1) end) ->
    forZ (length rest) k (print_one s) out = Undef OutOfBounds.
  Proof.
    intros s rest. induction rest as [|o rest IH]; intros k out Hn Hi H; [destruct Hi|]. pose proof (H 0%nat o eq_refl) as H0. rewrite Z.add_0_r in H0. cbn [length forZ]. destruct o as [t|].
    - destruct H0 as [Er [Sh [Sz Hh]]]. rewrite Er. cbn [bind]. destruct (tree_printed s k t out Sh Sz Hh) as [l1 [E1 _]]. rewrite E1. cbn [bind]. destruct Hi as [X|Hi]; [discriminate|]. apply IH; auto.
      intros i o Ho. pose proof (H (Datatypes.S i) o Ho) as X. replace (k + Z.of_nat (Datatypes.S i)) with (k + 1 + Z.of_nat i) in X by lia. exact X.
    - rewrite H0. cbn [bind]. unfold tree_printy, fuel. cbn [Coarse_Print_Model.print_walk]. rewrite (proj2 (Z.ltb_lt 0 nc)) by lia. cbn [andb Z.leb Z.compare]. unfold Coarse_Model.get. rewrite rd_oob by lia. reflexivity.
  Qed.
  Lemma printy_missing : forall s ts, ctrees O c s ts -> low_forest ts -> In None ts -> 1 <= nc -> printy O c s = Undef OutOfBounds.
  Proof.
    intros s ts T Lo Nn Hc. unfold printy. pose proof T as [Ln [H2 _]]. replace (Z.to_nat tc) with (length ts) by lia. apply forest_unprinted; auto. intros i [t|] Ho; cbn [Z.add].
    - destruct (tree_fits _ _ _ _ T Ho) as [A [B [C [D D']]]]. repeat split; auto. apply Lo. now apply nth_error_In in Ho.
    - exact (H2 _ _ Ho).
  Qed.
  Lemma listings_ids : forall ts k, Permutation (map (fun e => fst (fst (snd e))) (listings k ts)) (all_cids O ts).
  Proof.
    induction ts as [|o ts IH]; intros k; [reflexivity|]. cbn [Coarse_Print_Spec.listings]. rewrite map_app, map_map, all_cids_cons. cbn [snd]. apply Permutation_app; [|apply IH]. destruct o as [t|]; [apply listing_ids|reflexivity].
  Qed.
  (** A binary tree is not higher than half its size. *)
  Lemma half_height : forall t, 2 * height t <= csize t + 1.
  Proof.
    induction t as [i cs|i d v cs l IHl r IHr]; [unfold Coarse_Walk.csize; cbn; lia|]. rewrite csize_fork. cbn [Coarse_Spec.height]. pose proof (csize_pos O l). pose proof (csize_pos O r). lia.
  Qed.
End Print.

Section Reached.
  Variable O : ops.
  Variable exp_ log_ : num O -> num O.
  Variable rnd : nat -> num O.
  Variable c : config O.
  Variable l0 : Z.
  Hypothesis Tl : tlaws O.
  Hypothesis Hs : csizes O c l0.
  Hypothesis Hkind : c_extend O c <> EXTEND_BARYCENTER.
  Hypothesis Hsafe : trim_safe O rnd c.
  Local Notation creached := (creached O exp_ log_ rnd c l0).
  Local Notation preached := (preached O exp_ log_ rnd c l0).
  Local Notation tc := (c_trees O c).
  Local Notation lc := (c_labels O c).

  Lemma reached_shallow : shallow O c -> forall s h, creached s h -> exists ts, inv O c s ts /\ low_forest O ts.
  Proof.
    intros Sh s h R. destruct Sh as [[Mg Li]|Nn].
    - assert (Cb : cobble O c = true) by (unfold cobble; destruct Mg as [->| ->]; reflexivity). destruct (reached_low O exp_ log_ rnd c l0 Tl Hs Hkind Hsafe Cb s h R) as [ts [V F]]. exists ts. split; [exact V|].
      intros t Ht. rewrite Forall_forall in F. apply F in Ht. cbn in Ht. unfold first_limit in Ht. unfold cobble in Cb. destruct Mg as [Mg|Mg]; rewrite Mg in Ht; cbn in Ht; lia.
    - destruct (reach_inv O exp_ log_ rnd c l0 Tl Hs Hkind Hsafe (fun _ _ _ => True) I ltac:(auto) ltac:(auto) s h R) as [ts [V _]]. exists ts. split; [exact V|]. intros t Ht. apply In_nth_error in Ht. destruct Ht as [i Hi].
      destruct (tree_fits O c s ts t i (inv_ctrees _ _ _ _ V) Hi) as [_ [_ [_ [_ Sz]]]]. pose proof (half_height O t). lia.
  Qed.
  Lemma debug_train : shallow O c -> forall s h x label s' b, creached s h -> Z.of_nat (length x) = c_features O c -> 0 <= label < lc -> train O log_ rnd c s x label = Ok (s', b) ->
    train_debug O log_ rnd c s x label = Ok (s', b).
  Proof.
    intros Sh s h x label s' b R Hx Hl T. unfold train_debug. rewrite T. cbn [bind]. assert (R' : creached s' ((x, label) :: h)) by (eapply creached_train; eauto). destruct (reached_shallow Sh _ _ R') as [ts [V Lo]].
    assert (F : forall n i, 0 <= i -> i + Z.of_nat n <= tc -> forZ n i (fun i _ => do ok <- tree_checker O c s' i; if negb ok then Abort else Ok tt) tt = Ok tt).
    { induction n as [|n IH]; intros i Hi Hn; [reflexivity|]. cbn [forZ]. rewrite (forest_checked O c s' ts i (inv_ctrees _ _ _ _ V) Lo) by lia. cbn [bind negb]. apply IH; lia. }
    pose proof Hs as [H0 _]. rewrite F by lia. reflexivity.
  Qed.

  (** *** [scory] does what a prediction with no tree does *)
  Lemma scory_state : forall s x label s' out, scory O exp_ c s x label = Ok (s', out) -> update_all O c s = Ok s'.
  Proof. intros s x label s' out H. unfold scory in H. inv_bind H. inv_bind H. destruct v0 as [o1 sc]. inv_bind H. inv_bind H. injection H as <- _. exact E. Qed.
  Lemma no_tree : c_optimize O c = false -> c_extend O c <> EXTEND_GHOST -> forall s s' x, Z.of_nat (length x) = c_features O c -> update_all O c s = Ok s' -> exists b, predict O exp_ c s x None 0 = Ok (s', b, None).
  Proof.
    intros Ho Hg s s' x Hx H. unfold predict. change (0 <? 0) with false. cbn match. rewrite Ho, (proj2 (Z.eqb_neq _ _) Hg). cbn [negb andb]. rewrite H. cbn [bind]. unfold forest_means. cbn [Z.to_nat forZ bind].
    destruct (best_total O c l0 Hs x (fun a b => nlt O b a) (map (fun a => ndiv O a (nofZ O 0)) (repeat (nofZ O 0) (Z.to_nat lc)))) as [b [E _]]; [now rewrite map_length, repeat_length|]. rewrite E. cbn [bind]. eauto.
  Qed.
  Lemma preached_creached : c_optimize O c = false -> c_extend O c <> EXTEND_GHOST -> forall s h, preached s h -> creached s h.
  Proof.
    intros Ho Hg s h H. induction H as [|s h x label s' b out R IH Hx Hl T|s h x sc k s' b sc' R IH Hx T]; [constructor| |eapply creached_predict; eauto].
    unfold train_print in T. inv_bind T. destruct v as [s1 o1]. inv_bind T. destruct v as [s2 b2]. inv_bind T. injection T as <- _ _. apply scory_state in E. destruct (no_tree Ho Hg _ _ _ Hx E) as [b1 P].
    eapply creached_train; [eapply creached_predict; [exact IH|exact Hx|exact P]|exact Hx|exact Hl|exact E0].
  Qed.

  Lemma scory_total : 1 <= tc -> forall s h x label, creached s h -> Z.of_nat (length x) = c_features O c ->
    exists s1 lines line, scory O exp_ c s x label = Ok (s1, lines ++ [line]) /\ length lines = Z.to_nat tc /\ lt_tree line = -1 /\
      exists e, List.last (map Some lines) None = Some e /\ lt_prediction line = lt_prediction e /\ lt_scores line = lt_scores e.
  Proof.
    intros Ht s h x label R Hx. destruct (reach_inv O exp_ log_ rnd c l0 Tl Hs Hkind Hsafe (fun _ _ _ => True) I ltac:(auto) ltac:(auto) s h R) as [ts [V _]]. pose proof (full_reached O exp_ log_ rnd c l0 Tl Hs Hkind s h R) as Fu.
    destruct (def_ok _ _ (update_all_total O c l0 Hs s ts V)) as [s1 E1]. pose proof (update_all_ok _ _ _ _ E1) as [R1 [R2 R3]]. destruct (inv_recounted _ _ _ _ _ V R1 R2 R3) as [ts1 [_ V1]]. pose proof (full_recounted _ _ _ _ R1 Fu) as F1.
    assert (P : forall n i, 0 <= i -> i + Z.of_nat n <= tc -> forall out sc, exists out' sc', forZ n i (fun i '(out, _) => do scores <- predict_tree O exp_ c s1 x i (-1); do prediction <- index_max (fun a b => nlt O b a) scores lc;
        Ok (out ++ [mkLoutre O (total O s1) i label prediction scores], Some scores)) (out, sc) = Ok (out ++ out', sc') /\ length out' = n /\
        (n <> 0%nat -> exists e sc1, List.last (map Some out') None = Some e /\ sc' = Some sc1 /\ lt_scores e = sc1 /\ index_max (fun a b => nlt O b a) sc1 lc = Ok (lt_prediction e))).
    { induction n as [|n IH]; intros i Hi Hn out sc; [exists [], sc; rewrite app_nil_r; split; [reflexivity|]; split; [reflexivity|congruence]|]. cbn [forZ]. destruct (tree_total O exp_ c l0 Hs x Hx s1 ts1 i V1 F1) as [q [Eq Lq]]; [lia|].
      rewrite Eq. cbn [bind]. destruct (best_total O c l0 Hs x (fun a b => nlt O b a) q Lq) as [b [Eb _]]. rewrite Eb. cbn [bind]. set (e := mkLoutre O (total O s1) i label b q).
      destruct (IH (i + 1) ltac:(lia) ltac:(lia) (out ++ [e]) (Some q)) as [out' [sc' [E [Lo K]]]]. exists (e :: out'), sc'. split; [rewrite E, <- app_assoc; reflexivity|]. split; [cbn; congruence|]. intros _. destruct n as [|n].
      - destruct out'; [|discriminate]. cbn [forZ] in E. injection E as _ <-. exists e, q. cbn. auto.
      - destruct (K ltac:(discriminate)) as [e' [sc1 [K1 K2]]]. exists e', sc1. split; [|exact K2]. destruct out' as [|a out']; [discriminate|]. exact K1. }
    destruct (P (Z.to_nat tc) 0 ltac:(lia) ltac:(lia) [] None) as [out [sc [E [Lo K]]]]. destruct (K ltac:(lia)) as [e [sc1 [K1 [-> [K3 K4]]]]]. exists s1, out, (mkLoutre O (total O s1) (-1) label (lt_prediction e) sc1).
    split; [unfold scory; rewrite E1; cbn [bind]; rewrite E; cbn [bind app]; rewrite K4; reflexivity|]. split; [exact Lo|]. split; [reflexivity|]. exists e. cbn [lt_prediction lt_scores]. auto.
  Qed.
  Lemma print_train : c_optimize O c = false -> c_extend O c <> EXTEND_GHOST -> shallow O c -> 1 <= tc <= c_nodes O c -> forall s h x label s' b, creached s h -> Z.of_nat (length x) = c_features O c -> 0 <= label < lc ->
    train O log_ rnd c s x label = Ok (s', b) -> exists s1 out, train_print O exp_ log_ rnd c s x label = Ok (s1, b, out).
  Proof.
    intros Ho Hg Sh Ht s h x label s' b R Hx Hl T. unfold train_print. destruct (scory_total ltac:(lia) s h x label R Hx) as [s1 [lines [line [E _]]]]. rewrite E. cbn [bind]. apply scory_state in E. destruct (no_tree Ho Hg _ _ _ Hx E) as [b1 P].
    assert (R1 : creached s1 h) by (eapply creached_predict; [exact R|exact Hx|exact P]). pose proof (train_same O exp_ log_ rnd c l0 Tl Hs Hkind Hsafe s s1 h x label Hx R R1) as X. rewrite T in X.
    destruct (train O log_ rnd c s1 x label) as [[s2 b2]|u| |] eqn:T1; cbn in X; try contradiction. destruct X as [_ <-]. cbn [bind]. assert (R2 : creached s2 ((x, label) :: h)) by (eapply creached_train; [exact R1|exact Hx|exact Hl|exact T1]).
    destruct (reached_shallow Sh _ _ R2) as [ts [V Lo]]. pose proof (some_tree O exp_ log_ rnd c l0 Tl Hs Hkind Hsafe ltac:(lia) s2 _ ts R2 ltac:(discriminate) V) as Nn.
    destruct (printy_ok O c s2 ts (inv_ctrees _ _ _ _ V) Lo Nn) as [out [Ep _]]. destruct (_ || _); [rewrite Ep|]; cbn [bind]; eauto.
  Qed.
End Reached.
