(** * Proofs for the coarse Mondrian forest: the barycenter and the two sides of a split *)
From Coq Require Import ZArith List Bool Lia Permutation Reals Lra.
From Flocq Require Import Core.
From Verif Require Import CppBase CppFacts NumOps NumFacts Mondrian_Model Mondrian_Spec Mondrian_Proofs Mondrian_Predict Coarse_Model Coarse_Spec Coarse_Heap Coarse_Walk Coarse_Reach Coarse_Forest Coarse_Center Coarse_Smallest Coarse_Sides_Spec.
Import ListNotations.
Local Open Scope Z_scope.

Section Walk.
  Variable O : ops.
  Variable c : config O.
  Local Notation coarse := (coarse O).
  Local Notation fr := (fr O).
  Local Notation get := (get O).
  Local Notation nc := (c_nodes O c).
  Local Notation ctree := (ctree O).
  Local Notation ctop := (ctop O).
  Local Notation cids := (cids O).
  Local Notation csize := (csize O).
  Local Notation cost := (cost O).
  Local Notation height := (height O).
  Local Notation shape := (shape O).

  (** ** A walk that starts in the middle of a tree visits the leaves below *)
    Variable A : Type.
    Variable visit : coarse -> Z -> A -> res (coarse * A).
    Hypothesis keeps : forall s i a s' a', visit s i a = Ok (s', a') -> linked O (fr s) (fr s').
    Lemma walk_exact : forall t start s p depth i stack a s' a', shape (fr s) p t -> 0 <= depth -> depth + height t <= 100 -> length stack = 100%nat -> clear stack depth -> 0 <= i -> i + csize t <= nc ->
      (forall j, In j (cids t) -> 0 <= j) -> (forall b, start = Some b -> ~ In b (cids t)) -> vfold O A visit (rleaves O t) s a = Ok (s', a') ->
      forall k, walk O c visit start (cost t + k) s (ctop t) depth i stack a = walk O c visit start k s' p (depth - 1) (i + csize t) stack a'.
    Proof.
      induction t as [j cs|j d v cs l IHl r IHr]; intros start s p depth i stack a s' a' T Hd Hh Ls C Hi0 Hi B Nb V k; pose proof T as [n [H1 [H2 H3]]]; cbn [Coarse_Spec.ctop Coarse_Spec.height] in *; assert (G : get s j = Ok n) by exact H1;
        pose proof (B _ (ctop_in O _)) as B0; cbn [Coarse_Spec.ctop] in B0;
        assert (St : match start with Some b => j =? b | None => false end = false) by (destruct start as [b|]; [apply Z.eqb_neq; intros ->; apply (Nb b eq_refl); now left|reflexivity]).
      - unfold Coarse_Walk.csize in Hi |- *. cbn [Coarse_Spec.cids length] in *. cbn [rleaves vfold] in V. inv_bind V. destruct v as [s1 a1]. injection V as <- <-. cbn [Coarse_Walk.cost plus walk].
        rewrite (proj2 (Z.ltb_lt i nc)), (proj2 (Z.leb_le 0 j)), G by lia. cbn [andb bind]. rewrite H3, wr_ok by lia. cbn [bind]. rewrite E. cbn [bind]. rewrite St. unfold max_stack_size. rewrite (proj2 (Z.leb_gt 100 (depth - 1))) by lia. rewrite H2.
        assert (Sk : upd stack (Z.to_nat depth) (-1) = stack).
        { destruct (rd_in_bounds _ stack depth) as [w Hw]; [lia|]. pose proof (C _ _ (Z.le_refl depth) Hw) as ->. apply rd_ok_iff in Hw. apply upd_same_id. tauto. }
        rewrite Sk. reflexivity.
      - rewrite csize_fork in Hi |- *. pose proof (csize_pos O l) as Sl. pose proof (csize_pos O r) as Sr. pose proof (height_pos O l) as Pl. pose proof (height_pos O r) as Pr. destruct H3 as [A1 [A2 [A3 [A4 A5]]]].
        cbn [rleaves] in V. rewrite vfold_app in V. inv_bind V. destruct v0 as [s1 a1]. rename E into V1, V into V2.
        pose proof (vfold_linked O A visit keeps _ _ _ _ _ V1) as K1. pose proof (vfold_linked O A visit keeps _ _ _ _ _ V2) as K2.
        destruct (K1 j n H1) as [n1 [N1 [N2 [N3 [N4 N5]]]]]. assert (G1 : get s1 j = Ok n1) by exact N1. assert (F1 : is_leaf O n1 = false) by (unfold is_leaf in *; now rewrite N2).
        destruct (K2 j n1 N1) as [n2 [M1 [M2 [M3 [M4 M5]]]]]. assert (G2 : get s' j = Ok n2) by exact M1. assert (F2 : is_leaf O n2 = false) by (unfold is_leaf in *; now rewrite M2).
        assert (Bl : forall k, In k (cids l) -> 0 <= k) by (intros q Hq; apply B; right; apply in_or_app; now left).
        assert (Br : forall k, In k (cids r) -> 0 <= k) by (intros q Hq; apply B; right; apply in_or_app; now right).
        assert (Nl : forall b, start = Some b -> ~ In b (cids l)) by (intros b Hb X; apply (Nb b Hb); right; apply in_or_app; now left).
        assert (Nr : forall b, start = Some b -> ~ In b (cids r)) by (intros b Hb X; apply (Nb b Hb); right; apply in_or_app; now right).
        assert (E : rd stack depth = Ok (-1)). { destruct (rd_in_bounds _ stack depth) as [w Hw]; [lia|]. rewrite Hw. f_equal. apply (C depth w); [lia|exact Hw]. }
        replace (cost (CFork j d v cs l r) + k)%nat with (Datatypes.S (cost r + Datatypes.S (cost l + Datatypes.S k)))%nat by (cbn [Coarse_Walk.cost]; lia).
        cbn [walk]. rewrite (proj2 (Z.ltb_lt i nc)), (proj2 (Z.leb_le 0 j)), G by lia. cbn [andb bind]. rewrite A1, E. cbn [bind Z.eqb].
        rewrite wr_ok by lia. cbn [bind]. unfold max_stack_size at 1. rewrite (proj2 (Z.leb_gt 100 (depth + 1))) by lia. rewrite A3.
        rewrite (IHr start s j (depth + 1) i _ a s1 a1); [|exact A5|lia|lia|now rewrite upd_length|apply clear_upd; [lia|now apply clear_next]|lia|lia|exact Br|exact Nr|exact V1]. replace (depth + 1 - 1) with depth by lia.
        cbn [walk]. rewrite (proj2 (Z.ltb_lt (i + csize r) nc)), (proj2 (Z.leb_le 0 j)), G1 by lia. cbn [andb bind]. rewrite F1, rd_stack by lia. cbn [bind].
        change (0 =? -1) with false. change (0 =? 0) with true. cbn match. rewrite wr_ok by (rewrite upd_length; lia). cbn [bind]. unfold max_stack_size at 1. rewrite (proj2 (Z.leb_gt 100 (depth + 1))) by lia. rewrite N4, A2.
        rewrite (IHl start s1 j (depth + 1) _ _ a1 s' a'); [|now apply shape_linked with (fr s)|lia|lia|now rewrite !upd_length| |lia|lia|exact Bl|exact Nl|exact V2].
        2:{ apply clear_upd; [rewrite upd_length; lia|]. apply clear_upd; [lia|]. now apply clear_next. }
        replace (depth + 1 - 1) with depth by lia.
        cbn [walk]. rewrite (proj2 (Z.ltb_lt (i + csize r + csize l) nc)), (proj2 (Z.leb_le 0 j)), G2 by lia. cbn [andb bind]. rewrite F2, rd_stack by (rewrite upd_length; lia). cbn [bind].
        change (1 =? -1) with false. change (1 =? 0) with false. change (1 =? 1) with true. cbn match. rewrite wr_ok by (rewrite !upd_length; lia). cbn [bind]. rewrite St, M3, N3, H2, (upd_back stack depth 0 1 (-1) E).
        replace (i + (1 + csize l + csize r)) with (i + csize r + csize l + 1) by lia. reflexivity.
    Qed.
    Lemma walk_begin : forall t s p a s' a', shape (fr s) p t -> height t <= 100 -> csize t <= nc -> (forall j, In j (cids t) -> 0 <= j) -> NoDup (cids t) ->
      vfold O A visit (rleaves O t) s a = Ok (s', a') -> walk_from O c visit (Some (ctop t)) s (ctop t) a = Ok (-1, (s', a')).
    Proof.
      intros t s p a s' a' T Hh Sz B ND V. unfold walk_from, fuel.
      pose proof (clear_repeat (Z.to_nat max_stack_size) 0) as C. assert (Ls : length (repeat (-1) (Z.to_nat max_stack_size)) = 100%nat) by (rewrite repeat_length; reflexivity). set (stack := repeat (-1) (Z.to_nat max_stack_size)) in *.
      pose proof (B _ (ctop_in O _)) as B0. pose proof (cost_size O t) as Ct. destruct t as [j cs|j d v cs l r]; pose proof T as [n [H1 [H2 H3]]]; cbn [Coarse_Spec.ctop Coarse_Spec.height] in *; assert (G : get s j = Ok n) by exact H1.
      - unfold Coarse_Walk.csize in Sz. cbn [Coarse_Spec.cids length] in Sz. cbn [walk]. rewrite (proj2 (Z.ltb_lt 0 nc)), (proj2 (Z.leb_le 0 j)), G by lia. cbn [andb bind]. rewrite H3, wr_ok by lia. cbn [bind].
        cbn [rleaves vfold] in V. inv_bind V. destruct v as [s1 a1]. injection V as <- <-. rewrite E. cbn [bind]. rewrite Z.eqb_refl. reflexivity.
      - rewrite csize_fork in Sz. pose proof (csize_pos O l) as Sl. pose proof (csize_pos O r) as Sr. pose proof (height_pos O l) as Pl. pose proof (height_pos O r) as Pr. destruct H3 as [A1 [A2 [A3 [A4 A5]]]].
        cbn [rleaves] in V. rewrite vfold_app in V. inv_bind V. destruct v0 as [s1 a1]. rename E into V1, V into V2.
        pose proof (vfold_linked O A visit keeps _ _ _ _ _ V1) as K1. pose proof (vfold_linked O A visit keeps _ _ _ _ _ V2) as K2.
        destruct (K1 j n H1) as [n1 [N1 [N2 [N3 [N4 N5]]]]]. assert (G1 : get s1 j = Ok n1) by exact N1. assert (F1 : is_leaf O n1 = false) by (unfold is_leaf in *; now rewrite N2).
        destruct (K2 j n1 N1) as [n2 [M1 [M2 [M3 [M4 M5]]]]]. assert (G2 : get s' j = Ok n2) by exact M1. assert (F2 : is_leaf O n2 = false) by (unfold is_leaf in *; now rewrite M2).
        assert (Bl : forall k, In k (cids l) -> 0 <= k) by (intros q Hq; apply B; right; apply in_or_app; now left).
        assert (Br : forall k, In k (cids r) -> 0 <= k) by (intros q Hq; apply B; right; apply in_or_app; now right).
        cbn [Coarse_Spec.cids] in ND. apply NoDup_cons_iff in ND. destruct ND as [Nj ND].
        assert (Nl : forall b, Some j = Some b -> ~ In b (cids l)) by (intros b Hb X; injection Hb as <-; apply Nj, in_or_app; now left).
        assert (Nr : forall b, Some j = Some b -> ~ In b (cids r)) by (intros b Hb X; injection Hb as <-; apply Nj, in_or_app; now right).
        assert (E : rd stack 0 = Ok (-1)). { destruct (rd_in_bounds _ stack 0) as [w Hw]; [lia|]. rewrite Hw. f_equal. apply (C 0 w); [lia|exact Hw]. }
        assert (K : exists k, Coarse_Model.fuel O c = (Datatypes.S (cost r + Datatypes.S (cost l + Datatypes.S k)))%nat).
        { exists (Coarse_Model.fuel O c - cost (CFork j d v cs l r) - 0)%nat. cbn [Coarse_Walk.cost] in *. unfold Coarse_Model.fuel. rewrite csize_fork in Ct. lia. }
        destruct K as [k K]. change (walk O c visit (Some j) (Coarse_Model.fuel O c) s j 0 0 stack a = Ok (-1, (s', a'))). rewrite K.
        cbn [walk]. rewrite (proj2 (Z.ltb_lt 0 nc)), (proj2 (Z.leb_le 0 j)), G by lia. cbn [andb bind]. rewrite A1, E. cbn [bind Z.eqb].
        rewrite wr_ok by lia. cbn [bind]. unfold max_stack_size at 1. rewrite (proj2 (Z.leb_gt 100 (0 + 1))) by lia. rewrite A3.
        rewrite (walk_exact r (Some j) s j (0 + 1) 0 _ a s1 a1); [|exact A5|lia|lia|now rewrite upd_length|apply clear_upd; [lia|now apply clear_next]|lia|lia|exact Br|exact Nr|exact V1]. replace (0 + 1 - 1) with 0 by lia.
        cbn [walk]. rewrite (proj2 (Z.ltb_lt (0 + csize r) nc)), (proj2 (Z.leb_le 0 j)), G1 by lia. cbn [andb bind]. rewrite F1, rd_stack by lia. cbn [bind].
        change (0 =? -1) with false. change (0 =? 0) with true. cbn match. rewrite wr_ok by (rewrite upd_length; lia). cbn [bind]. unfold max_stack_size at 1. rewrite (proj2 (Z.leb_gt 100 (0 + 1))) by lia. rewrite N4, A2.
        rewrite (walk_exact l (Some j) s1 j (0 + 1) _ _ a1 s' a'); [|now apply shape_linked with (fr s)|lia|lia|now rewrite !upd_length| |lia|lia|exact Bl|exact Nl|exact V2].
        2:{ apply clear_upd; [rewrite upd_length; lia|]. apply clear_upd; [lia|]. now apply clear_next. }
        replace (0 + 1 - 1) with 0 by lia.
        cbn [walk]. rewrite (proj2 (Z.ltb_lt (0 + csize r + csize l) nc)), (proj2 (Z.leb_le 0 j)), G2 by lia. cbn [andb bind]. rewrite F2, rd_stack by (rewrite upd_length; lia). cbn [bind].
        change (1 =? -1) with false. change (1 =? 0) with false. change (1 =? 1) with true. cbn match. rewrite wr_ok by (rewrite !upd_length; lia). cbn [bind]. rewrite Z.eqb_refl. reflexivity.
    Qed.
End Walk.

(** ** Exact arithmetic *)
Section Exact.
  Variable rnd : nat -> R.
  Variable c : config rops.
  Local Notation coarse := (coarse rops).
  Local Notation fr := (fr rops).
  Local Notation get := (get rops).
  Local Notation fc := (c_features rops c).
  Local Notation lc := (c_labels rops c).
  Local Notation nc := (c_nodes rops c).
  Local Notation ctree := (ctree rops).
  Local Notation ctop := (ctop rops).
  Local Notation cids := (cids rops).
  Local Notation cleaves := (cleaves rops).
  Local Notation stored := (stored rops fc lc).
  Local Notation height := (height rops).
  Hypothesis Hf : 0 <= fc.
  Hypothesis Hl : 0 <= lc.

  Lemma rsums_app : forall f a b, rsums f (a ++ b) = (rsums f a + rsums f b)%R.
  Proof. intros f a b. induction a as [|e a IH]; cbn [app]; [unfold rsums; cbn [fold_right]; ring|]. change (rsums f (e :: a ++ b)) with (f e + rsums f (a ++ b))%R. change (rsums f (e :: a)) with (f e + rsums f a)%R. rewrite IH. ring. Qed.
  Lemma stored_leaf : forall t f p, stored f p t -> forall j cs, In (j, cs) (cleaves t) -> exists n, rd (nodes rops f) j = Ok n /\ counters rops n = cs /\ length cs = Z.to_nat lc.
  Proof.
    induction t as [i cs0|i d v cs0 l IHl r IHr]; intros f p [n [H1 [H2 [H3 [H4 [H5 H6]]]]]] j cs I; cbn [Coarse_Spec.cleaves] in I.
    - destruct I as [I|[]]. injection I as <- <-. cbn in H1, H3. exists n. split; [exact H1|]. split; [exact H3|congruence].
    - destruct H6 as [_ [_ [_ [_ [_ [X Y]]]]]]. apply in_app_or in I. destruct I; eauto.
  Qed.
  Fixpoint rev_leaves (t : ctree) : list (Z * list Z) := match t with CLeaf i cs => [(i, cs)] | CFork _ _ _ _ l r => rev_leaves r ++ rev_leaves l end.
  Lemma rev_leaves_ids : forall t, map fst (rev_leaves t) = rleaves rops t.
  Proof. induction t as [i cs|i d v cs l IHl r IHr]; cbn; [reflexivity|]. now rewrite map_app, IHl, IHr. Qed.
  Lemma rev_leaves_perm : forall t, Permutation (rev_leaves t) (cleaves t).
  Proof. induction t as [i cs|i d v cs l IHl r IHr]; cbn; [reflexivity|]. rewrite IHl, IHr. apply Permutation_app_comm. Qed.
  Lemma rsums_perm : forall f a b, Permutation a b -> rsums f a = rsums f b.
  Proof. intros f a b P. induction P as [|e a b P IH|e d a|a b d P1 IH1 P2 IH2]; cbn; unfold rsums in *; lra. Qed.

  Lemma float_sum : forall cs, length cs = Z.to_nat lc -> forZ (Z.to_nat lc) 0 (fun i k => do x <- rd cs i; Ok (k + IZR x)%R) 0%R = Ok (IZR (zsum cs)).
  Proof.
    intros cs Lc. assert (X : forall n, (n <= length cs)%nat -> forZ n 0 (fun i k => do x <- rd cs i; Ok (k + IZR x)%R) 0%R = Ok (IZR (zsum (firstn n cs)))).
    { induction n as [|n IH]; intros Hn; [reflexivity|]. replace (S n) with (n + 1)%nat by lia. rewrite forZ_app. rewrite IH by lia. cbn [bind forZ Z.add]. destruct (rd_in_bounds _ cs (Z.of_nat n)) as [w Hw]; [lia|]. rewrite Hw. cbn [bind].
      do 2 f_equal. apply rd_ok_iff in Hw. destruct Hw as [_ Hw]. rewrite Nat2Z.id in Hw. apply nth_error_split in Hw. destruct Hw as [a [b [-> Ln]]]. rewrite !firstn_app. replace (n - length a)%nat with 0%nat by lia. replace (n + 1 - length a)%nat with 1%nat by lia.
      rewrite (firstn_all2 (n := n + 1)), (firstn_all2 (n := n)) by lia. cbn [firstn]. rewrite app_nil_r, zsum_cat, plus_IZR. f_equal. f_equal. unfold zsum. cbn [fold_right]. lia. }
    rewrite X by lia. now rewrite firstn_all2 by lia.
  Qed.
  Lemma center_visit_ok : forall s j cs lo hi (f g : Z -> R) n, get s j = Ok n -> counters rops n = cs -> length cs = Z.to_nat lc ->
    (forall d, 0 <= d < fc -> rdi (bound_lower rops n) d = Ok (lo d) /\ rdi (bound_upper rops n) d = Ok (hi d)) ->
    center_visit rops c s j (map f (zrange fc), map g (zrange fc)) =
      Ok (s, (map (fun d => f d + (hi d + lo d) * (1 / 2) * IZR (zsum cs)) (zrange fc), map (fun d => g d + IZR (zsum cs)) (zrange fc)))%R.
  Proof.
    intros s j cs lo hi f g n G Hc Lc Hb. unfold center_visit. rewrite G. cbn [bind]. rewrite Hc.
    change (nofZ rops 0) with 0%R. change (nofZ rops 1) with 1%R. change (nofZ rops 2) with 2%R. cbn [nadd nmul ndiv nofZ rops num].
    rewrite (float_sum cs Lc). cbn [bind].
    match goal with |- context [forZ _ 0 ?b _] => destruct (fill2 R fc b (fun d => f d + (hi d + lo d) * (1 / 2) * IZR (zsum cs))%R (fun d => g d + IZR (zsum cs))%R (map f (zrange fc)) (map g (zrange fc))) as [l' [u' [E [E1 [E2 E3]]]]] end.
    - now rewrite map_length, zrange_length.
    - now rewrite map_length, zrange_length.
    - intros i l' u' Hi L1 L2 R1 R2. destruct (Hb i Hi) as [B1 B2]. cbv beta iota. cbn [num rops] in B1, B2. rewrite B2. cbn [bind]. rewrite B1. cbn [bind]. rewrite R1, rd_zrange by exact Hi. cbn [bind]. rewrite wr_ok by lia. cbn [bind]. rewrite R2, rd_zrange by exact Hi. cbn [bind]. rewrite wr_ok by lia. reflexivity.
    - exact Hf.
    - rewrite E. cbn [bind]. do 3 f_equal; apply nth_error_ext; intros i; (destruct (Nat.lt_ge_cases i (Z.to_nat fc)) as [C|C]; [|rewrite !(proj2 (nth_error_None _ _)); [reflexivity|rewrite map_length, zrange_length; lia|lia]]);
        specialize (E3 (Z.of_nat i) ltac:(lia)); destruct E3 as [E3 E4].
      + pose proof (rd_zrange R (fun d => f d + (hi d + lo d) * (1 / 2) * IZR (zsum cs))%R fc (Z.of_nat i) ltac:(lia)) as Q. apply rd_ok_iff in E3, Q. rewrite Nat2Z.id in *. destruct E3 as [_ ->]. now destruct Q as [_ ->].
      + pose proof (rd_zrange R (fun d => g d + IZR (zsum cs))%R fc (Z.of_nat i) ltac:(lia)) as Q. apply rd_ok_iff in E4, Q. rewrite Nat2Z.id in *. destruct E4 as [_ ->]. now destruct Q as [_ ->].
  Qed.
  Lemma linked_refl : forall f, linked rops f f.
  Proof. intros f j n H. exists n. auto. Qed.
  Lemma center_visit_linked : forall s i a s' a', center_visit rops c s i a = Ok (s', a') -> linked rops (fr s) (fr s').
  Proof. intros s i [x y] s' a' H. unfold center_visit in H. inv_bind H. inv_bind H. inv_bind H. injection H as <- _. apply linked_refl. Qed.

  Lemma zsum_weights : forall es, rsums (fun e => IZR (zsum (snd e))) es = IZR (zsum (map (fun e => zsum (snd e)) es)).
  Proof. induction es as [|e es IH]; cbn; [reflexivity|]. unfold rsums in IH. rewrite IH, <- plus_IZR. reflexivity. Qed.

  (** The barycenter is the mean of the middles of the boxes of the leaves, weighted with their points. *)
  Lemma find_barycenter_ok : forall s p t lo hi, stored (fr s) p t -> NoDup (cids t) -> (forall j, In j (cids t) -> 0 <= j < nc) -> height t <= 100 ->
    (forall j cs d, In (j, cs) (cleaves t) -> 0 <= d < fc -> side_of rops s j d (lo j d) (hi j d)) ->
    find_barycenter rops c s (ctop t) =
      Ok (map (fun d => rsums (fun e => (lo (fst e) d + hi (fst e) d) / 2 * IZR (zsum (snd e))) (cleaves t) / IZR (points_in rops t))%R (zrange fc)).
  Proof.
    intros s p t lo hi T ND B Hh Hb.
    assert (Sz : csize rops t <= nc).
    { unfold csize. assert (I' : incl (cids t) (zrange nc)) by (intros q Hq; apply zrange_in; auto). pose proof (NoDup_incl_length ND I') as X. rewrite zrange_length in X. pose proof (csize_pos rops t) as Y. unfold csize in Y. lia. }
    unfold find_barycenter. set (w := fun d e => ((hi (fst e) d + lo (fst e) d) * (1 / 2) * IZR (zsum (snd e)))%R). set (m := fun e : Z * list Z => IZR (zsum (snd e))).
    assert (Z0 : repeat (nofZ rops 0) (Z.to_nat fc) = map (fun _ => 0%R) (zrange fc)) by (now rewrite map_same, zrange_length).
    assert (V : forall es (f g : Z -> R), (forall e, In e es -> In e (cleaves t)) ->
      vfold rops (list R * list R) (center_visit rops c) (map fst es) s (map f (zrange fc), map g (zrange fc)) =
      Ok (s, (map (fun d => f d + rsums (w d) es) (zrange fc), map (fun d => g d + rsums m es) (zrange fc)))%R).
    { induction es as [|[j cs] es IH]; intros f g Hin; cbn [map vfold fst].
      - do 3 f_equal; apply map_ext; intros d; cbn; lra.
      - destruct (stored_leaf t (fr s) p T j cs (Hin _ (or_introl eq_refl))) as [n [N1 [N2 N3]]].
        rewrite (center_visit_ok s j cs (lo j) (hi j) f g n N1 N2 N3).
        + cbn [bind]. rewrite IH by (intros e He; apply Hin; now right). do 3 f_equal; apply map_ext; intros d; unfold rsums, w, m; cbn [fold_right fst snd]; ring.
        + intros d Hd. destruct (Hb j cs d (Hin _ (or_introl eq_refl)) Hd) as [n' [M1 [M2 M3]]]. rewrite N1 in M1. injection M1 as <-. unfold rdi. now rewrite M2, M3. }
    rewrite !Z0. rewrite (walk_begin rops c (list R * list R) (center_visit rops c) center_visit_linked t s p _ s
      (map (fun d => 0 + rsums (w d) (rev_leaves t)) (zrange fc), map (fun d => 0 + rsums m (rev_leaves t)) (zrange fc))%R).
    - cbn [bind]. change (-1 =? -1) with true. cbv iota. apply (fill1 (num rops) fc); [now rewrite map_length, zrange_length| |exact Hf].
      intros i l' Hi Ll Rl. rewrite Rl, !rd_zrange by exact Hi. cbn [bind]. rewrite wr_ok by lia. eexists. split; [reflexivity|]. split; [now rewrite upd_length|]. split; [|intros j Hj; destruct (Z_le_gt_dec 0 j)].
      + rewrite rd_upd by lia. rewrite Z.eqb_refl. f_equal. cbn [ndiv rops]. rewrite !(rsums_perm _ _ _ (rev_leaves_perm t)). unfold m. rewrite zsum_weights. unfold points_in. f_equal; [|lra]. rewrite Rplus_0_l. unfold rsums, w. clear. induction (cleaves t) as [|e es IH]; cbn [fold_right]; [reflexivity|]. rewrite IH. field.
      + rewrite rd_upd by lia. destruct (Z.eqb_spec i j); [lia|reflexivity].
      + rewrite !rd_oob by lia. reflexivity.
    - now apply stored_shape in T.
    - exact Hh.
    - exact Sz.
    - intros j Hj. apply B in Hj. lia.
    - exact ND.
    - rewrite <- rev_leaves_ids. apply V. intros e He. eapply Permutation_in; [apply rev_leaves_perm|exact He].
  Qed.

  (** ** The two sides of a split *)
  Lemma zsum_firstn : forall cs n, Forall (fun k => 0 <= k) cs -> 0 <= zsum (firstn n cs) <= zsum cs.
  Proof.
    intros cs n F. revert n. induction F as [|k cs Hk F IH]; intros n; destruct n as [|n]; unfold zsum in *; cbn [firstn fold_right] in *; try lia; [specialize (IH 0%nat); cbn [firstn fold_right] in IH|specialize (IH n)]; lia.
  Qed.
  Lemma sum_counters_ok : forall n cs, counters rops n = cs -> length cs = Z.to_nat lc -> Forall (fun k => 0 <= k) cs -> zsum cs <= 2147483647 -> sum_counters rops c n = Ok (zsum cs).
  Proof.
    intros n cs Hc Lc F Hs. unfold sum_counters. rewrite Hc. assert (X : forall m, (m <= length cs)%nat -> forZ m 0 (fun i count => do k <- rd cs i; sint (count + k)) 0 = Ok (zsum (firstn m cs))).
    { induction m as [|m IH]; intros Hm; [reflexivity|]. replace (S m) with (m + 1)%nat by lia. rewrite forZ_app. rewrite IH by lia. cbn [bind forZ Z.add]. destruct (rd_in_bounds _ cs (Z.of_nat m)) as [w Hw]; [lia|]. rewrite Hw. cbn [bind].
      assert (E : zsum (firstn (m + 1) cs) = zsum (firstn m cs) + w).
      { apply rd_ok_iff in Hw. destruct Hw as [_ Hw]. rewrite Nat2Z.id in Hw. apply nth_error_split in Hw. destruct Hw as [a [b [-> Ln]]]. rewrite !firstn_app. replace (m - length a)%nat with 0%nat by lia. replace (m + 1 - length a)%nat with 1%nat by lia.
        rewrite (firstn_all2 (n := m + 1)), (firstn_all2 (n := m)) by lia. cbn [firstn]. rewrite app_nil_r, zsum_cat. f_equal. unfold zsum. cbn [fold_right]. lia. }
      rewrite <- E. pose proof (zsum_firstn cs (m + 1) F) as B. rewrite sint_ok by lia. reflexivity. }
    rewrite X by lia. now rewrite firstn_all2 by lia.
  Qed.
  Lemma side_visit_ok : forall d v s j cs lo hi cl cr n, 0 <= d < fc -> get s j = Ok n -> counters rops n = cs -> length cs = Z.to_nat lc -> Forall (fun k => 0 <= k) cs -> cl + zsum cs <= 2147483647 -> cr + zsum cs <= 2147483647 -> 0 <= cl -> 0 <= cr ->
    side_of rops s j d lo hi -> exists s' ab, side_visit rops rnd c d v s j (cl, cr) = Ok (s', (cl + fst ab, cr + snd ab)) /\ nodes rops (fr s') = nodes rops (fr s) /\ divided lo hi v (zsum cs) ab.
  Proof.
    intros d v s j cs lo hi cl cr n Hd G Hc Lc F Bl Br Pl Pr [n' [N1 [N2 N3]]]. assert (n' = n) by (unfold Coarse_Model.get in G; congruence). subst n'. pose proof (zsum_firstn cs 0 F) as Pk. cbn in Pk. fold (zsum cs) in Pk.
    unfold side_visit. rewrite G. cbn [bind]. rewrite (sum_counters_ok n cs Hc Lc F) by lia. cbn [bind]. unfold rdi. rewrite N2, N3. cbn [bind]. set (k := zsum cs) in *.
    change (nlt rops) with Rlt_bool. change (nle rops) with Rle_bool. destruct (Rlt_bool_spec lo v) as [C1|C1]; [destruct (Rlt_bool_spec v hi) as [C2|C2]|]; cbn [andb].
    - change (ndiv rops) with Rdiv. change (nsub rops) with Rminus. change (nmul rops) with Rmult. change (nofZ rops) with IZR. set (p := ((v - lo) / (hi - lo))%R).
      assert (Hp : (0 < p < 1)%R). { unfold p. split; [apply Rdiv_lt_0_compat; lra|]. apply Rmult_lt_reg_r with (hi - lo)%R; [lra|]. unfold Rdiv. rewrite Rmult_assoc, Rinv_l by lra. lra. }
      assert (Hk : (0 <= IZR k)%R) by (apply IZR_le; lia).
      assert (Q1 : (0 <= IZR k * p)%R) by (apply Rmult_le_pos; lra). assert (Q2 : (0 <= IZR k * (1 - p))%R) by (apply Rmult_le_pos; lra). assert (Q3 : (IZR k * p + IZR k * (1 - p) = IZR k)%R) by ring.
      change (n2int rops) with (fun x => in_int (Ztrunc x)). cbv beta. rewrite !Ztrunc_floor by assumption.
      pose proof (Zfloor_lb (IZR k * p)) as L1. pose proof (Zfloor_ub (IZR k * p)) as U1. pose proof (Zfloor_lb (IZR k * (1 - p))) as L2. pose proof (Zfloor_ub (IZR k * (1 - p))) as U2.
      set (a := Zfloor (IZR k * p)) in *. set (b := Zfloor (IZR k * (1 - p))) in *.
      assert (A0 : 0 <= a) by (apply (Zfloor_lub 0); exact Q1). assert (B0 : 0 <= b) by (apply (Zfloor_lub 0); exact Q2).
      assert (AB : a + b <= k) by (apply le_IZR; rewrite plus_IZR; lra). assert (AB' : k < a + b + 2) by (apply lt_IZR; rewrite !plus_IZR; lra).
      unfold in_int. rewrite !(proj2 (Z.leb_le _ _)) by lia. cbn [andb bind].
      assert (K : k - a - b = 0 \/ (k - a - b = 1 /\ (IZR a < IZR k * p)%R)).
      { destruct (Z.eq_dec (k - a - b) 0) as [E|E]; [now left|right]. split; [lia|]. destruct (Rle_lt_or_eq_dec _ _ L1) as [X|X]; [exact X|]. exfalso. assert (Y : (IZR b + 1 <= IZR k * (1 - p))%R); [|lra].
        assert (Z' : (IZR k = IZR a + IZR b + 1)%R) by (rewrite <- !plus_IZR; f_equal; lia). lra. }
      destruct K as [K|[K Kp]]; rewrite K.
      + cbn [Z.eqb negb andb]. rewrite !sint_ok by lia. cbn [bind]. exists s, (a, b). split; [reflexivity|]. split; [reflexivity|]. unfold divided; cbn [fst snd]; fold p; (split; [lia|]); (split; [lia|]); (split; [lia|]); split; [intros _; apply Rabs_def1; lra|split; [intros X; exfalso; lra|intros X Y; exfalso; lra]].
      + change (1 =? 0) with false. cbn [negb andb]. destruct (Coarse_Model.uniform rops rnd s) as [u q] eqn:U. assert (Uq : nodes rops (fr q) = nodes rops (fr s)) by (unfold Coarse_Model.uniform, Mondrian_Model.uniform in U; injection U as <- <-; reflexivity).
        match goal with |- context [Rlt_bool u ?h] => destruct (Rlt_bool u h) end; cbn [negb]; rewrite !sint_ok by lia; cbn [bind].
        * exists q, (a + 1, b). split; [reflexivity|]. split; [exact Uq|]. unfold divided; cbn [fst snd]; fold p; (split; [lia|]); (split; [lia|]); (split; [lia|]); split; [intros _; rewrite plus_IZR; apply Rabs_def1; lra|split; [intros X; exfalso; lra|intros X Y; exfalso; lra]].
        * exists q, (a, b + 1). split; [reflexivity|]. split; [exact Uq|]. unfold divided; cbn [fst snd]; fold p; (split; [lia|]); (split; [lia|]); (split; [lia|]); split; [intros _; apply Rabs_def1; lra|split; [intros X; exfalso; lra|intros X Y; exfalso; lra]].
    - rewrite (Rle_bool_false v lo) by lra. rewrite (Rle_bool_true hi v) by lra. rewrite sint_ok by lia. cbn [bind]. exists s, (0, k). cbn [fst snd]. rewrite Z.add_0_r. split; [reflexivity|]. split; [reflexivity|]. unfold divided; cbn [fst snd]; (split; [lia|]); (split; [lia|]); (split; [lia|]); split; [intros X; exfalso; lra|split; [intros X; exfalso; lra|reflexivity]].
    - rewrite (Rle_bool_true v lo) by lra. rewrite sint_ok by lia. cbn [bind]. exists s, (k, 0). cbn [fst snd]. rewrite Z.add_0_r. split; [reflexivity|]. split; [reflexivity|]. unfold divided; cbn [fst snd]; (split; [lia|]); (split; [lia|]); (split; [lia|]); split; [intros X; exfalso; lra|split; [reflexivity|intros X Y; exfalso; lra]].
  Qed.
  Lemma side_visit_linked : forall d v s i a s' a', side_visit rops rnd c d v s i a = Ok (s', a') -> linked rops (fr s) (fr s').
  Proof. intros d v s i a s' a' H. apply side_visit_drawn in H. destruct H as [H _]. intros j n Hn. exists n. rewrite H. auto. Qed.

  Lemma count_sides_ok : forall s p t d v lo hi, stored (fr s) p t -> NoDup (cids t) -> (forall j, In j (cids t) -> 0 <= j < nc) -> height t <= 100 -> 0 <= d < fc ->
    (forall j cs, In (j, cs) (cleaves t) -> side_of rops s j d (lo j) (hi j) /\ Forall (fun k => 0 <= k) cs) -> points_in rops t <= 2147483647 ->
    exists s' shares, Forall2 (fun e ab => divided (lo (fst e)) (hi (fst e)) v (zsum (snd e)) ab) (rev_leaves t) shares /\ nodes rops (fr s') = nodes rops (fr s) /\
      count_sides rops rnd c s (ctop t) d v = Ok (s', (zsum (map fst shares), zsum (map snd shares))).
  Proof.
    intros s p t d v lo hi T ND B Hh Hd Hb Hp.
    assert (Sz : csize rops t <= nc).
    { unfold csize. assert (I' : incl (cids t) (zrange nc)) by (intros q Hq; apply zrange_in; auto). pose proof (NoDup_incl_length ND I') as X. rewrite zrange_length in X. pose proof (csize_pos rops t) as Y. unfold csize in Y. lia. }
    assert (V : forall es q cl cr, nodes rops (fr q) = nodes rops (fr s) -> (forall e, In e es -> In e (cleaves t)) -> 0 <= cl -> 0 <= cr -> cl + cr + zsum (map (fun e => zsum (snd e)) es) <= 2147483647 ->
      exists s' shares, Forall2 (fun e ab => divided (lo (fst e)) (hi (fst e)) v (zsum (snd e)) ab) es shares /\ nodes rops (fr s') = nodes rops (fr s) /\
      vfold rops (Z * Z) (side_visit rops rnd c d v) (map fst es) q (cl, cr) = Ok (s', (cl + zsum (map fst shares), cr + zsum (map snd shares)))).
    { induction es as [|[j cs] es IH]; intros q cl cr Hq Hin Pl Pr Hs; cbn [map vfold fst snd] in *.
      - exists q, []. split; [constructor|]. split; [exact Hq|]. cbn. now rewrite !Z.add_0_r.
      - destruct (stored_leaf t (fr s) p T j cs (Hin _ (or_introl eq_refl))) as [n [N1 [N2 N3]]]. rewrite <- Hq in N1. destruct (Hb j cs (Hin _ (or_introl eq_refl))) as [Sd F].
        assert (Sq : side_of rops q j d (lo j) (hi j)) by (unfold side_of in *; now rewrite Hq). change (zsum (zsum cs :: map (fun e : Z * list Z => zsum (snd e)) es)) with (zsum cs + zsum (map (fun e : Z * list Z => zsum (snd e)) es)) in Hs.
        assert (Pes : 0 <= zsum (map (fun e : Z * list Z => zsum (snd e)) es)).
        { assert (Y : forall es', (forall e, In e es' -> In e (cleaves t)) -> 0 <= zsum (map (fun e : Z * list Z => zsum (snd e)) es')); [|apply Y; intros e He; apply Hin; now right].
          induction es' as [|[j' cs'] es' IH']; intros Hin'; cbn [map]; [cbn; lia|]. destruct (Hb j' cs' (Hin' _ (or_introl eq_refl))) as [_ F']. pose proof (zsum_firstn cs' 0 F') as X. cbn in X. fold (zsum cs') in X. specialize (IH' (fun e He => Hin' e (or_intror He))). unfold zsum in *. cbn [fold_right snd]. lia. }
        pose proof (zsum_firstn cs 0 F) as Pk. cbn in Pk. fold (zsum cs) in Pk.
        destruct (side_visit_ok d v q j cs (lo j) (hi j) cl cr n Hd N1 N2 N3 F ltac:(lia) ltac:(lia) Pl Pr Sq) as [q1 [[a b] [E [Fq D]]]]. rewrite E. cbn [bind fst snd]. pose proof D as [D1 [D2 [D3 _]]]. cbn [fst snd] in D1, D2, D3.
        destruct (IH q1 (cl + a) (cr + b)) as [s' [shares [X1 [X2 X3]]]]; try lia; [congruence|intros e He; apply Hin; now right|].
        exists s', ((a, b) :: shares). split; [constructor; [exact D|exact X1]|]. split; [exact X2|]. rewrite X3. unfold zsum. cbn [map fold_right fst snd]. do 3 f_equal; lia. }
    destruct (V (rev_leaves t) s 0 0 eq_refl) as [s' [shares [X1 [X2 X3]]]]; try lia.
    - intros e He. eapply Permutation_in; [apply rev_leaves_perm|exact He].
    - unfold points_in in Hp. rewrite (zsum_perm (map (fun e => zsum (snd e)) (rev_leaves t)) (map (fun e => zsum (snd e)) (cleaves t))); [lia|]. apply Permutation_map, rev_leaves_perm.
    - exists s', shares. split; [exact X1|]. split; [exact X2|]. unfold count_sides. rewrite rev_leaves_ids in X3.
      rewrite (walk_begin rops c (Z * Z) (side_visit rops rnd c d v) (side_visit_linked d v) t s p _ _ _ (stored_shape _ _ _ _ _ T) Hh Sz (fun j Hj => proj1 (B j Hj)) ND X3). reflexivity.
  Qed.
End Exact.
