(** * Proofs for the unbounded Mondrian forest: counters *)
From Coq Require Import ZArith List Bool Lia Reals Lra Permutation.
From Verif Require Import CppBase CppFacts NumOps Mondrian_Model Mondrian_Spec Mondrian_Proofs Mondrian_Train Mondrian_Forest Mondrian_Predict.
From Verif Require Import Unbound_Model Unbound_Spec.
Import ListNotations.
Local Open Scope Z_scope.

Section Count.
  Variable O : ops.
  Variable fc lc : Z.
  Variable lifetime : num O.
  Hypothesis Hlc : 0 <= lc.
  Local Notation forest := (forest O).
  Local Notation node := (node O).
  Local Notation mtree := (mtree O).
  Local Notation tree_at := (tree_at O fc lc lifetime).
  Local Notation counted := (counted O lc).
  Local Notation present := (present O).
  Local Notation points := (points O).
  Local Notation ids := (ids O).
  Local Notation fork_ids := (fork_ids O).
  Local Notation top := (top O).
  Local Notation count := (count O).
  Local Notation nodes := (nodes O).
  Local Notation roots := (roots O).
  Local Notation put := (put O).
  Local Notation same_but := (same_but O).

  (** ** Places in a tree *)
  Inductive frame : Type :=
  | InLeft (i d : Z) (v : num O) (r : mtree)
  | InRight (i d : Z) (v : num O) (l : mtree).
  Definition frame_id (fr : frame) : Z := match fr with InLeft i _ _ _ => i | InRight i _ _ _ => i end.
  Definition beside (fr : frame) : mtree := match fr with InLeft _ _ _ r => r | InRight _ _ _ l => l end.
  Definition fill (fr : frame) (s : mtree) : mtree := match fr with InLeft i d v r => Fork i d v s r | InRight i d v l => Fork i d v l s end.
  (** The innermost frame comes first. *)
  Fixpoint plug (c : list frame) (s : mtree) : mtree := match c with [] => s | fr :: c => plug c (fill fr s) end.
  Lemma plug_snoc : forall c fr s, plug (c ++ [fr]) s = fill fr (plug c s).
  Proof. induction c as [|f c IH]; intros fr s; [reflexivity|]. cbn. apply IH. Qed.
  Definition path (c : list frame) : list Z := map frame_id c.

  Lemma fill_ids : forall fr s j, In j (ids (fill fr s)) <-> j = frame_id fr \/ In j (ids s) \/ In j (ids (beside fr)).
  Proof. intros [i d v r|i d v l] s j; cbn; rewrite in_app_iff; intuition. Qed.
  Lemma fill_nodup : forall fr s, NoDup (ids (fill fr s)) -> NoDup (ids s) /\ NoDup (ids (beside fr)) /\ ~ In (frame_id fr) (ids s) /\ ~ In (frame_id fr) (ids (beside fr)) /\
    forall j, In j (ids s) -> In j (ids (beside fr)) -> False.
  Proof.
    intros [i d v r|i d v l] s H; cbn in *; apply NoDup_cons_iff in H; destruct H as [H1 H2]; destruct (nodup_app _ _ _ H2) as [A [B C]]; rewrite in_app_iff in H1;
      repeat split; auto. intros j X Y. now apply (C j).
  Qed.
  Lemma plug_in : forall c s j, In j (ids s) -> In j (ids (plug c s)).
  Proof. induction c as [|fr c IH]; intros s j H; [exact H|]. apply IH, fill_ids. tauto. Qed.
  Lemma plug_nodup : forall c s, NoDup (ids (plug c s)) -> NoDup (ids s).
  Proof. induction c as [|fr c IH]; intros s H; [exact H|]. apply IH in H. now apply fill_nodup in H. Qed.
  Lemma fill_forks : forall fr s, In (frame_id fr) (fork_ids (fill fr s)).
  Proof. intros [i d v r|i d v l] s; now left. Qed.
  Lemma fill_forks_in : forall fr s j, In j (fork_ids s) -> In j (fork_ids (fill fr s)).
  Proof. intros [i d v r|i d v l] s j H; right; apply in_or_app; auto. Qed.
  Lemma plug_forks_in : forall c s j, In j (fork_ids s) -> In j (fork_ids (plug c s)).
  Proof. induction c as [|fr c IH]; intros s j H; [exact H|]. apply IH. now apply fill_forks_in. Qed.
  Lemma path_forks : forall c s, incl (path c) (fork_ids (plug c s)).
  Proof.
    induction c as [|fr c IH]; intros s j H; [destruct H|]. destruct H as [<-|H]; cbn [plug].
    - apply plug_forks_in, fill_forks.
    - now apply IH.
  Qed.
  Lemma path_length : forall c s, (length c < length (ids (plug c s)))%nat.
  Proof.
    induction c as [|fr c IH]; intros s.
    - cbn. destruct s; cbn; lia.
    - cbn [plug length]. assert (G : forall c a b, (length (ids a) < length (ids b))%nat -> (length (ids (plug c a)) < length (ids (plug c b)))%nat).
      { clear. induction c as [|fr c IH]; intros a b H; [exact H|]. cbn [plug]. apply IH. destruct fr; cbn; rewrite !app_length; lia. }
      specialize (IH s). specialize (G c s (fill fr s)). assert (length (ids s) < length (ids (fill fr s)))%nat by (destruct fr; cbn; rewrite app_length; lia). specialize (G H). lia.
  Qed.
  Lemma sub_at : forall c f p t0 s, tree_at f p t0 (plug c s) -> exists q t1, tree_at f q t1 s /\ q = match c with [] => p | fr :: _ => frame_id fr end.
  Proof.
    induction c as [|fr c IH]; intros f p t0 s T; [eauto|]. cbn [plug] in T. apply IH in T. destruct T as [q [t1 [T _]]].
    destruct fr as [i d v r|i d v l]; cbn [fill] in T; destruct T as [n T]; exists i, (tau O n); split; try reflexivity; tauto.
  Qed.

  (** ** Recounting a node *)
  Lemma put_same : forall f i n, rd (nodes f) i = Ok n -> put f i (set_counters O n (counters O n)) = f.
  Proof.
    intros [ns rs dr] i n H. unfold Mondrian_Proofs.put. cbn in *. f_equal. apply upd_same_id. apply rd_ok_iff in H. destruct n. apply H.
  Qed.
  Lemma put_put : forall f i a b, put (put f i a) i b = put f i b.
  Proof. intros. unfold Mondrian_Proofs.put. cbn [Mondrian_Model.nodes Mondrian_Model.roots drawn]. now rewrite upd_upd. Qed.
  Definition ready (f : forest) (i : Z) (n nl nr : node) : Prop :=
    rd (nodes f) i = Ok n /\ is_leaf O n = false /\ rd (nodes f) (child_left O n) = Ok nl /\ rd (nodes f) (child_right O n) = Ok nr /\
    i <> child_left O n /\ i <> child_right O n /\
    length (counters O n) = Z.to_nat lc /\ length (counters O nl) = Z.to_nat lc /\ length (counters O nr) = Z.to_nat lc.
  Lemma recount_ok : forall f i n nl nr cs l cl cr, ready f i n nl nr -> length cs = Z.to_nat lc -> 0 <= l < lc ->
    rd (counters O nl) l = Ok cl -> rd (counters O nr) l = Ok cr ->
    recount O (put f i (set_counters O n cs)) i l = Ok (put f i (set_counters O n (upd cs (Z.to_nat l) (Z.min 1 cl + Z.min 1 cr)))).
  Proof.
    intros f i n nl nr cs l cl cr [H1 [H2 [H3 [H4 [H5 [H6 [H7 [H8 H9]]]]]]]] Lc Hl Cl Cr. unfold recount.
    assert (D : forall j, rd (nodes (put f i (set_counters O n cs))) j = if i =? j then Ok (set_counters O n cs) else rd (nodes f) j) by (intros j; now apply rd_put with n).
    rewrite !D, Z.eqb_refl. cbn [bind]. rewrite !D. cbn [set_counters child_left child_right].
    rewrite (proj2 (Z.eqb_neq i (child_left O n))), (proj2 (Z.eqb_neq i (child_right O n))) by assumption.
    rewrite H3. cbn [bind]. rewrite Cl. cbn [bind]. rewrite H4. cbn [bind]. rewrite Cr. cbn [bind].
    erewrite with_node_ok; [|rewrite D, Z.eqb_refl; reflexivity|cbn [set_counters counters]; rewrite wr_ok by lia; reflexivity].
    rewrite put_put. reflexivity.
  Qed.
  (** What a visit does to an internal node: the labels of [ls] are recounted. *)
  Definition visits (visit : forest -> Z -> node -> res forest) (ls : Z -> bool) : Prop :=
    forall f i n nl nr, ready f i n nl nr -> exists cs, visit f i n = Ok (put f i (set_counters O n cs)) /\ length cs = Z.to_nat lc /\
      forall l cl cr, 0 <= l < lc -> rd (counters O nl) l = Ok cl -> rd (counters O nr) l = Ok cr ->
        rd cs l = if ls l then Ok (Z.min 1 cl + Z.min 1 cr) else rd (counters O n) l.
  Lemma visits_label : forall label qty, 0 <= label < lc ->
    visits (fun f i n => if is_leaf O n then add_count O f i label qty else recount O f i label) (fun l => l =? label).
  Proof.
    intros label qty Hl f i n nl nr R. pose proof R as [H1 [H2 [_ [_ [_ [_ [H7 [H8 H9]]]]]]]]. rewrite H2.
    destruct (rd_in_bounds _ (counters O nl) label) as [cl Cl]; [lia|]. destruct (rd_in_bounds _ (counters O nr) label) as [cr Cr]; [lia|].
    replace (recount O f i label) with (recount O (put f i (set_counters O n (counters O n))) i label) by (now rewrite put_same).
    rewrite (recount_ok f i n nl nr _ label cl cr R H7 Hl Cl Cr). eexists. split; [reflexivity|]. rewrite upd_length. split; [exact H7|].
    intros l cl' cr' Hl' Cl' Cr'. rewrite rd_upd by lia. rewrite (Z.eqb_sym l label). destruct (Z.eqb_spec label l) as [->|N]; [congruence|reflexivity].
  Qed.
  Lemma visits_labels : visits (fun f i n => if is_leaf O n then Ok f else forZ (Z.to_nat lc) 0 (fun label f => recount O f i label) f) (fun _ => true).
  Proof.
    intros f i n nl nr R. pose proof R as [H1 [H2 [_ [_ [_ [_ [H7 [H8 H9]]]]]]]]. rewrite H2.
    destruct (forZ_inv _ (fun y f0 => exists cs, f0 = put f i (set_counters O n cs) /\ length cs = Z.to_nat lc /\
        forall l cl cr, 0 <= l < y -> rd (counters O nl) l = Ok cl -> rd (counters O nr) l = Ok cr -> rd cs l = Ok (Z.min 1 cl + Z.min 1 cr))
      (fun label f => recount O f i label) (Z.to_nat lc) 0 f) as [f' [E [cs [-> [L H]]]]].
    - exists (counters O n). split; [now rewrite put_same|]. split; [exact H7|lia].
    - intros y f0 Hy [cs [-> [L H]]]. destruct (rd_in_bounds _ (counters O nl) y) as [cl Cl]; [lia|]. destruct (rd_in_bounds _ (counters O nr) y) as [cr Cr]; [lia|].
      rewrite (recount_ok f i n nl nr cs y cl cr R L) by (auto; lia). eexists. split; [reflexivity|]. eexists. split; [reflexivity|]. rewrite upd_length. split; [exact L|].
      intros l cl' cr' Hl Cl' Cr'. rewrite rd_upd by lia. destruct (Z.eqb_spec y l) as [->|N]; [congruence|]. apply H; auto. lia.
    - exists cs. split; [exact E|]. split; [exact L|]. intros l cl cr Hl. apply H. lia.
  Qed.
  Lemma put_but : forall f i n cs, rd (nodes f) i = Ok n -> length cs = length (counters O n) -> same_but f (put f i (set_counters O n cs)) [i].
  Proof.
    intros f i n cs H L. split; [reflexivity|]. split; [reflexivity|]. split; [apply put_length|]. intros j m Hm. rewrite (rd_put O f i n _ j H).
    destruct (Z.eqb_spec i j) as [<-|N].
    - rewrite H in Hm. injection Hm as <-. exists cs. split; [reflexivity|]. split; [exact L|]. intros X. exfalso. apply X. now left.
    - exists (counters O m). split; [rewrite Hm; now destruct m|]. auto.
  Qed.

  (** ** Climbing without looking at the numbers *)
  Fixpoint chain (f : forest) (p : Z) (l : list Z) : Prop :=
    match l with
    | [] => p = -1
    | i :: l => p = i /\ 0 <= i /\ exists n nl nr, ready f i n nl nr /\ chain f (parent O n) l
    end.
  Definition alike (f g : forest) : Prop :=
    forall j n, rd (nodes f) j = Ok n -> exists m, rd (nodes g) j = Ok m /\ split_dimension O m = split_dimension O n /\ child_left O m = child_left O n /\
      child_right O m = child_right O n /\ parent O m = parent O n /\ length (counters O m) = length (counters O n).
  Lemma same_alike : forall f g u, same_but f g u -> alike f g.
  Proof. intros f g u [_ [_ [_ H]]] j n Hn. destruct (H j n Hn) as [cs [A [B _]]]. exists (set_counters O n cs). auto 10. Qed.
  Lemma ready_alike : forall f g i n nl nr, alike f g -> ready f i n nl nr -> exists m ml mr, ready g i m ml mr /\ parent O m = parent O n.
  Proof.
    intros f g i n nl nr A [H1 [H2 [H3 [H4 [H5 [H6 [H7 [H8 H9]]]]]]]]. destruct (A _ _ H1) as [m [M1 [M2 [M3 [M4 [M5 M6]]]]]].
    destruct (A _ _ H3) as [ml [Ml [_ [_ [_ [_ Ll]]]]]]. destruct (A _ _ H4) as [mr [Mr [_ [_ [_ [_ Lr]]]]]].
    exists m, ml, mr. split; [|exact M5]. unfold ready, is_leaf in *. rewrite M2, M3, M4. repeat split; auto; congruence.
  Qed.
  Lemma chain_alike : forall l f g p, alike f g -> chain f p l -> chain g p l.
  Proof.
    induction l as [|i l IH]; intros f g p A H; [exact H|]. destruct H as [H1 [H2 [n [nl [nr [H3 H4]]]]]]. split; [exact H1|]. split; [exact H2|].
    destruct (ready_alike _ _ _ _ _ _ A H3) as [m [ml [mr [R E]]]]. exists m, ml, mr. split; [exact R|]. rewrite E. now apply IH with f.
  Qed.
  Lemma climb_blind : forall visit ls, visits visit ls -> forall l i steps f, (length l < steps)%nat -> chain f i (i :: l) ->
    exists f', climb O visit steps f i = Ok f' /\ same_but f f' (i :: l).
  Proof.
    intros visit ls V. induction l as [|j l IH]; intros i steps f Hs [_ [Hi [n [nl [nr [R C]]]]]]; (destruct steps as [|steps]; [cbn in Hs; lia|]);
      pose proof R as [H1 [_ [_ [_ [_ [_ [H7 _]]]]]]]; destruct (V f i n nl nr R) as [cs [E [Lc _]]]; cbn [climb]; rewrite H1; cbn [bind]; rewrite E; cbn [bind];
      (assert (S1 : same_but f (put f i (set_counters O n cs)) [i]) by (apply put_but; [exact H1|congruence])).
    - cbn in C. rewrite C. eexists. split; [reflexivity|exact S1].
    - pose proof C as [C1 [C2 _]]. rewrite C1. rewrite (proj2 (Z.eqb_neq j (-1))) by lia. rewrite C1 in C.
      destruct (IH j steps (put f i (set_counters O n cs))) as [f' [E' S']]; [cbn in Hs; lia|apply chain_alike with f; [now apply same_alike with [i]|exact C]|].
      rewrite E'. eexists. split; [reflexivity|]. change (i :: j :: l) with ([i] ++ j :: l). now apply same_trans with (put f i (set_counters O n cs)).
  Qed.

  (** ** Climbing from a place *)
  Lemma top_read : forall t f p t0, tree_at f p t0 t -> exists n, rd (nodes f) (top t) = Ok n /\ parent O n = p /\ length (counters O n) = Z.to_nat lc.
  Proof. intros [i pts|i d v l r] f p t0 [n T]; exists n; tauto. Qed.
  Lemma fork_ready : forall f p t0 i d v a b, tree_at f p t0 (Fork i d v a b) -> NoDup (ids (Fork i d v a b)) ->
    exists n nl nr, ready f i n nl nr /\ parent O n = p /\ child_left O n = top a /\ child_right O n = top b.
  Proof.
    intros f p t0 i d v a b T ND. cbn in ND. apply NoDup_cons_iff in ND. destruct ND as [N1 _].
    destruct T as [n [T1 [T2 [_ [T4 [_ [_ [T7 [T8 [_ [_ [T11 [T12 [Ta Tb]]]]]]]]]]]]]].
    destruct (top_read _ _ _ _ Ta) as [nl [A1 [_ A2]]]. destruct (top_read _ _ _ _ Tb) as [nr [B1 [_ B2]]]. exists n, nl, nr. split; [|auto].
    unfold ready, is_leaf. rewrite T7, T11, T12. split; [exact T1|]. split; [apply Z.eqb_neq; lia|]. split; [exact A1|]. split; [exact B1|].
    split; [intros ->; apply N1, in_or_app; left; apply top_in|]. split; [intros ->; apply N1, in_or_app; right; apply top_in|]. auto.
  Qed.
  Lemma fill_ready : forall f p t0 fr s, tree_at f p t0 (fill fr s) -> NoDup (ids (fill fr s)) -> exists n nl nr, ready f (frame_id fr) n nl nr /\ parent O n = p.
  Proof.
    intros f p t0 [i d v r|i d v l] s T ND; cbn [fill] in *; destruct (fork_ready _ _ _ _ _ _ _ _ T ND) as [n [nl [nr [R [E _]]]]]; exists n, nl, nr; auto.
  Qed.
  Lemma chain_plug : forall c f t0 s q t1, tree_at f (-1) t0 (plug c s) -> NoDup (ids (plug c s)) -> (forall j, In j (ids (plug c s)) -> 0 <= j) ->
    tree_at f q t1 s -> q = match c with [] => -1 | fr :: _ => frame_id fr end -> chain f q (path c).
  Proof.
    induction c as [|fr c IH]; intros f t0 s q t1 T ND Pos Ts ->; [reflexivity|]. cbn [plug] in *. cbn [path map chain]. split; [reflexivity|].
    split. { apply Pos, plug_in, fill_ids. now left. }
    destruct (sub_at _ _ _ _ _ T) as [q' [t2 [T' E']]]. destruct (fill_ready _ _ _ _ _ T' (plug_nodup _ _ ND)) as [n [nl [nr [R E]]]].
    exists n, nl, nr. split; [exact R|]. rewrite E. now apply (IH f t0 (fill fr s) q' t2).
  Qed.

  Variable ls : Z -> bool.
  (** Off the path everything is counted, on it the labels outside of [ls]. *)
  Definition half_counted (f : forest) (t : mtree) : Prop :=
    match t with
    | Leaf _ _ => True
    | Fork i _ _ a b => exists n, rd (nodes f) i = Ok n /\
        forall l, 0 <= l < lc -> ls l = false -> rd (counters O n) l = Ok (present l (points a) + present l (points b))
    end.
  Fixpoint sides (f : forest) (c : list frame) (s : mtree) : Prop :=
    match c with
    | [] => True
    | fr :: c => counted f (beside fr) /\ half_counted f (fill fr s) /\ sides f c (fill fr s)
    end.
  Lemma sides_frame : forall c f g s, (forall j, In j (ids (plug c s)) -> ~ In j (ids s) -> rd (nodes g) j = rd (nodes f) j) ->
    NoDup (ids (plug c s)) -> sides f c s -> sides g c s.
  Proof.
    induction c as [|fr c IH]; intros f g s H ND S; [exact I|]. cbn [plug sides] in *. destruct S as [S1 [S2 S3]].
    destruct (fill_nodup _ _ (plug_nodup _ _ ND)) as [N1 [N2 [N3 [N4 N5]]]].
    split; [|split].
    - apply (counted_frame O lc) with f; [|exact S1]. intros j Hj. apply H; [apply plug_in, fill_ids; auto|]. intros X. now apply (N5 j).
    - assert (E : rd (nodes g) (frame_id fr) = rd (nodes f) (frame_id fr)) by (apply H; [apply plug_in, fill_ids; auto|exact N3]).
      destruct fr as [i d v r|i d v l]; cbn [fill half_counted frame_id] in *; rewrite E; exact S2.
    - apply IH with f; auto. intros j Hj Nj. apply H; [exact Hj|]. intros X. apply Nj, fill_ids. auto.
  Qed.
  Lemma climb_ok : forall visit, visits visit ls -> forall c fr s f t0 steps, (length c < steps)%nat ->
    tree_at f (-1) t0 (plug (fr :: c) s) -> NoDup (ids (plug (fr :: c) s)) -> (forall j, In j (ids (plug (fr :: c) s)) -> 0 <= j) ->
    counted f s -> sides f (fr :: c) s ->
    exists f', climb O visit steps f (frame_id fr) = Ok f' /\ same_but f f' (path (fr :: c)) /\ counted f' (plug (fr :: c) s).
  Proof.
    intros visit V. induction c as [|fr' c IH]; intros fr s f t0 steps Hs T ND Pos Cs Sd.
    - destruct steps as [|steps]; [cbn in Hs; lia|]. cbn [plug] in *. destruct Sd as [Sb [Sh _]].
      assert (X : exists i d v a b, fill fr s = Fork i d v a b /\ frame_id fr = i /\ counted f a /\ counted f b).
      { destruct fr as [i d v r|i d v l]; cbn [fill frame_id beside] in *; do 5 eexists; (split; [reflexivity|]); auto. }
      destruct X as [i [d [v [a [b [E [Ei [Ca Cb]]]]]]]]. rewrite E in *. rewrite Ei in *.
      destruct (fork_ready _ _ _ _ _ _ _ _ T ND) as [n [nl [nr [R [Ep [El Er]]]]]]. destruct (V f i n nl nr R) as [cs [Ev [Lc Hc]]].
      pose proof R as [H1 [_ [H3 [H4 [H5 [H6 [H7 _]]]]]]]. cbn [climb]. rewrite H1. cbn [bind]. rewrite Ev. cbn [bind]. rewrite Ep. cbn [Z.eqb].
      eexists. split; [reflexivity|]. split; [cbn [path map]; rewrite Ei; apply put_but; [exact H1|congruence]|].
      cbn in ND. apply NoDup_cons_iff in ND. destruct ND as [N1 _].
      destruct T as [n' [T1 [_ [_ [_ [_ [_ [_ [_ [_ [_ [_ [_ [Ta Tb]]]]]]]]]]]]]]. cbn [Mondrian_Spec.top] in T1. assert (n' = n) by congruence. subst n'.
      assert (D : forall j, rd (nodes (put f i (set_counters O n cs))) j = if i =? j then Ok (set_counters O n cs) else rd (nodes f) j) by (intros j; now apply rd_put with n).
      split; [|split].
      + exists (set_counters O n cs). split; [rewrite D; now rewrite Z.eqb_refl|]. intros l Hl. cbn [counters set_counters].
        destruct (top_counter O fc lc lifetime a f _ _ l Ta Ca Hl) as [na [ca [A1 [A2 A3]]]]. destruct (top_counter O fc lc lifetime b f _ _ l Tb Cb Hl) as [nb [cb [B1 [B2 B3]]]].
        rewrite El in H3. rewrite Er in H4. assert (na = nl) by congruence. assert (nb = nr) by congruence. subst na nb.
        rewrite (Hc l ca cb Hl A2 B2). destruct (ls l) eqn:Els; [congruence|]. destruct Sh as [m [M1 M2]]. assert (m = n) by congruence. subst m. now apply M2.
      + apply (counted_frame O lc) with f; [|exact Ca]. intros j Hj. rewrite D. rewrite (proj2 (Z.eqb_neq i j)); [reflexivity|]. intros ->. apply N1, in_or_app. now left.
      + apply (counted_frame O lc) with f; [|exact Cb]. intros j Hj. rewrite D. rewrite (proj2 (Z.eqb_neq i j)); [reflexivity|]. intros ->. apply N1, in_or_app. now right.
    - destruct steps as [|steps]; [cbn in Hs; lia|]. change (plug (fr :: fr' :: c) s) with (plug (fr' :: c) (fill fr s)) in *.
      destruct Sd as [Sb [Sh Sd]].
      destruct (sub_at _ _ _ _ _ T) as [q [t1 [T' Eq]]].
      pose proof (plug_nodup _ _ ND) as ND'.
      (* the first node, as if it were a root *)
      assert (X : exists i d v a b, fill fr s = Fork i d v a b /\ frame_id fr = i /\ counted f a /\ counted f b).
      { destruct fr as [i d v r|i d v l]; cbn [fill frame_id beside] in *; do 5 eexists; (split; [reflexivity|]); auto. }
      destruct X as [i [d [v [a [b [E [Ei [Ca Cb]]]]]]]]. rewrite E in *.
      destruct (fork_ready _ _ _ _ _ _ _ _ T' ND') as [n [nl [nr [R [Ep [El Er]]]]]]. destruct (V f i n nl nr R) as [cs [Ev [Lc Hc]]].
      pose proof R as [H1 [_ [H3 [H4 [H5 [H6 [H7 _]]]]]]]. rewrite Ei. cbn [climb]. rewrite H1. cbn [bind]. rewrite Ev. cbn [bind]. rewrite Ep, Eq.
      assert (P0 : 0 <= frame_id fr') by (apply Pos; cbn [plug]; apply plug_in, fill_ids; now left).
      rewrite (proj2 (Z.eqb_neq (frame_id fr') (-1))) by lia.
      set (g := put f i (set_counters O n cs)).
      assert (S1 : same_but f g [i]) by (apply put_but; [exact H1|congruence]).
      assert (D : forall j, rd (nodes g) j = if i =? j then Ok (set_counters O n cs) else rd (nodes f) j) by (intros j; now apply rd_put with n).
      assert (Tg : tree_at g (-1) t0 (plug (fr' :: c) (Fork i d v a b))).
      { apply (same_tree O fc lc lifetime _ f g) with [i]; auto. intros j [<-|[]] _. apply plug_forks_in. now left. }
      assert (Cg : counted g (Fork i d v a b)).
      { pose proof ND' as N0. cbn in N0. apply NoDup_cons_iff in N0. destruct N0 as [N1 _].
        destruct T' as [n' [T1 [_ [_ [_ [_ [_ [_ [_ [_ [_ [_ [_ [Ta Tb]]]]]]]]]]]]]]. cbn [Mondrian_Spec.top] in T1. assert (n' = n) by congruence. subst n'.
        split; [|split].
        + exists (set_counters O n cs). split; [rewrite D; now rewrite Z.eqb_refl|]. intros l Hl. cbn [counters set_counters].
          destruct (top_counter O fc lc lifetime a f _ _ l Ta Ca Hl) as [na [ca [A1 [A2 A3]]]]. destruct (top_counter O fc lc lifetime b f _ _ l Tb Cb Hl) as [nb [cb [B1 [B2 B3]]]].
          rewrite El in H3. rewrite Er in H4. assert (na = nl) by congruence. assert (nb = nr) by congruence. subst na nb.
          rewrite (Hc l ca cb Hl A2 B2). destruct (ls l) eqn:Els; [congruence|]. destruct Sh as [m [M1 M2]]. assert (m = n) by congruence. subst m. now apply M2.
        + apply (counted_frame O lc) with f; [|exact Ca]. intros j Hj. rewrite D. rewrite (proj2 (Z.eqb_neq i j)); [reflexivity|]. intros ->. apply N1, in_or_app. now left.
        + apply (counted_frame O lc) with f; [|exact Cb]. intros j Hj. rewrite D. rewrite (proj2 (Z.eqb_neq i j)); [reflexivity|]. intros ->. apply N1, in_or_app. now right. }
      assert (Sg : sides g (fr' :: c) (Fork i d v a b)).
      { apply sides_frame with f; auto. intros j Hj Nj. rewrite D. rewrite (proj2 (Z.eqb_neq i j)); [reflexivity|]. intros ->. apply Nj. now left. }
      destruct (IH fr' (Fork i d v a b) g t0 steps) as [f' [E' [S' C']]]; [cbn in Hs; lia|exact Tg|exact ND|exact Pos|exact Cg|exact Sg|].
      rewrite E'. eexists. split; [reflexivity|]. split; [|exact C'].
      change (path (fr :: fr' :: c)) with ([frame_id fr] ++ path (fr' :: c)). rewrite Ei. now apply same_trans with g.
  Qed.
  (** The sides after a change below them. *)
  Lemma counted_alike : forall t f g, (forall j n, In j (fork_ids t) -> rd (nodes f) j = Ok n -> exists m, rd (nodes g) j = Ok m /\ counters O m = counters O n) ->
    counted f t -> counted g t.
  Proof.
    induction t as [i pts|i d v l IHl r IHr]; intros f g H C; [exact I|]. destruct C as [[n [C1 C2]] [C3 C4]]. split; [|split].
    - destruct (H i n (or_introl eq_refl) C1) as [m [M1 M2]]. exists m. split; [exact M1|]. intros y Hy. rewrite M2. now apply C2.
    - apply IHl with f; [|exact C3]. intros j m Hj. apply H. right. apply in_or_app. now left.
    - apply IHr with f; [|exact C4]. intros j m Hj. apply H. right. apply in_or_app. now right.
  Qed.
  Lemma counted_plug : forall c f s, counted f (plug c s) -> counted f s.
  Proof. induction c as [|fr c IH]; intros f s H; [exact H|]. cbn [plug] in H. apply IH in H. destruct fr as [i d v r|i d v l]; cbn in H; tauto. Qed.
  Lemma sides_from : forall c f g s0 s,
    (forall j n, In j (fork_ids (plug c s0)) -> rd (nodes f) j = Ok n -> exists m, rd (nodes g) j = Ok m /\ counters O m = counters O n) ->
    (forall l, 0 <= l < lc -> ls l = false -> present l (points s) = present l (points s0)) -> counted f (plug c s0) -> sides g c s.
  Proof.
    induction c as [|fr c IH]; intros f g s0 s H E C; [exact I|]. cbn [plug sides] in *. pose proof (counted_plug _ _ _ C) as Cf. split; [|split].
    - apply counted_alike with f; [|destruct fr; cbn in Cf |- *; tauto]. intros j n Hj. apply H. apply plug_forks_in. destruct fr; cbn in Hj |- *; rewrite in_app_iff; auto.
    - assert (F : In (frame_id fr) (fork_ids (plug c (fill fr s0)))) by apply plug_forks_in, fill_forks.
      destruct fr as [i d v r|i d v l]; cbn [fill half_counted frame_id] in *; destruct Cf as [[n [C1 C2]] _]; destruct (H i n F C1) as [m [M1 M2]];
        exists m; (split; [exact M1|]); intros y Hy Ly; rewrite M2, (E y Hy Ly); now apply C2.
    - apply IH with f (fill fr s0); auto. intros y Hy Ly. specialize (E y Hy Ly). destruct fr as [i d v r|i d v l]; cbn [fill Mondrian_Spec.points]; rewrite !present_app, E; reflexivity.
  Qed.
End Count.
