(** * Forests that differ only in the counters of internal nodes *)
From Coq Require Import ZArith List Bool Lia.
From Verif Require Import CppBase CppFacts NumOps Utils_Model Coarse_Heap Mondrian_Model Mondrian_Proofs.
From Verif Require Unbound_Model.
Import ListNotations.
Local Open Scope Z_scope.

(** The same outcome, up to a relation between the results. *)
Definition simr {A B : Type} (R : A -> B -> Prop) (m : res A) (m' : res B) : Prop :=
  match m, m' with
  | Ok a, Ok b => R a b
  | Undef u, Undef v => u = v
  | Abort, Abort | NoFuel, NoFuel => True
  | _, _ => False
  end.
Lemma simr_ok : forall A B (R : A -> B -> Prop) a b, R a b -> simr R (Ok a) (Ok b).
Proof. auto. Qed.
Lemma simr_bind : forall A B A' B' (R : A -> A' -> Prop) (Q : B -> B' -> Prop) m m' k k',
  simr R m m' -> (forall a b, m = Ok a -> m' = Ok b -> R a b -> simr Q (k a) (k' b)) -> simr Q (do x <- m; k x) (do x <- m'; k' x).
Proof. intros A B A' B' R Q [a|u| |] [b|v| |] k k' H K; cbn in *; try contradiction; auto. Qed.
Lemma simr_eq : forall A (m : res A), simr eq m m.
Proof. intros A [a|u| |]; cbn; auto. Qed.
Lemma simr_impl : forall A B (R Q : A -> B -> Prop) m m', (forall a b, R a b -> Q a b) -> simr R m m' -> simr Q m m'.
Proof. intros A B R Q [a|u| |] [b|v| |] H X; cbn in *; auto. Qed.
Lemma simr_refl : forall A (R : A -> A -> Prop) m, (forall a, R a a) -> simr R m m.
Proof. intros A R [a|u| |] H; cbn; auto. Qed.
(** The rest is the same for both. *)
Lemma simr_same : forall A B B' (Q : B -> B' -> Prop) (m : res A) k k', (forall a, m = Ok a -> simr Q (k a) (k' a)) -> simr Q (do x <- m; k x) (do x <- m; k' x).
Proof. intros A B B' Q [a|u| |] k k' K; cbn; auto. Qed.
Lemma simr_forZ : forall S S' (P : S -> S' -> Prop) n i b b' s s', P s s' -> (forall j s s', P s s' -> simr P (b j s) (b' j s')) -> simr P (forZ n i b s) (forZ n i b' s').
Proof. intros S S' P n. induction n as [|n IH]; intros i b b' s s' H K; [exact H|]. cbn [forZ]. apply simr_bind with P; auto. Qed.
Lemma simr_inv : forall A B (R : A -> B -> Prop) m m' b, simr R m m' -> m' = Ok b -> exists a, m = Ok a /\ R a b.
Proof. intros A B R m m' b H ->. destruct m as [a|u| |]; cbn in H; try contradiction. eauto. Qed.
Lemma simr_fwd : forall A B (R : A -> B -> Prop) m m' a, simr R m m' -> m = Ok a -> exists b, m' = Ok b /\ R a b.
Proof. intros A B R m m' b H ->. destruct m' as [a|u| |]; cbn in H; try contradiction. eauto. Qed.
Lemma simr_range : forall S S' (P : S -> S' -> Prop) n i b b' s s', P s s' -> (forall j s s', i <= j < i + Z.of_nat n -> P s s' -> simr P (b j s) (b' j s')) -> simr P (forZ n i b s) (forZ n i b' s').
Proof.
  intros S S' P n. induction n as [|n IH]; intros i b b' s s' H K; [exact H|]. cbn [forZ]. apply simr_bind with P; [apply K; [lia|exact H]|]. intros a a' _ _ Ha. apply IH; [exact Ha|]. intros j t t' Hj. apply K. lia.
Qed.
Lemma simr_left : forall A B (P : A -> B -> Prop) (Q : A -> Prop) m m', simr P m m' -> (forall a, m = Ok a -> Q a) -> simr (fun a b => P a b /\ Q a) m m'.
Proof. intros A B P Q [a|u| |] [b|v| |] H K; cbn in *; auto. Qed.

Section Sim.
  Variable O : ops.
  Local Notation node := (node O).
  Local Notation forest := (forest O).
  Local Notation nodes := (nodes O).
  Local Notation roots := (roots O).
  Local Notation counters := (counters O).
  (** [nsim b n m]: the node [m] is [n] with other counters, unless [n] is a leaf or [b] holds. *)
  Definition nsim (b : bool) (n m : node) : Prop :=
    exists cs, m = set_counters O n cs /\ length cs = length (counters n) /\ (is_leaf O n = true \/ b = true -> cs = counters n).
  (** [fsim e f g]: the forest [g] differs from [f] at most in the counters of internal nodes other than [e]. *)
  Definition fsim (e : Z) (f g : forest) : Prop :=
    roots g = roots f /\ drawn O g = drawn O f /\ length (nodes g) = length (nodes f) /\
    forall i n, rd (nodes f) i = Ok n -> exists m, rd (nodes g) i = Ok m /\ nsim (i =? e) n m.
  Lemma set_same : forall n : node, set_counters O n (counters n) = n.
  Proof. now intros []. Qed.
  Lemma nsim_refl : forall b n, nsim b n n.
  Proof. intros b n. exists (counters n). rewrite set_same. auto. Qed.
  Lemma nsim_weak : forall b n m, nsim b n m -> nsim false n m.
  Proof. intros b n m [cs [A [B C]]]. exists cs. split; [exact A|]. split; [exact B|]. intros [L|L]; [auto|discriminate]. Qed.
  Lemma fsim_refl : forall e f, fsim e f f.
  Proof. intros e f. repeat split; auto. intros i n H. exists n. split; [exact H|apply nsim_refl]. Qed.
  Lemma fsim_weak : forall e f g, fsim e f g -> fsim (-1) f g.
  Proof.
    intros e f g [A [B [C D]]]. repeat split; auto. intros i n H. destruct (D i n H) as [m [E F]]. exists m. split; [exact E|]. apply rd_ok_iff in H as [H _]. destruct (Z.eqb_spec i (-1)); [lia|]. now apply nsim_weak in F.
  Qed.
  Lemma rd_sim : forall A B (xs : list A) (ys : list B) i, length ys = length xs -> simr (fun _ _ => True) (rd xs i) (rd ys i).
  Proof.
    intros A B xs ys i L. destruct (Z.ltb_spec i 0) as [N|N]; [unfold rd; rewrite (proj2 (Z.ltb_lt i 0) N); reflexivity|]. unfold rd. rewrite (proj2 (Z.ltb_ge i 0) N).
    destruct (nth_error xs _) eqn:E1, (nth_error ys _) eqn:E2; cbn; auto.
    - apply nth_error_None in E2. assert (nth_error xs (Z.to_nat i) <> None) as X by congruence. apply nth_error_Some in X. lia.
    - apply nth_error_None in E1. assert (nth_error ys (Z.to_nat i) <> None) as X by congruence. apply nth_error_Some in X. lia.
  Qed.
  Lemma wr_sim : forall A B (xs : list A) (ys : list B) i v w, length ys = length xs -> simr (fun a b => a = upd xs (Z.to_nat i) v /\ b = upd ys (Z.to_nat i) w /\ 0 <= i < Z.of_nat (length xs)) (wr xs i v) (wr ys i w).
  Proof. intros A B xs ys i v w L. unfold wr. rewrite L. match goal with |- context [if ?b then _ else _] => destruct b eqn:E end; cbn; auto. repeat split; auto; lia. Qed.
  Lemma node_sim : forall e f g i, fsim e f g -> simr (nsim (i =? e)) (rd (nodes f) i) (rd (nodes g) i).
  Proof.
    intros e f g i [_ [_ [L H]]]. destruct (rd (nodes f) i) as [n|u| |] eqn:E.
    - destruct (H i n E) as [m [-> S]]. exact S.
    - pose proof (rd_sim _ _ (nodes f) (nodes g) i (eq_trans L eq_refl)) as X. rewrite E in X. destruct (rd (nodes g) i); cbn in *; auto.
    - pose proof (rd_sim _ _ (nodes f) (nodes g) i (eq_trans L eq_refl)) as X. rewrite E in X. destruct (rd (nodes g) i); cbn in *; auto.
    - pose proof (rd_sim _ _ (nodes f) (nodes g) i (eq_trans L eq_refl)) as X. rewrite E in X. destruct (rd (nodes g) i); cbn in *; auto.
  Qed.
  Lemma put_sim : forall e f g i n m, fsim e f g -> 0 <= i < Z.of_nat (length (nodes f)) -> nsim (i =? e) n m -> fsim e (put O f i n) (put O g i m).
  Proof.
    intros e f g i n m [A [B [C D]]] Hi S. repeat split; auto; [rewrite !put_length; exact C|]. intros j k H.
    destruct (rd_in_bounds _ (nodes f) i Hi) as [n0 H0]. destruct (D _ _ H0) as [m0 [H1 _]]. rewrite (rd_put O _ _ _ _ _ H0) in H. rewrite (rd_put O _ _ _ _ _ H1).
    destruct (Z.eqb_spec i j) as [<-|N]; [injection H as <-; eauto|auto].
  Qed.
  Lemma with_sim : forall e f g i h h', fsim e f g -> (forall n m, rd (nodes f) i = Ok n -> nsim (i =? e) n m -> simr (nsim (i =? e)) (h n) (h' m)) -> simr (fsim e) (with_node O f i h) (with_node O g i h').
  Proof.
    intros e f g i h h' S H. unfold with_node. eapply simr_bind; [apply node_sim; exact S|]. intros n m En Em Nm. eapply simr_bind; [apply H; auto|]. intros n' m' _ _ Nm'. pose proof S as [A [B [C _]]].
    eapply simr_bind; [apply wr_sim; exact C|]. intros ns ms _ _ [-> [-> Hi]]. apply simr_ok. apply (put_sim e f g i n' m'); auto.
  Qed.
  (** A change that gives both the same counters. *)
  Lemma with_fresh : forall f g i h h', fsim (-1) f g -> (forall n m, rd (nodes f) i = Ok n -> nsim false n m -> simr (nsim true) (h n) (h' m)) -> simr (fsim i) (with_node O f i h) (with_node O g i h').
  Proof.
    intros f g i h h' S H. unfold with_node. eapply simr_bind; [apply node_sim; exact S|]. intros n m En Em Nm. apply nsim_weak in Nm. eapply simr_bind; [apply H; auto|]. intros n' m' _ _ Nm'. pose proof S as [A [B [C D]]].
    eapply simr_bind; [apply wr_sim; exact C|]. intros ns ms _ _ [-> [-> Hi]]. apply simr_ok. repeat split; auto; [cbn [Mondrian_Model.nodes]; rewrite !upd_length; exact C|]. cbn [Mondrian_Model.nodes]. intros j k Hj. apply rd_ok_iff in Hj as J. destruct J as [J _].
    rewrite rd_upd in Hj by lia. rewrite rd_upd by lia. destruct (Z.eqb_spec i j) as [<-|N]; [injection Hj as <-; exists m'; now rewrite Z.eqb_refl|]. destruct (D j k Hj) as [q [Q1 Q2]]. exists q. split; [exact Q1|]. destruct (Z.eqb_spec j i); [congruence|]. now apply nsim_weak in Q2.
  Qed.
  (** A change that does not look at the counters and keeps them and the kind of the node. *)
  Lemma with_plain : forall e f g i (h : node -> node), fsim e f g -> (forall n cs, h (set_counters O n cs) = set_counters O (h n) cs) -> (forall n, counters (h n) = counters n) ->
    (forall n, rd (nodes f) i = Ok n -> is_leaf O (h n) = true -> is_leaf O n = true) -> simr (fsim e) (with_node O f i (fun n => Ok (h n))) (with_node O g i (fun n => Ok (h n))).
  Proof.
    intros e f g i h S H1 H2 H3. apply with_sim; [exact S|]. intros n m En [cs [-> [Lc Hc]]]. apply simr_ok. exists cs. rewrite H1, H2. split; [reflexivity|]. split; [exact Lc|]. intros [L|L]; apply Hc; [left; eauto|now right].
  Qed.
  Lemma roots_sim : forall e f g i r, fsim e f g -> simr (fsim e) (do rs <- wr (roots f) i r; Ok (mkForest O (nodes f) rs (drawn O f))) (do rs <- wr (roots g) i r; Ok (mkForest O (nodes g) rs (drawn O g))).
  Proof. intros e f g i r [A [B [C D]]]. rewrite A, B. apply simr_same. intros rs _. apply simr_ok. repeat split; auto. Qed.

  Variable rnd : nat -> num O.
  Lemma uniform_sim : forall e f g, fsim e f g -> fst (uniform O rnd g) = fst (uniform O rnd f) /\ fsim e (snd (uniform O rnd f)) (snd (uniform O rnd g)).
  Proof. intros e f g [A [B [C D]]]. unfold uniform. cbn [fst snd]. rewrite B. split; [reflexivity|]. repeat split; auto. Qed.
  Lemma parent_sim : forall e f g n cs, fsim e f g -> parent_time O g (set_counters O n cs) = parent_time O f n.
  Proof.
    intros e f g n cs S. unfold parent_time. cbn [parent set_counters]. destruct (0 <=? parent O n); [|reflexivity]. pose proof (node_sim e f g (parent O n) S) as X.
    destruct (rd (nodes f) _), (rd (nodes g) _); cbn in *; try contradiction; try congruence. destruct X as [c2 [-> _]]. reflexivity.
  Qed.

  Variable tree_count feature_count label_count max_node : Z.
  Variable lifetime : num O.
  (** Where the point is counted, both forests have the same counters. *)
  Lemma count_sim : forall b (n m : node) label (h : node -> list Z -> node), nsim b n m -> is_leaf O n = true \/ b = true -> (forall n cs cs', h (set_counters O n cs) cs' = h n cs') ->
    simr eq (do c <- rd (counters n) label; do c <- sint (c + 1); do cs <- wr (counters n) label c; Ok (h n cs)) (do c <- rd (counters m) label; do c <- sint (c + 1); do cs <- wr (counters m) label c; Ok (h m cs)).
  Proof. intros b n m label h [cs [-> [_ Hc]]] L E. rewrite (Hc L), set_same. apply simr_eq. Qed.
  Lemma sample_sim : forall e f g i x label, fsim e f g -> (i = e \/ forall n, rd (nodes f) i = Ok n -> is_leaf O n = true) ->
    simr (fsim e) (sample_block O feature_count lifetime f i x label) (sample_block O feature_count lifetime g i x label).
  Proof.
    intros e f g i x label S H. unfold sample_block. apply simr_same. intros [l u] _. apply with_sim; [exact S|]. intros n m En Nm.
    assert (m = n). { destruct Nm as [cs [-> [_ Hc]]]. rewrite Hc, set_same; [reflexivity|]. destruct H as [->|H]; [right; apply Z.eqb_refl|left; auto]. } subst m.
    apply simr_refl. apply nsim_refl.
  Qed.
  Lemma insert_sim : forall f g i k x label d u p q, fsim (-1) f g ->
    simr (fsim (-1)) (insert_above O feature_count label_count lifetime f i k x label d u p q) (insert_above O feature_count label_count lifetime g i k x label d u p q).
  Proof.
    intros f g i k x label d u p q S. unfold insert_above.
    eapply simr_bind; [apply node_sim; exact S|]. intros n m _ _ [cs [-> _]]. apply simr_same. intros [l h] _.
    eapply simr_bind; [apply (with_plain (-1) f g p (fun n => set_box O n l h)); auto|]. intros f1 g1 _ _ S1.
    eapply simr_bind; [apply (with_fresh f1 g1 q (fun s => Ok (set_counters O s (repeat 0 (Z.to_nat label_count)))) (fun s => Ok (set_counters O s (repeat 0 (Z.to_nat label_count)))) S1)|].
    { intros n1 m1 _ [c1 [-> _]]. apply simr_ok. apply nsim_refl. }
    intros f2 g2 _ _ S2. eapply simr_bind; [apply node_sim; exact S2|]. intros n2 m2 _ _ [c2 [-> _]]. cbn [parent set_counters].
    eapply simr_bind; [apply (with_plain q f2 g2 p (fun n => set_parent O n (parent O n2))); auto|]. intros f3 g3 _ _ S3. eapply simr_bind; [apply node_sim; exact S3|]. intros n3 m3 _ _ [c3 [-> _]]. cbn [parent set_counters].
    pose proof S3 as [Rt _]. rewrite Rt at 1. apply simr_same. intros root _.
    eapply simr_bind; [destruct (_ && _); [apply roots_sim; exact S3|apply (with_plain q f3 g3 (parent O n3) (fun p0 => if child_left O p0 =? i then set_children O p0 p (child_right O p0) else set_children O p0 (child_left O p0) p)); auto]|].
    { intros nn cs'. cbn [child_left set_counters]. now destruct (_ =? i). } { intros nn. now destruct (_ =? i). } { intros nn _. now destruct (_ =? i). }
    intros f4 g4 _ _ S4. eapply simr_bind; [apply (with_plain q f4 g4 i (fun n => set_parent O n p)); auto|]. intros f5 g5 _ _ S5.
    eapply simr_bind; [apply (with_plain q f5 g5 q (fun n => set_parent O n p)); auto|]. intros f6 g6 _ _ S6. apply simr_same. intros y _.
    eapply simr_bind; [apply (with_plain q f6 g6 p (fun p0 => if neq O y u then set_children O p0 i q else set_children O p0 q i)); auto|].
    { intros nn cs'. now destruct (neq O y u). } { intros nn. now destruct (neq O y u). } { intros nn _. now destruct (neq O y u). }
    intros f7 g7 _ _ S7. apply (simr_impl _ _ (fsim q)); [apply fsim_weak|]. apply sample_sim; auto.
  Qed.
  Lemma findZ_sim : forall R (b b' : Z -> res (option R)) n i, (forall j, b' j = b j) -> findZ n i b' = findZ n i b.
  Proof. intros R b b' n. induction n as [|n IH]; intros i H; [reflexivity|]. cbn [findZ]. rewrite H. destruct (b i) as [[r|]|u| |]; cbn [bind]; auto. Qed.
  Lemma available_sim : forall e f g i, fsim e f g -> (do n <- rd (nodes g) i; Ok (available O n)) = (do n <- rd (nodes f) i; Ok (available O n)).
  Proof.
    intros e f g i S. pose proof (node_sim e f g i S) as X. destruct (rd (nodes f) i), (rd (nodes g) i); cbn in *; try contradiction; try congruence. destruct X as [cs [-> _]]. reflexivity.
  Qed.
  Lemma free_sim : forall e f g i (A : Type) (k : bool -> res A), fsim e f g -> (do n <- rd (nodes g) i; k (available O n)) = (do n <- rd (nodes f) i; k (available O n)).
  Proof.
    intros e f g i A k S. pose proof (node_sim e f g i S) as X. destruct (rd (nodes f) i), (rd (nodes g) i); cbn in *; try contradiction; try congruence. destruct X as [cs [-> _]]. reflexivity.
  Qed.
End Sim.

Section Equal.
  Variable O : ops.
  Variable lc : Z.
  Local Notation node := (node O).
  Local Notation forest := (forest O).
  Local Notation nodes := (nodes O).
  Local Notation roots := (roots O).
  Local Notation counters := (counters O).
  Local Notation fsim := (fsim O (-1)).
  Lemma nsim_trans : forall a b d : node, nsim O false a b -> nsim O false b d -> nsim O false a d.
  Proof.
    intros a b d [cs [-> [A1 A2]]] [ds [-> [B1 B2]]]. exists ds. cbn [Mondrian_Model.counters set_counters] in *. split; [reflexivity|]. split; [congruence|]. intros [H|H]; [|discriminate].
    change (is_leaf O (set_counters O a cs)) with (is_leaf O a) in B2. rewrite B2 by auto. apply A2. auto.
  Qed.
  Lemma nsim_sym : forall a b : node, nsim O false a b -> nsim O false b a.
  Proof.
    intros a b [cs [-> [A1 A2]]]. exists (counters a). split; [now destruct a|]. split; [symmetry; exact A1|]. intros [H|H]; [|discriminate]. symmetry. apply A2. auto.
  Qed.
  Lemma fsim_get : forall f g, fsim f g <-> (roots g = roots f /\ drawn O g = drawn O f /\ length (nodes g) = length (nodes f) /\ forall i n, rd (nodes f) i = Ok n -> exists m, rd (nodes g) i = Ok m /\ nsim O false n m).
  Proof.
    intros f g. unfold Forest_Sim.fsim. split; intros [A [B [C D]]]; (split; [exact A|]; split; [exact B|]; split; [exact C|]); intros i n H; destruct (D i n H) as [m [E F]]; exists m; (split; [exact E|]).
    - now apply nsim_weak in F.
    - apply rd_ok_iff in H as [H _]. now rewrite (proj2 (Z.eqb_neq i (-1))) by lia.
  Qed.
  Lemma fsim_trans : forall a b d, fsim a b -> fsim b d -> fsim a d.
  Proof.
    intros a b d H K. rewrite fsim_get in *. destruct H as [A1 [A2 [A3 A4]]], K as [B1 [B2 [B3 B4]]]. split; [congruence|]. split; [congruence|]. split; [congruence|]. intros i n H.
    destruct (A4 i n H) as [m [E F]]. destruct (B4 i m E) as [q [G K]]. exists q. split; [exact G|]. now apply nsim_trans with m.
  Qed.
  Lemma fsim_sym : forall a b, fsim a b -> fsim b a.
  Proof.
    intros a b H. rewrite fsim_get in *. destruct H as [A1 [A2 [A3 A4]]]. split; [congruence|]. split; [congruence|]. split; [congruence|]. intros i n H. pose proof H as H'. apply rd_ok_iff in H' as [H' _].
    destruct (rd_in_bounds _ (nodes a) i) as [m M]; [apply rd_bounds in H; lia|]. destruct (A4 i m M) as [q [G K]]. exists m. split; [exact M|]. rewrite H in G. injection G as <-. now apply nsim_sym.
  Qed.
  (** Recounting changes the counters of internal nodes only. *)
  Lemma posterior_sim : forall steps f i f', update_posterior_count O lc steps f i = Ok f' -> fsim f f'.
  Proof.
    induction steps as [|steps IH]; intros f i f' H; cbn [update_posterior_count] in H; [discriminate|]. inv_bind H. rename v into n, E into Hn. destruct (is_leaf O n) eqn:Lf; [injection H as <-; apply fsim_refl|].
    inv_bind H. inv_bind H. rename v into f1, v0 into f2. apply IH in E, E0. pose proof (fsim_trans _ _ _ E E0) as S2.
    assert (X : fsim f f' /\ True); [|apply X]. refine (forZ_inv_post _ (fun _ g => fsim f g /\ True) _ _ 0 _ _ _ _ H); [auto|]. intros j g g' _ [Hg _] H1. split; [|exact I]. eapply fsim_trans; [exact Hg|]. clear H.
    rewrite fsim_get in Hg. destruct Hg as [_ [_ [_ Hg]]]. destruct (Hg i n Hn) as [m [Em [cs [-> _]]]]. rewrite Em in H1. cbn [bind] in H1. inv_bind H1. inv_bind H1. inv_bind H1. inv_bind H1.
    apply with_node_inv in H1. destruct H1 as [m [m' [A1 [A2 ->]]]]. rewrite Em in A1. injection A1 as <-. inv_bind A2. injection A2 as <-. apply wr_length in E5.
    apply fsim_get. split; [reflexivity|]. split; [reflexivity|]. split; [apply put_length|]. intros k q Hq. rewrite (rd_put O _ _ _ _ _ Em). destruct (Z.eqb_spec i k) as [<-|N]; [|exists q; split; [exact Hq|apply nsim_refl]].
    rewrite Em in Hq. injection Hq as <-. eexists. split; [reflexivity|]. exists v3. split; [reflexivity|]. split; [exact E5|]. intros [Y|Y]; [|discriminate]. change (is_leaf O n = true) in Y. congruence.
  Qed.
End Equal.
