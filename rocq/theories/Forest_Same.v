(** * Proofs relating the Mondrian forests: two pools that hold the same trees *)
From Coq Require Import ZArith List Bool Lia.
From Verif Require Import CppBase CppFacts NumOps Utils_Model Mondrian_Model Mondrian_Spec Mondrian_Proofs.
From Verif Require Unbound_Model.
Import ListNotations.
Local Open Scope Z_scope.

Ltac inv H := let a := fresh "v" in let E := fresh "E" in apply bind_inv in H; destruct H as [a [E H]].

Lemma Forall2_upd : forall A B (P : A -> B -> Prop) l m k v w, Forall2 P l m -> P v w -> Forall2 P (upd l k v) (upd m k w).
Proof. intros A B P l. induction l as [|y l IH]; intros m k v w F H; inversion F; subst; destruct k; cbn; constructor; auto. Qed.
Lemma Forall2_imp : forall A B (P Q : A -> B -> Prop) l m, (forall a b, P a b -> Q a b) -> Forall2 P l m -> Forall2 Q l m.
Proof. intros A B P Q l m H F. induction F; constructor; auto. Qed.
Lemma Forall2_rd : forall A B (P : A -> B -> Prop) l m k v, Forall2 P l m -> rd l k = Ok v -> exists w, rd m k = Ok w /\ P v w.
Proof.
  intros A B P l m k v F H. apply rd_ok_iff in H. destruct H as [Bk H]. revert k v Bk H. induction F as [|a b l m Pab F IH]; intros k v Bk H; [destruct (Z.to_nat k); discriminate|].
  destruct (Z.eq_dec k 0) as [->|N].
  - cbn in H. injection H as <-. exists b. split; [reflexivity|exact Pab].
  - replace (Z.to_nat k) with (S (Z.to_nat (k - 1))) in H by lia. cbn in H. destruct (IH (k - 1) v ltac:(lia) H) as [w [W1 W2]]. exists w. split; [|exact W2].
    apply rd_ok_iff in W1. destruct W1 as [_ W1]. apply rd_ok_iff. split; [lia|]. replace (Z.to_nat k) with (S (Z.to_nat (k - 1))) by lia. exact W1.
Qed.
Lemma forZ_two : forall A B (P : Z -> A -> B -> Prop) ba bb n i a b a' b', P i a b ->
  (forall j a b a' b', i <= j < i + Z.of_nat n -> P j a b -> ba j a = Ok a' -> bb j b = Ok b' -> P (j + 1) a' b') ->
  forZ n i ba a = Ok a' -> forZ n i bb b = Ok b' -> P (i + Z.of_nat n) a' b'.
Proof.
  intros A B P ba bb. induction n as [|n IH]; intros i a b a' b' H St Ha Hb; cbn [forZ] in Ha, Hb.
  - injection Ha as <-. injection Hb as <-. now rewrite Z.add_0_r.
  - apply bind_inv in Ha. destruct Ha as [a1 [A1 Ha]]. apply bind_inv in Hb. destruct Hb as [b1 [B1 Hb]].
    replace (i + Z.of_nat (S n)) with (i + 1 + Z.of_nat n) by lia. apply (IH (i + 1) a1 b1 a' b'); auto.
    + apply (St i a b); auto. lia.
    + intros j c d c' d' Hj. apply St. lia.
Qed.

Section Pools.
  Variable O : ops.
  Local Notation forest := (forest O).
  Local Notation node := (node O).
  Local Notation nodes := (nodes O).
  Local Notation roots := (roots O).
  Local Notation put := (put O).
  Lemma put_rd : forall f i n j, 0 <= i < Z.of_nat (length (nodes f)) -> rd (nodes (put f i n)) j = if i =? j then Ok n else rd (nodes f) j.
  Proof. intros f i n j H. destruct (rd_in_bounds _ (nodes f) i H) as [m Hm]. now apply rd_put with m. Qed.
  Lemma with_inv : forall f i g f', with_node O f i g = Ok f' -> exists n n', rd (nodes f) i = Ok n /\ g n = Ok n' /\ f' = put f i n'.
  Proof.
    intros f i g f' H. unfold with_node in H. inv H. inv H. inv H. apply wr_inv in E1. destruct E1 as [_ ->]. injection H as <-. now exists v, v0.
  Qed.

  (** Pairs of nodes with the same content. *)
  Variable s : list (Z * Z).
  Definition ptr (i j : Z) : Prop := (i = -1 /\ j = -1) \/ In (i, j) s.
  Definition alike (n m : node) : Prop :=
    split_dimension O n = split_dimension O m /\ (is_leaf O n = false -> split_value O n = split_value O m) /\
    bound_lower O n = bound_lower O m /\ bound_upper O n = bound_upper O m /\
    ptr (child_left O n) (child_left O m) /\ ptr (child_right O n) (child_right O m) /\ ptr (parent O n) (parent O m) /\
    tau O n = tau O m /\ (is_leaf O n = true -> counters O n = counters O m).
End Pools.

Section Same.
  Variable O : ops.
  Variable rnd : nat -> num O.
  Variable log_ : num O -> num O.
  Variable fc lc mn : Z.
  Variable lifetime : num O.
  Variable key : num O -> Rdefinitions.R.
  Variable cmp fine draw : num O -> Prop.
  Hypothesis L : laws O key cmp fine draw fc.
  Hypothesis Hdraw : forall k, draw (rnd k).
  Hypothesis Hlife : nle O (nofZ O 0) lifetime = true.
  Local Notation forest := (forest O).
  Local Notation node := (node O).
  Local Notation nodes := (nodes O).
  Local Notation roots := (roots O).
  Local Notation put := (put O).
  Local Notation n_ := (nofZ O).
  Local Notation ptr := (ptr).
  Local Notation alike := (alike O).

  (** The free nodes of the first pool. *)
  Variable e : node.
  Hypothesis Hedim : split_dimension O e = -1.
  Hypothesis Hel : child_left O e = -1.
  Hypothesis Her : child_right O e = -1.
  Hypothesis Heav : available O e = true.

  Definition fine_box (b : list (option (num O))) : Prop := Forall (fun o => exists v, o = Some v /\ fine v) b.
  Definition good (s : list (Z * Z)) (f : forest) (i : Z) (n : node) : Prop :=
    nle O (n_ 0) (tau O n) = true /\ fine_box (bound_lower O n) /\ fine_box (bound_upper O n) /\
    (is_leaf O n = false -> exists v, split_value O n = Some v /\ cmp v) /\
    parent O n <> i /\ (parent O n = -1 \/ exists np, In (parent O n) (map fst s) /\ rd (nodes f) (parent O n) = Ok np /\ is_leaf O np = false).
  Definition rel (s : list (Z * Z)) (f g : forest) : Prop :=
    NoDup (map fst s) /\ NoDup (map snd s) /\
    (forall i j, In (i, j) s -> exists n m, rd (nodes f) i = Ok n /\ rd (nodes g) j = Ok m /\ alike s n m /\ good s f i n) /\
    length s = length (nodes g) /\ Z.of_nat (length (nodes f)) = mn /\
    (forall i n, rd (nodes f) i = Ok n -> ~ In i (map fst s) -> n = e) /\
    Forall2 (ptr s) (roots f) (roots g) /\ drawn O f = drawn O g.

  Lemma pair_fst : forall s (i j : Z), In (i, j) s -> In i (map fst s).
  Proof. intros s i j H. change i with (fst (i, j)). now apply in_map. Qed.
  Lemma pair_snd : forall s (i j : Z), In (i, j) s -> In j (map snd s).
  Proof. intros s i j H. change j with (snd (i, j)). now apply in_map. Qed.
  Lemma bij_l : forall (s : list (Z * Z)) i j k, NoDup (map fst s) -> In (i, j) s -> In (i, k) s -> j = k.
  Proof.
    induction s as [|[a b] s IH]; intros i j k N A B; [destruct A|]. cbn in N. apply NoDup_cons_iff in N. destruct N as [N1 N2].
    destruct A as [A|A], B as [B|B].
    - congruence.
    - injection A as -> ->. exfalso. apply N1. now apply pair_fst with k.
    - injection B as -> ->. exfalso. apply N1. now apply pair_fst with j.
    - now apply IH with i.
  Qed.
  Lemma bij_r : forall (s : list (Z * Z)) i j k, NoDup (map snd s) -> In (i, j) s -> In (k, j) s -> i = k.
  Proof.
    induction s as [|[a b] s IH]; intros i j k N A B; [destruct A|]. cbn in N. apply NoDup_cons_iff in N. destruct N as [N1 N2].
    destruct A as [A|A], B as [B|B].
    - congruence.
    - injection A as -> ->. exfalso. apply N1. now apply pair_snd with k.
    - injection B as -> ->. exfalso. apply N1. now apply pair_snd with i.
    - now apply IH with j.
  Qed.
  Lemma rel_rd : forall s f g i j, rel s f g -> In (i, j) s -> exists n m, rd (nodes f) i = Ok n /\ rd (nodes g) j = Ok m /\ alike s n m /\ good s f i n /\ 0 <= i /\ 0 <= j.
  Proof.
    intros s f g i j R I. destruct R as [_ [_ [R _]]]. destruct (R i j I) as [n [m [A [B [C D]]]]]. exists n, m. pose proof (rd_bounds _ _ _ _ A). pose proof (rd_bounds _ _ _ _ B). do 4 (split; [assumption|]). lia.
  Qed.
  (** Comparisons of pointers agree. *)
  Lemma ptr_eqb : forall s f g i j k l, rel s f g -> ptr s i j -> ptr s k l -> (i =? k) = (j =? l).
  Proof.
    intros s f g i j k l R [[-> ->]|A] [[-> ->]|B]; [reflexivity| | |].
    - destruct (rel_rd _ _ _ _ _ R B) as [n [m [_ [_ [_ [_ [H1 H2]]]]]]]. destruct (Z.eqb_spec (-1) k), (Z.eqb_spec (-1) l); lia.
    - destruct (rel_rd _ _ _ _ _ R A) as [n [m [_ [_ [_ [_ [H1 H2]]]]]]]. destruct (Z.eqb_spec i (-1)), (Z.eqb_spec j (-1)); lia.
    - destruct R as [N1 [N2 _]]. destruct (Z.eqb_spec i k) as [->|D], (Z.eqb_spec j l) as [->|D']; try reflexivity.
      + exfalso. apply D'. now apply bij_l with s k.
      + exfalso. apply D. now apply bij_r with s l.
  Qed.
  Lemma ptr_neg : forall s f g i j, rel s f g -> ptr s i j -> (0 <=? i) = (0 <=? j).
  Proof.
    intros s f g i j R [[-> ->]|A]; [reflexivity|]. destruct (rel_rd _ _ _ _ _ R A) as [n [m [_ [_ [_ [_ [H1 H2]]]]]]].
    destruct (Z.leb_spec 0 i), (Z.leb_spec 0 j); lia.
  Qed.
  Lemma leaf_alike : forall s n m, alike s n m -> is_leaf O n = is_leaf O m.
  Proof. intros s n m [H _]. unfold is_leaf. now rewrite H. Qed.
  Lemma not_free : forall t, nle O (n_ 0) t = true -> nlt O t (n_ 0) = false.
  Proof.
    intros t H. apply (l_le _ _ _ _ _ _ L) in H. destruct H as [A [B C]]. destruct (nlt O t (n_ 0)) eqn:E; [|reflexivity].
    apply (l_lt _ _ _ _ _ _ L) in E. destruct E as [_ [_ E]]. exfalso. apply (RIneq.Rlt_irrefl (key t)). eapply RIneq.Rlt_le_trans; eauto.
  Qed.
  Lemma rel_free : forall s f g i n, rel s f g -> rd (nodes f) i = Ok n -> (available O n = true <-> ~ In i (map fst s)).
  Proof.
    intros s f g i n R H. split.
    - intros A I. apply in_map_iff in I. destruct I as [[a b] [Ea I]]. cbn in Ea. subst a. destruct (rel_rd _ _ _ _ _ R I) as [n' [m [X [_ [_ [G _]]]]]]. rewrite H in X. injection X as <-.
      destruct G as [G _]. unfold available in A. rewrite (not_free _ G) in A. discriminate.
    - intros I. destruct R as [_ [_ [_ [_ [_ [R _]]]]]]. now rewrite (R i n H I).
  Qed.
  Lemma rel_size : forall s f g, rel s f g -> Z.of_nat (length s) < mn -> exists i n, rd (nodes f) i = Ok n /\ available O n = true.
  Proof.
    intros s f g R H. pose proof R as [N1 [_ [R1 [_ [R2 _]]]]].
    destruct (existsb (fun i => if in_dec Z.eq_dec i (map fst s) then false else true) (map Z.of_nat (seq 0 (length (nodes f))))) eqn:E.
    - apply existsb_exists in E. destruct E as [i [I1 I2]]. destruct (in_dec Z.eq_dec i (map fst s)) as [|N]; [discriminate|]. apply in_map_iff in I1. destruct I1 as [k [<- I1]]. apply in_seq in I1.
      destruct (rd_in_bounds _ (nodes f) (Z.of_nat k)) as [n Hn]; [lia|]. exists (Z.of_nat k), n. split; [exact Hn|]. now apply (rel_free s f g (Z.of_nat k) n R Hn).
    - exfalso. assert (I : incl (map Z.of_nat (seq 0 (length (nodes f)))) (map fst s)).
      { intros i Hi. destruct (in_dec Z.eq_dec i (map fst s)) as [|N]; [assumption|]. exfalso. apply not_true_iff_false in E. apply E. apply existsb_exists. exists i. split; [exact Hi|].
        destruct (in_dec Z.eq_dec i (map fst s)); [contradiction|reflexivity]. }
      assert (ND : NoDup (map Z.of_nat (seq 0 (length (nodes f))))) by (apply FinFun.Injective_map_NoDup; [intros a b; apply Nat2Z.inj|apply seq_NoDup]).
      pose proof (NoDup_incl_length ND I) as LE. rewrite !map_length, seq_length in LE. lia.
  Qed.

  (** Reading. *)
  Lemma distances_same : forall s n m x, alike s n m -> distances O fc n x = distances O fc m x.
  Proof. intros s n m x [_ [_ [A [B _]]]]. unfold distances. now rewrite A, B. Qed.
  Lemma joined_same : forall s n m x, alike s n m -> joined_box O fc n x = joined_box O fc m x.
  Proof. intros s n m x [_ [_ [A [B _]]]]. unfold joined_box. now rewrite A, B. Qed.
  Lemma time_same : forall s f g n m, rel s f g -> alike s n m -> (parent O n = -1 \/ True) -> parent_time O f n = parent_time O g m.
  Proof.
    intros s f g n m R [_ [_ [_ [_ [_ [_ [P _]]]]]]] _. unfold parent_time. rewrite (ptr_neg _ _ _ _ _ R P). destruct (0 <=? parent O m) eqn:E; [|reflexivity].
    destruct P as [[_ P]|P]; [rewrite P in E; discriminate|]. destruct (rel_rd _ _ _ _ _ R P) as [np [mp [A [B [C _]]]]]. rewrite A, B. cbn [bind]. f_equal. apply C.
  Qed.
  Lemma time_ok : forall s f g i j n pt, rel s f g -> In (i, j) s -> rd (nodes f) i = Ok n -> parent_time O f n = Ok pt -> nle O (n_ 0) pt = true.
  Proof.
    intros s f g i j n pt R I Hn H. destruct (rel_rd _ _ _ _ _ R I) as [n' [m [A [_ [_ [G _]]]]]]. rewrite Hn in A. injection A as <-. unfold parent_time in H.
    destruct (0 <=? parent O n) eqn:E.
    - inv H. injection H as <-. destruct G as [_ [_ [_ [_ [_ [G|[np [G1 _]]]]]]]]; [rewrite G in E; discriminate|]. apply in_map_iff in G1. destruct G1 as [[a b] [Ea G1]]. cbn in Ea. subst a.
      destruct (rel_rd _ _ _ _ _ R G1) as [q [mq [A [_ [_ [G2 _]]]]]]. rewrite E0 in A. injection A as <-. apply G2.
    - injection H as <-. apply (l_le _ _ _ _ _ _ L). destruct (l_0 _ _ _ _ _ _ L) as [Z1 Z2]. repeat split; auto. apply RIneq.Rle_refl.
  Qed.
  Lemma rel_draw : forall s f g, rel s f g -> rel s (mkForest O (nodes f) (roots f) (S (drawn O f))) (mkForest O (nodes g) (roots g) (S (drawn O g))).
  Proof. intros s f g R. unfold rel, good in *. cbn [Mondrian_Model.nodes Mondrian_Model.roots drawn]. rewrite (proj2 (proj2 (proj2 (proj2 (proj2 (proj2 (proj2 R))))))). tauto. Qed.

  (** Replacing the content of a pair. *)
  Lemma rel_put : forall s f g i j n m n' m', rel s f g -> In (i, j) s -> rd (nodes f) i = Ok n -> rd (nodes g) j = Ok m ->
    alike s n' m' -> good s f i n' -> is_leaf O n' = is_leaf O n -> rel s (put f i n') (put g j m').
  Proof.
    intros s f g i j n m n' m' R I Hn Hm A G Lf. pose proof R as [N1 [N2 [R3 [R4 [R5 [R6 [R7 R8]]]]]]]. pose proof (rd_bounds _ _ _ _ Hn) as Bi. pose proof (rd_bounds _ _ _ _ Hm) as Bj.
    assert (Good : forall a q, good s f a q -> good s (put f i n') a q).
    { intros a q [G1 [G2 [G3 [G4 [G5 G6]]]]]. repeat split; auto. destruct G6 as [G6|[np [G6 [G7 G8]]]]; [now left|]. right. rewrite put_rd by lia.
      destruct (Z.eqb_spec i (parent O q)) as [Ei|D]; [|exists np; auto]. exists n'. split; [exact G6|]. split; [reflexivity|]. rewrite <- Ei, Hn in G7. injection G7 as <-. now rewrite Lf. }
    split; [exact N1|]. split; [exact N2|]. split; [|split; [|split; [|split; [|split]]]].
    - intros a b Iab. destruct (rel_rd _ _ _ _ _ R Iab) as [q [r [Q1 [Q2 [Q3 [Q4 _]]]]]]. rewrite !put_rd by lia.
      destruct (Z.eqb_spec i a) as [->|Da].
      + assert (j = b) by (now apply bij_l with s a). subst b. rewrite Z.eqb_refl. exists n', m'. split; [reflexivity|]. split; [reflexivity|]. split; [exact A|now apply Good].
      + destruct (Z.eqb_spec j b) as [->|Db]; [exfalso; apply Da; now apply bij_r with s b|]. exists q, r. split; [exact Q1|]. split; [exact Q2|]. split; [exact Q3|]. now apply Good.
    - now rewrite put_length.
    - now rewrite put_length.
    - intros a q Hq Na. rewrite put_rd in Hq by lia. destruct (Z.eqb_spec i a) as [->|Da]; [exfalso; apply Na; now apply pair_fst with j|]. now apply R6 with a.
    - exact R7.
    - exact R8.
  Qed.

  (** Counters of internal nodes do not matter. *)
  Definition recounted (g g' : forest) : Prop :=
    roots g' = roots g /\ drawn O g' = drawn O g /\ length (nodes g') = length (nodes g) /\
    forall j n, rd (nodes g) j = Ok n -> exists cs, rd (nodes g') j = Ok (set_counters O n cs) /\ (is_leaf O n = true -> cs = counters O n).
  Lemma recounted_refl : forall g, recounted g g.
  Proof. intros g. repeat split; auto. intros j n H. exists (counters O n). split; [|auto]. rewrite H. now destruct n. Qed.
  Lemma recounted_trans : forall f g h, recounted f g -> recounted g h -> recounted f h.
  Proof.
    intros f g h [A1 [A2 [A3 A4]]] [B1 [B2 [B3 B4]]]. repeat split; try congruence. intros j n H. destruct (A4 j n H) as [cs [C1 C2]]. destruct (B4 j _ C1) as [cs' [D1 D2]].
    exists cs'. split; [exact D1|]. intros Lf. rewrite D2 by exact Lf. cbn. now apply C2.
  Qed.
  Lemma rel_recounted_r : forall s f g g', rel s f g -> recounted g g' -> rel s f g'.
  Proof.
    intros s f g g' [N1 [N2 [R3 [R4 [R5 [R6 [R7 R8]]]]]]] [A1 [A2 [A3 A4]]]. split; [exact N1|]. split; [exact N2|]. split; [|rewrite A1, A2, A3; auto 10].
    intros i j I. destruct (R3 i j I) as [n [m [Q1 [Q2 [Q3 Q4]]]]]. destruct (A4 j m Q2) as [cs [C1 C2]]. exists n, (set_counters O m cs). split; [exact Q1|]. split; [exact C1|]. split; [|exact Q4].
    pose proof (leaf_alike _ _ _ Q3) as LL. destruct Q3 as [E1 [E2 [E3 [E4 [E5 [E6 [E7 [E8 E9]]]]]]]]. repeat split; auto. cbn. intros Lf. rewrite C2 by congruence. now apply E9.
  Qed.
  Lemma rel_recounted_l : forall s f f' g, rel s f g -> recounted f f' -> (forall i n, rd (nodes f) i = Ok n -> ~ In i (map fst s) -> rd (nodes f') i = Ok n) -> rel s f' g.
  Proof.
    intros s f f' g R [A1 [A2 [A3 A4]]] Fr. pose proof R as [N1 [N2 [R3 [R4 [R5 [R6 [R7 R8]]]]]]].
    split; [exact N1|]. split; [exact N2|]. split; [|split; [exact R4|split; [congruence|split; [|rewrite A1, A2; auto]]]].
    - intros i j I. destruct (R3 i j I) as [n [m [Q1 [Q2 [Q3 Q4]]]]]. destruct (A4 i n Q1) as [cs [C1 C2]]. exists (set_counters O n cs), m. split; [exact C1|]. split; [exact Q2|]. split.
      + destruct Q3 as [E1 [E2 [E3 [E4 [E5 [E6 [E7 [E8 E9]]]]]]]]. repeat split; auto. cbn. intros Lf. rewrite C2 by exact Lf. now apply E9.
      + destruct Q4 as [G1 [G2 [G3 [G4 [G5 G6]]]]]. repeat split; auto. destruct G6 as [G6|[np [G6 [G7 G8]]]]; [now left|]. right. destruct (A4 _ np G7) as [cp [D1 D2]]. exists (set_counters O np cp). auto.
    - intros i n Hn Ni. destruct (rd_in_bounds _ (nodes f) i) as [q Hq]; [apply rd_bounds in Hn; lia|]. pose proof (Fr i q Hq Ni) as X. rewrite Hn in X. injection X as ->. now apply R6 with i.
  Qed.

  (** Boxes. *)
  Variable x : list (num O).
  Hypothesis Hx : Forall fine x.
  Lemma rd_fine : forall i v, rd x i = Ok v -> fine v.
  Proof. intros i v H. apply rd_ok_iff in H. destruct H as [_ H]. apply nth_error_In in H. rewrite Forall_forall in Hx. now apply Hx. Qed.
  Lemma rdi_fine : forall b i v, fine_box b -> rdi b i = Ok v -> fine v.
  Proof.
    intros b i v F H. unfold rdi in H. inv H. apply rd_ok_iff in E. destruct E as [_ E]. apply nth_error_In in E. unfold fine_box in F. rewrite Forall_forall in F. destruct (F _ E) as [w [-> Fw]]. now injection H as <-.
  Qed.
  Lemma joined_fine : forall n l u, fine_box (bound_lower O n) -> fine_box (bound_upper O n) -> joined_box O fc n x = Ok (l, u) -> fine_box l /\ fine_box u.
  Proof.
    intros n l u Fl Fu H. unfold joined_box in H.
    apply (forZ_inv_post _ (fun _ r => fine_box (fst r) /\ fine_box (snd r)) _ _ _ _ (l, u)) in H; [exact H|split; constructor|].
    intros i [a b] r Hi [F1 F2] E. cbn [fst snd] in *. inv E. inv E. inv E. injection E as <-. cbn [fst snd].
    split; (apply Forall_app; split; [assumption|]; constructor; [|constructor]; eexists; split; [reflexivity|]).
    - destruct (nlt O v v0); [now apply rd_fine with i|now apply rdi_fine with (bound_lower O n) i].
    - destruct (nlt O v1 v); [now apply rd_fine with i|now apply rdi_fine with (bound_upper O n) i].
  Qed.
  Lemma Forall_set : forall A (P : A -> Prop) (l : list A) k v, Forall P l -> P v -> Forall P (upd l k v).
  Proof. intros A P l. induction l as [|y l IH]; intros k v F Hv; destruct k; cbn; auto; inversion F; subst; constructor; auto. Qed.
  Lemma update_inv : forall n n', fine_box (bound_lower O n) -> fine_box (bound_upper O n) -> update_box O fc n x = Ok n' ->
    exists l u, n' = set_box O n l u /\ fine_box l /\ fine_box u /\
      forall m, bound_lower O m = bound_lower O n -> bound_upper O m = bound_upper O n -> update_box O fc m x = Ok (set_box O m l u).
  Proof.
    intros n n' Fl Fu H. unfold update_box in H. apply bind_inv in H. destruct H as [[l u] [E H]]. injection H as <-. exists l, u. split; [reflexivity|].
    assert (F : fine_box l /\ fine_box u).
    { apply (forZ_inv_post _ (fun _ r => fine_box (fst r) /\ fine_box (snd r)) _ _ _ _ (l, u)) in E; [exact E|split; assumption|].
      intros i [a b] r Hi [F1 F2] H. cbn [fst snd] in *. inv H. inv H. inv H. inv H. inv H. injection H as <-. cbn [fst snd].
      apply wr_inv in E2. destruct E2 as [_ ->]. apply wr_inv in E4. destruct E4 as [_ ->].
      split; (apply Forall_set; [assumption|]; eexists; split; [reflexivity|]).
      - destruct (nlt O v v0); [now apply rd_fine with i|now apply rdi_fine with a i].
      - destruct (nlt O v2 v); [now apply rd_fine with i|now apply rdi_fine with b i]. }
    destruct F as [F1 F2]. split; [exact F1|]. split; [exact F2|]. intros m Em Eu. unfold update_box. rewrite Em, Eu, E. reflexivity.
  Qed.

  (** The place of a split. *)
  Lemma split_inv : forall g m probs sum g' d up v, Unbound_Model.choose_split O rnd fc g m x probs sum = Ok (g', (d, (up, v))) ->
    fine_box (bound_lower O m) -> fine_box (bound_upper O m) ->
    g' = mkForest O (nodes g) (roots g) (S (S (drawn O g))) /\ (exists xd, rd x d = Ok xd) /\ cmp v /\
    forall f n, length x = Z.to_nat fc -> drawn O f = drawn O g -> bound_lower O n = bound_lower O m -> bound_upper O n = bound_upper O m ->
      choose_split O rnd fc f n x probs sum = Ok (mkForest O (nodes f) (roots f) (S (S (drawn O f))), (d, (up, v))) /\
      Unbound_Model.choose_split O rnd fc f n x probs sum = Ok (mkForest O (nodes f) (roots f) (S (S (drawn O f))), (d, (up, v))).
  Proof.
    intros g m probs sum g' d up v H Fl Fu. unfold Unbound_Model.choose_split in H. inv H. unfold uniform at 1 in H. inv H. inv H. inv H. inv H. apply bind_inv in H. destruct H as [[lo hi] [E4 H]].
    unfold uniform in H. cbn [Mondrian_Model.nodes Mondrian_Model.roots drawn] in H. injection H as <- <- <- <-. split; [reflexivity|]. split; [eauto|]. split.
    - destruct (nlt O v3 v2) eqn:C1; [|destruct (nlt O v2 v4) eqn:C2; [|discriminate]]; injection E4 as <- <-.
      + apply (l_split _ _ _ _ _ _ L); auto; [now apply rdi_fine with (bound_upper O m) v1|now apply rd_fine with v1].
      + apply (l_split _ _ _ _ _ _ L); auto; [now apply rd_fine with v1|now apply rdi_fine with (bound_lower O m) v1].
    - intros f n Lx Ed El Eu. unfold choose_split, Unbound_Model.choose_split. rewrite E. cbn [bind]. unfold uniform. cbn [Mondrian_Model.nodes Mondrian_Model.roots drawn]. rewrite Ed, E0. cbn [bind].
      pose proof (rd_bounds _ _ _ _ E1) as Bd. rewrite (proj2 (Z.leb_gt fc v1)), (proj2 (Z.ltb_ge v1 0)) by lia. cbn [orb bind]. rewrite El, Eu, E1. cbn [bind]. rewrite E2. cbn [bind]. rewrite E3. cbn [bind]. rewrite E4. cbn [bind]. auto.
  Qed.

  (** Two new nodes [a] (the parent) and [b] above [i]. *)
  Definition inserted (f f' : forest) (i a b p : Z) (n na nb : node) : Prop :=
    forall c, rd (nodes f') c = if c =? b then Ok nb else if c =? a then Ok na else if c =? i then Ok (set_parent O n a)
      else if c =? p then do np <- rd (nodes f) c; Ok (relink O i a np) else rd (nodes f) c.
  Definition sound (n : node) : Prop :=
    nle O (n_ 0) (tau O n) = true /\ fine_box (bound_lower O n) /\ fine_box (bound_upper O n) /\ (is_leaf O n = false -> exists v, split_value O n = Some v /\ cmp v).
  Lemma ptr_more : forall s s' i j, incl s s' -> ptr s i j -> ptr s' i j.
  Proof. intros s s' i j I [H|H]; [now left|right; auto]. Qed.
  Lemma alike_more : forall s s' n m, incl s s' -> alike s n m -> alike s' n m.
  Proof. intros s s' n m I [A1 [A2 [A3 [A4 [A5 [A6 [A7 [A8 A9]]]]]]]]. repeat split; auto; now apply ptr_more with s. Qed.
  Lemma relink_leaf : forall i a n, is_leaf O (relink O i a n) = is_leaf O n.
  Proof. intros i a n. unfold relink. destruct (i =? a); [reflexivity|]. destruct (child_left O n =? i); reflexivity. Qed.
  Lemma rel_insert : forall s f g i j n m a b na nb ma mb f' g',
    rel s f g -> In (i, j) s -> rd (nodes f) i = Ok n -> rd (nodes g) j = Ok m ->
    0 <= a -> 0 <= b -> ~ In a (map fst s) -> ~ In b (map fst s) -> a <> b ->
    let a' := Z.of_nat (length (nodes g)) in let b' := a' + 1 in let s' := (a, a') :: (b, b') :: s in
    inserted f f' i a b (parent O n) n na nb -> inserted g g' j a' b' (parent O m) m ma mb ->
    length (nodes g') = (length (nodes g) + 2)%nat -> length (nodes f') = length (nodes f) ->
    alike s' na ma -> alike s' nb mb -> sound na -> sound nb -> parent O na = parent O n -> parent O nb = a -> is_leaf O na = false ->
    Forall2 (ptr s') (roots f') (roots g') -> drawn O f' = drawn O g' -> rel s' f' g'.
  Proof.
    intros s f g i j n m a b na nb ma mb f' g' R I Hn Hm Ha Hb Na Nb Nab a' b' s' If Ig Lg Lf Aa Ab Sa Sb Pa Pb Lfa Rr Dd.
    pose proof R as [N1 [N2 [R3 [R4 [R5 [R6 [R7 R8]]]]]]].
    destruct (R3 i j I) as [n0 [m0 [X1 [X2 [Anm Gn]]]]]. rewrite Hn in X1. injection X1 as <-. rewrite Hm in X2. injection X2 as <-.
    assert (Inc : incl s s') by (intros c Hc; right; right; exact Hc).
    assert (Bs : forall c c', In (c, c') s -> c <> a /\ c <> b /\ c' <> a' /\ c' <> b' /\ 0 <= c /\ 0 <= c').
    { intros c c' Hc. destruct (R3 c c' Hc) as [q [r [Q1 [Q2 _]]]]. apply rd_bounds in Q1, Q2. split; [intros ->; apply Na; now apply pair_fst with c'|]. split; [intros ->; apply Nb; now apply pair_fst with c'|].
      unfold b', a'. lia. }
    assert (Pp : parent O n = -1 /\ parent O m = -1 \/ In (parent O n, parent O m) s) by apply Anm.
    assert (Old : forall c q, In c (map fst s) -> rd (nodes f) c = Ok q -> exists q', rd (nodes f') c = Ok q' /\ is_leaf O q' = is_leaf O q).
    { intros c q Hc Hq. apply in_map_iff in Hc. destruct Hc as [[c0 c'] [Ec Hc]]. cbn in Ec. subst c0. destruct (Bs _ _ Hc) as [B1 [B2 _]]. rewrite If.
      rewrite (proj2 (Z.eqb_neq c b)), (proj2 (Z.eqb_neq c a)) by assumption. destruct (Z.eqb_spec c i) as [->|Ci].
      - rewrite Hn in Hq. injection Hq as <-. eauto.
      - destruct (Z.eqb_spec c (parent O n)); [|eauto]. rewrite Hq. cbn [bind]. eexists. split; [reflexivity|]. apply relink_leaf. }
    assert (Fst : forall c, In c (map fst s) -> In c (map fst s')) by (intros c Hc; right; right; exact Hc).
    destruct Gn as [G1 [G2 [G3 [G4 [G5 G6]]]]].
    assert (Up : forall q, q = -1 \/ (exists np, In q (map fst s) /\ rd (nodes f) q = Ok np /\ is_leaf O np = false) -> q = -1 \/ exists np, In q (map fst s') /\ rd (nodes f') q = Ok np /\ is_leaf O np = false).
    { intros q [Hq|[np [H1 [H2 H3]]]]; [now left|]. right. destruct (Old q np H1 H2) as [q' [Q1 Q2]]. exists q'. split; [now apply Fst|]. split; [exact Q1|congruence]. }
    assert (Hfa : rd (nodes f') a = Ok na) by (rewrite If, (proj2 (Z.eqb_neq a b)), Z.eqb_refl by assumption; reflexivity).
    split; [|split; [|split; [|split; [|split; [|split; [|split]]]]]].
    - cbn. constructor; [|constructor; assumption]. intros [X|X]; [congruence|contradiction].
    - cbn. assert (S1 : ~ In a' (map snd s)) by (intros X; apply in_map_iff in X; destruct X as [[c c'] [Ec X]]; cbn in Ec; subst c'; now apply Bs in X).
      assert (S2 : ~ In b' (map snd s)) by (intros X; apply in_map_iff in X; destruct X as [[c c'] [Ec X]]; cbn in Ec; subst c'; now apply Bs in X).
      constructor; [|constructor; assumption]. intros [X|X]; [unfold b' in X; lia|contradiction].
    - intros c c' [Hc|[Hc|Hc]].
      + injection Hc as <- <-. exists na, ma. split; [exact Hfa|]. split; [rewrite Ig, (proj2 (Z.eqb_neq a' b')), Z.eqb_refl by (unfold b'; lia); reflexivity|]. split; [exact Aa|].
        destruct Sa as [S1 [S2 [S3 S4]]]. repeat split; auto.
        * rewrite Pa. intros X. destruct Pp as [[X1 _]|X1]; [lia|]. apply Bs in X1. tauto.
        * rewrite Pa. now apply Up.
      + injection Hc as <- <-. exists nb, mb. split; [rewrite If, Z.eqb_refl; reflexivity|]. split; [rewrite Ig, Z.eqb_refl; reflexivity|]. split; [exact Ab|].
        destruct Sb as [S1 [S2 [S3 S4]]]. repeat split; auto; [congruence|]. right. exists na. rewrite Pb. split; [now left|]. split; [exact Hfa|exact Lfa].
      + destruct (R3 c c' Hc) as [q [r [Q1 [Q2 [Q3 Q4]]]]]. destruct (Bs _ _ Hc) as [B1 [B2 [B3 [B4 [B5 B6]]]]].
        rewrite If, Ig. rewrite (proj2 (Z.eqb_neq c b)), (proj2 (Z.eqb_neq c a)), (proj2 (Z.eqb_neq c' b')), (proj2 (Z.eqb_neq c' a')) by assumption.
        rewrite (ptr_eqb s f g c c' i j R (or_intror Hc) (or_intror I)). destruct (Z.eqb_spec c' j) as [Ej|Dj].
        * exists (set_parent O n a), (set_parent O m a'). split; [reflexivity|]. split; [reflexivity|]. assert (c = i) by (apply bij_r with s j; congruence). subst c.
          split; [destruct (alike_more _ _ _ _ Inc Anm) as [A1 [A2 [A3 [A4 [A5 [A6 [A7 [A8 A9]]]]]]]]; repeat split; auto; right; left; reflexivity|].
          repeat split; auto. right. exists na. split; [now left|]. split; [exact Hfa|exact Lfa].
        * rewrite (ptr_eqb s f g c c' (parent O n) (parent O m) R (or_intror Hc)) by (destruct Pp; [left|right]; assumption).
          destruct Q4 as [E1 [E2 [E3 [E4 [E5 E6]]]]]. destruct (Z.eqb_spec c' (parent O m)) as [Ep|Dp].
          -- rewrite Q1, Q2. cbn [bind]. exists (relink O i a q), (relink O j a' r). split; [reflexivity|]. split; [reflexivity|].
             assert (Nia : i <> a) by (apply Bs in I; tauto). assert (Nja : j <> a') by (apply Bs in I; tauto).
             pose proof (alike_more _ _ _ _ Inc Q3) as [A1 [A2 [A3 [A4 [A5 [A6 [A7 [A8 A9]]]]]]]].
             unfold relink. rewrite (proj2 (Z.eqb_neq i a)), (proj2 (Z.eqb_neq j a')) by assumption.
             rewrite (ptr_eqb s f g (child_left O q) (child_left O r) i j R) by (try apply Q3; right; exact I).
             split.
             ++ destruct (child_left O r =? j); repeat split; auto; right; left; reflexivity.
             ++ destruct (child_left O r =? j); (repeat split; auto; cbn; now apply Up).
          -- exists q, r. split; [exact Q1|]. split; [exact Q2|]. split; [now apply alike_more with s|]. repeat split; auto.
    - cbn. rewrite Lg, R4. lia.
    - now rewrite Lf.
    - intros c q Hq Nc. cbn in Nc. rewrite If in Hq. destruct (Z.eqb_spec c b) as [->|Cb]; [exfalso; apply Nc; auto|]. destruct (Z.eqb_spec c a) as [->|Ca]; [exfalso; apply Nc; auto|].
      destruct (Z.eqb_spec c i) as [->|Ci]; [exfalso; apply Nc; right; right; now apply pair_fst with j|].
      destruct (Z.eqb_spec c (parent O n)) as [->|Cp]; [|apply R6 with c; [exact Hq|tauto]].
      exfalso. destruct Pp as [[X _]|X]; [rewrite X, rd_oob in Hq by lia; discriminate|]. apply Nc. right. right. now apply pair_fst with (parent O m).
    - exact Rr.
    - exact Dd.
  Qed.
End Same.
