(** * Proofs for the Mondrian forest: training *)
From Coq Require Import ZArith List Bool Lia Reals Lra Permutation.
From Verif Require Import CppBase CppFacts NumOps Utils_Model Utils_Proofs Mondrian_Model Mondrian_Spec.
Import ListNotations.
Local Open Scope Z_scope.

(** ** Lists indexed by integers *)
Definition zrange (n : Z) : list Z := map Z.of_nat (seq 0 (Z.to_nat n)).
Lemma zrange_length : forall n, length (zrange n) = Z.to_nat n.
Proof. intros. unfold zrange. now rewrite map_length, seq_length. Qed.
Lemma rd_zrange : forall A (g : Z -> A) n d, 0 <= d < n -> rd (map g (zrange n)) d = Ok (g d).
Proof.
  intros A g n d H. apply rd_ok_iff. split; [lia|]. unfold zrange. rewrite map_map.
  rewrite nth_error_map, (nth_error_nth' _ 0%nat) by (rewrite seq_length; lia). cbn [option_map].
  rewrite seq_nth by lia. f_equal. f_equal. lia.
Qed.
Lemma zrange_snoc : forall i, 0 <= i -> zrange (i + 1) = zrange i ++ [i].
Proof.
  intros i H. unfold zrange. replace (Z.to_nat (i + 1)) with (S (Z.to_nat i)) by lia.
  rewrite seq_S, map_app. cbn [map Nat.add]. now rewrite Z2Nat.id.
Qed.
Lemma build2 : forall A B n (body : Z -> list A * list B -> res (list A * list B)) g h,
  (forall i l u, 0 <= i < n -> body i (l, u) = Ok (l ++ [g i], u ++ [h i])) -> 0 <= n ->
  forZ (Z.to_nat n) 0 body ([], []) = Ok (map g (zrange n), map h (zrange n)).
Proof.
  intros A B n body g h Hb Hn.
  destruct (forZ_inv _ (fun i s => s = (map g (zrange i), map h (zrange i))) body (Z.to_nat n) 0 ([], [])) as [s [E1 E2]].
  - reflexivity.
  - intros j s Hj ->. rewrite Hb by lia. eexists. split; [reflexivity|]. rewrite zrange_snoc by lia. now rewrite !map_app.
  - rewrite E1, E2. now rewrite Z.add_0_l, Z2Nat.id by lia.
Qed.
Lemma build_sum : forall A n (add : A -> A -> A) z (body : Z -> list A * A -> res (list A * A)) g,
  (forall i l s, 0 <= i < n -> body i (l, s) = Ok (l ++ [g i], add s (g i))) -> 0 <= n ->
  forZ (Z.to_nat n) 0 body ([], z) = Ok (map g (zrange n), fold_left add (map g (zrange n)) z).
Proof.
  intros A n add z body g Hb Hn.
  destruct (forZ_inv _ (fun i s => s = (map g (zrange i), fold_left add (map g (zrange i)) z)) body (Z.to_nat n) 0 ([], z)) as [s [E1 E2]].
  - reflexivity.
  - intros j s Hj ->. rewrite Hb by lia. eexists. split; [reflexivity|]. rewrite zrange_snoc by lia. now rewrite !map_app, fold_left_app.
  - rewrite E1, E2. now rewrite Z.add_0_l, Z2Nat.id by lia.
Qed.
Lemma fill2 : forall A n (body : Z -> list A * list A -> res (list A * list A)) g h l u,
  length l = Z.to_nat n -> length u = Z.to_nat n ->
  (forall i l' u', 0 <= i < n -> length l' = Z.to_nat n -> length u' = Z.to_nat n -> rd l' i = rd l i -> rd u' i = rd u i ->
     body i (l', u') = Ok (upd l' (Z.to_nat i) (g i), upd u' (Z.to_nat i) (h i))) -> 0 <= n ->
  exists l' u', forZ (Z.to_nat n) 0 body (l, u) = Ok (l', u') /\ length l' = Z.to_nat n /\ length u' = Z.to_nat n /\
    forall d, 0 <= d < n -> rd l' d = Ok (g d) /\ rd u' d = Ok (h d).
Proof.
  intros A n body g h l u Ll Lu Hb Hn.
  destruct (forZ_inv _ (fun i s => length (fst s) = Z.to_nat n /\ length (snd s) = Z.to_nat n /\
      (forall d, 0 <= d < i -> rd (fst s) d = Ok (g d) /\ rd (snd s) d = Ok (h d)) /\
      (forall d, i <= d -> rd (fst s) d = rd l d /\ rd (snd s) d = rd u d)) body (Z.to_nat n) 0 (l, u))
    as [[l' u'] [E [E1 [E2 [E3 _]]]]].
  - cbn. split; [exact Ll|]. split; [exact Lu|]. split; [lia|]. auto.
  - intros j [l' u'] Hj [H1 [H2 [H3 H4]]]. cbn [fst snd] in *. destruct (H4 j) as [A1 A2]; [lia|].
    rewrite Hb by (auto; lia). eexists. split; [reflexivity|]. cbn [fst snd]. rewrite !upd_length. split; [exact H1|]. split; [exact H2|].
    split; intros d Hd; rewrite !rd_upd by lia.
    + destruct (Z.eqb_spec j d) as [->|N]; [auto|]. apply H3. lia.
    + destruct (Z.eqb_spec j d); [lia|]. apply H4. lia.
  - exists l', u'. split; [exact E|]. split; [exact E1|]. split; [exact E2|]. intros d Hd. apply E3. lia.
Qed.

Lemma rd_repeat : forall A (y : A) n i, 0 <= i < Z.of_nat n -> rd (repeat y n) i = Ok y.
Proof.
  intros A y n i H. apply rd_ok_iff. split; [lia|]. rewrite (nth_error_nth' _ y) by (rewrite repeat_length; lia).
  f_equal. apply nth_repeat.
Qed.
Lemma nodup_app : forall A (a b : list A), NoDup (a ++ b) -> NoDup a /\ NoDup b /\ forall j, In j a -> In j b -> False.
Proof.
  induction a as [|y a IH]; intros b H; cbn in H; [repeat split; [constructor|exact H|intros j []]|].
  apply NoDup_cons_iff in H. destruct H as [H1 H2]. destruct (IH b H2) as [A1 [A2 A3]]. split; [|split; [exact A2|]].
  - constructor; [|exact A1]. intros I. apply H1, in_or_app. now left.
  - intros j [<-|Hj] Hb; [apply H1, in_or_app; now right|now apply (A3 j)].
Qed.

(** ** What is needed of the numbers *)
Record laws (O : ops) (key : num O -> R) (cmp fine draw : num O -> Prop) (fc : Z) : Prop := {
  l_lt : forall x y, nlt O x y = true <-> cmp x /\ cmp y /\ (key x < key y)%R;
  l_le : forall x y, nle O x y = true <-> cmp x /\ cmp y /\ (key x <= key y)%R;
  l_eq : forall x y, neq O x y = true <-> cmp x /\ cmp y /\ key x = key y;
  l_0 : cmp (nofZ O 0) /\ key (nofZ O 0) = 0%R;
  l_m1 : cmp (nofZ O (-1)) /\ key (nofZ O (-1)) = (-1)%R;
  l_add : forall p e t, nle O (nofZ O 0) e = true -> nlt O (nadd O p e) t = true -> nle O p (nadd O p e) = true;
  l_fine : forall x, fine x -> cmp x;
  l_split : forall u lo hi, draw u -> fine lo -> fine hi -> nlt O lo hi = true -> cmp (nadd O (nmul O u (nsub O hi lo)) lo);
  l_int : forall u, draw u -> exists d, n2int O (nmul O u (nofZ O fc)) = Ok d /\ 0 <= d < fc }.

(** The distance of a value to an interval, as computed by the code. *)
Definition dist O (lo hi x : num O) : num O :=
  nadd O (if nlt O (nofZ O 0) (nsub O lo x) then nsub O lo x else nofZ O 0)
         (if nlt O (nofZ O 0) (nsub O x hi) then nsub O x hi else nofZ O 0).
(** The dimension picked is always one in which the point is outside of the box; if none is picked, all are. *)
Definition sure_pick O (draw : num O -> Prop) (fc : Z) : Prop :=
  forall (lo hi x : Z -> num O) u, draw u ->
    let w := map (fun d => dist O (lo d) (hi d) (x d)) (zrange fc) in
    let sum := fold_left (nadd O) w (nofZ O 0) in
    neq O sum (nofZ O 0) = false ->
    exists p i, turn_array_into_probability O w fc sum = Ok p /\ pick_from_distribution O u p fc = Ok i /\
      forall d, 0 <= d < fc -> (0 <= i < fc -> d = i) -> (nlt O (hi d) (x d) = true \/ nlt O (x d) (lo d) = true).

(** ** The pool *)
Section Pool.
  Variable O : ops.
  Local Notation forest := (forest O).
  Definition put (f : forest) (i : Z) (n : node O) : forest := mkForest O (upd (nodes O f) (Z.to_nat i) n) (roots O f) (drawn O f).
  Lemma rd_put : forall f i m n j, rd (nodes O f) i = Ok m -> rd (nodes O (put f i n)) j = if i =? j then Ok n else rd (nodes O f) j.
  Proof.
    intros f i m n j H. apply rd_bounds in H. unfold put. cbn [nodes].
    destruct (Z.ltb_spec j 0) as [L|L].
    - rewrite !(rd_oob _ _ j) by lia. destruct (Z.eqb_spec i j); [lia|reflexivity].
    - now apply rd_upd.
  Qed.
  Lemma with_node_ok : forall f i n n' g, rd (nodes O f) i = Ok n -> g n = Ok n' -> with_node O f i g = Ok (put f i n').
  Proof.
    intros f i n n' g H G. unfold with_node. rewrite H. cbn [bind]. rewrite G. cbn [bind].
    apply rd_bounds in H. rewrite wr_ok by lia. reflexivity.
  Qed.
  Lemma put_length : forall f i n, length (nodes O (put f i n)) = length (nodes O f).
  Proof. intros. unfold put. cbn [nodes]. apply upd_length. Qed.

  Variable mn : Z.
  Lemma available_node_ok : forall f, Z.of_nat (length (nodes O f)) = mn ->
    exists a, available_node O mn f = Ok a /\
      ((a = -1 /\ forall i, ~ is_free O f i) \/ (0 <= a < mn /\ is_free O f a)).
  Proof.
    intros f L. unfold available_node.
    set (body := fun i => do n <- rd (nodes O f) i; Ok (if available O n then Some i else None)).
    destruct (findZ_total _ body (Z.to_nat mn) 0) as [[E H]|[k [r [Hk [Hb [_ E]]]]]].
    - intros j Hj. destruct (rd_in_bounds _ (nodes O f) j) as [n Hn]; [lia|]. unfold body. rewrite Hn. cbn [bind]. eauto.
    - rewrite E. cbn [bind]. exists (-1). split; [reflexivity|]. left. split; [reflexivity|].
      intros i [n [Hn A]]. pose proof (rd_bounds _ _ _ _ Hn) as Hi. specialize (H i ltac:(lia)). unfold body in H. rewrite Hn in H.
      cbn [bind] in H. rewrite A in H. discriminate.
    - rewrite E. cbn [bind]. exists r. split; [reflexivity|]. right.
      unfold body in Hb. destruct (rd_in_bounds _ (nodes O f) k) as [n Hn]; [lia|]. rewrite Hn in Hb. cbn [bind] in Hb.
      destruct (available O n) eqn:A; [|discriminate]. injection Hb as <-. split; [lia|]. exists n. auto.
  Qed.

  (** Free nodes are as the constructor left them. *)
  Variable fc lc : Z.
  Definition blank (f : forest) : Prop := forall i n, rd (nodes O f) i = Ok n -> available O n = true -> n = empty_node O fc lc.
  (** [b] replaces [a] as a child. *)
  Definition relink (a b : Z) (n : node O) : node O :=
    if a =? b then n else
    if child_left O n =? a then set_children O n b (child_right O n) else set_children O n (child_left O n) b.
End Pool.

Section Grow.
  Variable O : ops.
  Variable fine draw : num O -> Prop.
  Variable pt : point O.
  (** How a training point may change a tree. *)
  Inductive grows : mtree O -> mtree O -> Prop :=
  | grow_leaf : forall i pts, grows (Leaf i pts) (Leaf i (pts ++ [pt]))
  | grow_left : forall i d v l l' r, nle O (coord O pt d) v = true -> grows l l' -> grows (Fork i d v l r) (Fork i d v l' r)
  | grow_right : forall i d v l r r', nlt O v (coord O pt d) = true -> grows r r' -> grows (Fork i d v l r) (Fork i d v l r')
  | grow_above_right : forall a b d u lo t, draw u -> fine lo -> fine (coord O pt d) -> nlt O lo (coord O pt d) = true ->
      (forall q, In q (points O t) -> nle O (coord O q d) lo = true) ->
      grows t (Fork a d (nadd O (nmul O u (nsub O (coord O pt d) lo)) lo) t (Leaf b [pt]))
  | grow_above_left : forall a b d u hi t, draw u -> fine hi -> fine (coord O pt d) -> nlt O (coord O pt d) hi = true ->
      (forall q, In q (points O t) -> nle O hi (coord O q d) = true) ->
      grows t (Fork a d (nadd O (nmul O u (nsub O hi (coord O pt d))) (coord O pt d)) (Leaf b [pt]) t).
  Lemma grows_points : forall t t', grows t t' -> Permutation (points O t') (pt :: points O t).
  Proof.
    intros t t' G. induction G; cbn [points].
    - apply Permutation_sym, Permutation_cons_append.
    - rewrite IHG. reflexivity.
    - rewrite IHG. apply Permutation_sym, Permutation_middle.
    - apply Permutation_sym, Permutation_cons_append.
    - reflexivity.
  Qed.
End Grow.
