(** * CppFacts: lemmas about the vocabulary of CppBase *)
From Coq Require Import ZArith List Bool Lia.
From Verif Require Import CppBase.
Import ListNotations.
Local Open Scope Z_scope.

Lemma bind_ok : forall A B (a : A) (k : A -> res B), bind (Ok a) k = k a.
Proof. reflexivity. Qed.

Lemma bind_inv : forall A B (m : res A) (k : A -> res B) b,
  bind m k = Ok b -> exists a, m = Ok a /\ k a = Ok b.
Proof. intros A B m k b H. destruct m; cbn in H; try discriminate. eauto. Qed.

Lemma bind_assoc : forall A B C (m : res A) (f : A -> res B) (g : B -> res C),
  bind (bind m f) g = bind m (fun x => bind (f x) g).
Proof. intros. destruct m; reflexivity. Qed.

Ltac inv_bind H :=
  let a := fresh "v" in let E := fresh "E" in
  apply bind_inv in H; destruct H as [a [E H]].

Lemma upd_length : forall A (l : list A) n v, length (upd l n v) = length l.
Proof. induction l as [|x l IH]; intros [|n] v; cbn; auto. Qed.

Lemma nth_error_upd_same : forall A (l : list A) n v,
  (n < length l)%nat -> nth_error (upd l n v) n = Some v.
Proof.
  induction l as [|x l IH]; intros [|n] v H; cbn in *; try lia; auto.
  apply IH. lia.
Qed.

Lemma nth_error_upd_other : forall A (l : list A) n m v,
  n <> m -> nth_error (upd l n v) m = nth_error l m.
Proof.
  induction l as [|x l IH]; intros [|n] [|m] v H; cbn in *; try lia; auto.
Qed.

Lemma nth_error_upd : forall A (l : list A) n m v,
  nth_error (upd l n v) m =
  if Nat.eqb n m then (if Nat.ltb n (length l) then Some v else None) else nth_error l m.
Proof.
  intros. destruct (Nat.eqb_spec n m).
  - subst. destruct (Nat.ltb_spec m (length l)).
    + now apply nth_error_upd_same.
    + apply nth_error_None. rewrite upd_length. lia.
  - now apply nth_error_upd_other.
Qed.

Lemma upd_same_id : forall A (l : list A) n v, nth_error l n = Some v -> upd l n v = l.
Proof.
  induction l as [|x l IH]; intros [|n] v H; cbn in *; try discriminate; auto.
  - congruence.
  - f_equal. auto.
Qed.

Lemma upd_comm : forall A (l : list A) n m v w, n <> m ->
  upd (upd l n v) m w = upd (upd l m w) n v.
Proof.
  induction l as [|x l IH]; intros [|n] [|m] v w H; cbn in *; try lia; auto.
  f_equal. apply IH. lia.
Qed.

Lemma upd_upd : forall A (l : list A) n v w, upd (upd l n v) n w = upd l n w.
Proof. induction l as [|x l IH]; intros [|n] v w; cbn; auto. f_equal; auto. Qed.

Lemma upd_app_r : forall A (l1 l2 : list A) n v,
  upd (l1 ++ l2) (length l1 + n) v = l1 ++ upd l2 n v.
Proof. induction l1 as [|x l IH]; intros; cbn; auto. f_equal; auto. Qed.

Lemma upd_app_l : forall A (l1 l2 : list A) n v,
  (n < length l1)%nat -> upd (l1 ++ l2) n v = upd l1 n v ++ l2.
Proof.
  induction l1 as [|x l IH]; intros l2 [|n] v H; cbn in *; try lia; auto.
  f_equal. apply IH. lia.
Qed.

Lemma nth_error_ext : forall A (l1 l2 : list A),
  (forall n, nth_error l1 n = nth_error l2 n) -> l1 = l2.
Proof.
  induction l1 as [|x l1 IH]; intros [|y l2] H; auto.
  - specialize (H O). discriminate.
  - specialize (H O). discriminate.
  - f_equal.
    + specialize (H O). cbn in H. congruence.
    + apply IH. intros n. exact (H (S n)).
Qed.

(** Reads and writes. *)
Lemma rd_ok_iff : forall A (l : list A) i a,
  rd l i = Ok a <-> 0 <= i /\ nth_error l (Z.to_nat i) = Some a.
Proof.
  intros. unfold rd. destruct (Z.ltb_spec i 0).
  - split; [discriminate | lia].
  - destruct (nth_error l (Z.to_nat i)); split; intros H0; try discriminate.
    + split; [lia | congruence].
    + destruct H0. congruence.
    + destruct H0. discriminate.
Qed.

Lemma rd_in_bounds : forall A (l : list A) i,
  0 <= i < Z.of_nat (length l) -> exists a, rd l i = Ok a.
Proof.
  intros A l i H. unfold rd. destruct (Z.ltb_spec i 0); [lia|].
  destruct (nth_error l (Z.to_nat i)) eqn:E; eauto.
  apply nth_error_None in E. lia.
Qed.

Lemma rd_bounds : forall A (l : list A) i a, rd l i = Ok a -> 0 <= i < Z.of_nat (length l).
Proof.
  intros A l i a H. apply rd_ok_iff in H. destruct H as [H1 H2].
  assert (nth_error l (Z.to_nat i) <> None) by congruence.
  apply nth_error_Some in H. lia.
Qed.

Lemma rd_oob : forall A (l : list A) i,
  i < 0 \/ Z.of_nat (length l) <= i -> rd l i = Undef OutOfBounds.
Proof.
  intros A l i H. unfold rd. destruct (Z.ltb_spec i 0); auto.
  destruct (nth_error l (Z.to_nat i)) eqn:E; auto.
  assert (nth_error l (Z.to_nat i) <> None) by congruence.
  apply nth_error_Some in H1. lia.
Qed.

Lemma wr_ok : forall A (l : list A) i v,
  0 <= i < Z.of_nat (length l) -> wr l i v = Ok (upd l (Z.to_nat i) v).
Proof.
  intros A l i v H. unfold wr.
  destruct (Z.ltb_spec i 0); [lia|]. destruct (Z.leb_spec (Z.of_nat (length l)) i); [lia|].
  reflexivity.
Qed.

Lemma wr_oob : forall A (l : list A) i v,
  i < 0 \/ Z.of_nat (length l) <= i -> wr l i v = Undef OutOfBounds.
Proof.
  intros A l i v H. unfold wr.
  destruct (Z.ltb_spec i 0); auto. destruct (Z.leb_spec (Z.of_nat (length l)) i); auto. lia.
Qed.

Lemma wr_inv : forall A (l l' : list A) i v,
  wr l i v = Ok l' -> 0 <= i < Z.of_nat (length l) /\ l' = upd l (Z.to_nat i) v.
Proof.
  intros A l l' i v H. unfold wr in H.
  destruct (Z.ltb_spec i 0); [discriminate|].
  destruct (Z.leb_spec (Z.of_nat (length l)) i); [discriminate|].
  cbn in H. split; [lia | congruence].
Qed.

Lemma wr_length : forall A (l l' : list A) i v, wr l i v = Ok l' -> length l' = length l.
Proof. intros. apply wr_inv in H. destruct H; subst. apply upd_length. Qed.

Lemma rd_upd : forall A (l : list A) i j v,
  0 <= i < Z.of_nat (length l) -> 0 <= j ->
  rd (upd l (Z.to_nat i) v) j = if i =? j then Ok v else rd l j.
Proof.
  intros A l i j v Hi Hj. unfold rd. destruct (Z.ltb_spec j 0); [lia|].
  rewrite nth_error_upd.
  destruct (Z.eqb_spec i j).
  - subst. rewrite Nat.eqb_refl. destruct (Nat.ltb_spec (Z.to_nat j) (length l)); [auto|lia].
  - destruct (Nat.eqb_spec (Z.to_nat i) (Z.to_nat j)); [lia|]. reflexivity.
Qed.

(** Loop invariants. *)
Lemma forZ_inv : forall S (P : Z -> S -> Prop) body n i s,
  P i s ->
  (forall j s, i <= j < i + Z.of_nat n -> P j s ->
     exists s', body j s = Ok s' /\ P (j + 1) s') ->
  exists s', forZ n i body s = Ok s' /\ P (i + Z.of_nat n) s'.
Proof.
  intros S P body. induction n as [|n IH]; intros i s H0 Hstep.
  - exists s. split; auto. now replace (i + Z.of_nat 0) with i by lia.
  - destruct (Hstep i s) as [s1 [E1 P1]]; [lia | auto |].
    destruct (IH (i + 1) s1 P1) as [s2 [E2 P2]].
    { intros j s' Hj. apply Hstep. lia. }
    exists s2. split; [cbn; rewrite E1; exact E2 |].
    now replace (i + Z.of_nat (Datatypes.S n)) with (i + 1 + Z.of_nat n) by lia.
Qed.

Lemma forZ_inv_post : forall S (P : Z -> S -> Prop) body n i s s',
  P i s ->
  (forall j s s', i <= j < i + Z.of_nat n -> P j s -> body j s = Ok s' -> P (j + 1) s') ->
  forZ n i body s = Ok s' -> P (i + Z.of_nat n) s'.
Proof.
  intros S P body. induction n as [|n IH]; intros i s s' H0 Hstep E.
  - cbn in E. injection E as <-. now replace (i + Z.of_nat 0) with i by lia.
  - cbn in E. inv_bind E.
    replace (i + Z.of_nat (Datatypes.S n)) with (i + 1 + Z.of_nat n) by lia.
    apply IH with (s := v); auto.
    + apply Hstep with s; auto. lia.
    + intros j s0 s1 Hj. apply Hstep. lia.
Qed.

Lemma forZ_app : forall S body n m i (s : S),
  forZ (n + m) i body s = bind (forZ n i body s) (forZ m (i + Z.of_nat n) body).
Proof.
  intros S body. induction n as [|n IH]; intros m i s.
  - cbn. now rewrite Z.add_0_r.
  - cbn [forZ Nat.add]. rewrite bind_assoc. destruct (body i s); auto. cbn [bind].
    rewrite IH. replace (i + 1 + Z.of_nat n) with (i + Z.of_nat (Datatypes.S n)) by lia.
    reflexivity.
Qed.

Lemma forZ_ext : forall S (b1 b2 : Z -> S -> res S) n i s,
  (forall j s, i <= j < i + Z.of_nat n -> b1 j s = b2 j s) -> forZ n i b1 s = forZ n i b2 s.
Proof.
  intros S b1 b2. induction n as [|n IH]; intros i s H; cbn; auto.
  rewrite H by lia. destruct (b2 i s); auto. cbn. apply IH. intros. apply H. lia.
Qed.

Lemma findZ_none : forall R (body : Z -> res (option R)) n i,
  (forall j, i <= j < i + Z.of_nat n -> body j = Ok None) -> findZ n i body = Ok None.
Proof.
  intros R body. induction n as [|n IH]; intros i H; cbn; auto.
  rewrite H by lia. cbn. apply IH. intros. apply H. lia.
Qed.

Lemma findZ_some : forall R (body : Z -> res (option R)) n i k r,
  i <= k < i + Z.of_nat n -> body k = Ok (Some r) ->
  (forall j, i <= j < k -> body j = Ok None) -> findZ n i body = Ok (Some r).
Proof.
  intros R body. induction n as [|n IH]; intros i k r Hk Hb H; [lia|].
  cbn. destruct (Z.eq_dec i k).
  - subst. rewrite Hb. reflexivity.
  - rewrite H by lia. cbn. apply IH with k; auto; [lia|]. intros. apply H. lia.
Qed.

Lemma findZ_total : forall R (body : Z -> res (option R)) n i,
  (forall j, i <= j < i + Z.of_nat n -> exists o, body j = Ok o) ->
  (findZ n i body = Ok None /\ forall j, i <= j < i + Z.of_nat n -> body j = Ok None) \/
  (exists k r, i <= k < i + Z.of_nat n /\ body k = Ok (Some r) /\
     (forall j, i <= j < k -> body j = Ok None) /\ findZ n i body = Ok (Some r)).
Proof.
  intros R body. induction n as [|n IH]; intros i H.
  - left. split; auto. intros. lia.
  - destruct (H i) as [o Ho]; [lia|]. destruct o as [r|].
    + right. exists i, r. repeat split; auto; try lia. cbn. now rewrite Ho.
    + destruct (IH (i + 1)) as [[E N]|[k [r [Hk [Hb [N E]]]]]].
      { intros. apply H. lia. }
      * left. split. { cbn. now rewrite Ho. }
        intros j Hj. destruct (Z.eq_dec j i); [subst; auto|]. apply N. lia.
      * right. exists k, r. repeat split; auto; try lia.
        -- intros j Hj. destruct (Z.eq_dec j i); [subst; auto|]. apply N. lia.
        -- cbn. now rewrite Ho.
Qed.

Lemma u32_small : forall x, 0 <= x < 4294967296 -> u32 x = x.
Proof. intros. unfold u32. now apply Z.mod_small. Qed.

Lemma u32_range : forall x, 0 <= u32 x < 4294967296.
Proof. intros. unfold u32. apply Z.mod_pos_bound. lia. Qed.

Lemma to_int_small : forall x, 0 <= x < 2147483648 -> to_int x = x.
Proof.
  intros. unfold to_int. rewrite u32_small by lia.
  destruct (Z.ltb_spec x 2147483648); lia.
Qed.

Lemma u8_small : forall x, 0 <= x < 256 -> u8 x = x.
Proof. intros. unfold u8. now apply Z.mod_small. Qed.

Lemma u8_range : forall x, 0 <= u8 x < 256.
Proof. intros. unfold u8. apply Z.mod_pos_bound. lia. Qed.

Lemma sint_ok : forall x, -2147483648 <= x <= 2147483647 -> sint x = Ok x.
Proof.
  intros x H. unfold sint. destruct (Z.leb_spec (-2147483648) x); [|lia].
  destruct (Z.leb_spec x 2147483647); [|lia]. reflexivity.
Qed.
