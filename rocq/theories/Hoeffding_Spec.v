(** * What the Hoeffding tree is expected to do

    [sz] is the number of bins of each feature: feature [f] has [nth f sz 0 - 1] candidate
    limits that cut its values into [nth f sz 0] bins. *)
From Coq Require Import ZArith List Bool Reals.
From Verif Require Import CppBase NumOps Hoeffding_Model.
Import ListNotations.
Local Open Scope Z_scope.

Section Bins.
  Variable sz : list nat.
  Definition size (f : nat) : nat := nth f sz 0%nat.
  (** The number of bins, and of candidate limits, of the features before [f]. *)
  Fixpoint start (f : nat) : nat := match f with Datatypes.O => 0%nat | S f => (start f + size f)%nat end.
  Fixpoint cut (f : nat) : nat := match f with Datatypes.O => 0%nat | S f => (cut f + (size f - 1))%nat end.
  (** All candidates in order: feature, number of the limit in it. *)
  Definition candidates : list (nat * nat) :=
    flat_map (fun f => map (pair f) (seq 0 (size f - 1))) (seq 0 (length sz)).
End Bins.

Section Points.
  Variable O : ops.
  Variable sz : list nat.
  Local Notation num := (num O).
  Local Notation zero := (nofZ O 0).

  (** The bin of a value: the first limit above it, or the last bin. *)
  Fixpoint bin (limits : list num) (x : num) : nat :=
    match limits with
    | [] => 0%nat
    | lim :: rest => if nlt O x lim then 0%nat else S (bin rest x)
    end.
  Definition feature_limits (limits : list num) (f : nat) : list num := firstn (size sz f - 1) (skipn (cut sz f) limits).

  (** A training point, and the limits in force when it was trained. *)
  Record point : Type := mkPoint { features : list num; label : Z; at_limits : list num }.
  Definition bin_of (f : nat) (p : point) : nat := bin (feature_limits (at_limits p) f) (nth f (features p) zero).
  Definition labelled (h : list point) (l : Z) : list point := filter (fun p => label p =? l) h.
  Definition binned (h : list point) (f b : nat) : list point := filter (fun p => Nat.eqb (bin_of f p) b) h.
  (** Number of points as an integer. *)
  Definition size_of {A} (h : list A) : Z := Z.of_nat (length h).

  (** First position of a maximal value. *)
  Definition first_max (l : list num) (k : nat) : Prop :=
    (k < length l)%nat /\
    (forall j, (j < length l)%nat -> nlt O (nth k l zero) (nth j l zero) = false) /\
    (forall j, (j < k)%nat -> nlt O (nth j l zero) (nth k l zero) = true).

  Variable log_ log2_ : num -> num.
  Variable infinity : num.
  Variable label_count max_size node_size : Z.
  Local Notation fc := (Z.of_nat (length sz)).
  Local Notation sizes := (map Z.of_nat sz).
  Local Notation tree := (tree O).
  Local Notation train := (train O log_ log2_ infinity fc label_count max_size node_size).
  Local Notation tree_init := (tree_init O infinity fc label_count max_size node_size).
  Local Notation set_limits := (set_limits O fc).

  (** The limits of the leaves. *)
  Definition limits_of (t : tree) : list num := match blocks O t with b :: _ => limits O b | [] => [] end.
  Definition leaves (t : tree) : nat := length (filter (is_leaf O) (nodes O t)).

  (** [reached t h]: [t] results from a sequence of calls on a new tree, and [h] are the points trained
      since the last split (the point that caused the split included). *)
  Inductive reached (delta : num) : tree -> list point -> Prop :=
  | reached_new : forall t, tree_init delta sizes = Ok t -> reached delta t []
  | reached_limits : forall t h new t', reached delta t h -> length new = Z.to_nat (sum_feature_size O t - fc) ->
      set_limits t new = Ok t' -> reached delta t' h
  | reached_train : forall t h x l t' b, reached delta t h -> length x = length sz -> 0 <= l < label_count ->
      train t x l = Ok (t', b) -> length (nodes O t') = length (nodes O t) ->
      reached delta t' (h ++ [mkPoint x l (limits_of t')])
  | reached_split : forall t h x l t' b, reached delta t h -> length x = length sz -> 0 <= l < label_count ->
      train t x l = Ok (t', b) -> length (nodes O t') <> length (nodes O t) ->
      reached delta t' [mkPoint x l (limits_of t')].
End Points.

(** ** Information gain, over the reals *)
Section Gain.
  Local Open Scope R_scope.
  Variable sz : list nat.
  Variable lc : nat.
  Local Notation point := (point rops).

  Definition log2 (x : R) : R := ln x / ln 2.
  Fixpoint rsum_n (g : nat -> R) (n : nat) : R := match n with Datatypes.O => 0 | S n => rsum_n g n + g n end.
  Definition part {A} (p h : list A) : R := IZR (size_of p) / IZR (size_of h).
  Definition entropy (h : list point) : R :=
    - rsum_n (fun l => let s := part (labelled rops h (Z.of_nat l)) h in s * log2 s) lc.
  (** The points below and above limit [v] of feature [f]. *)
  Definition below (h : list point) (f v : nat) : list point := filter (fun p => Nat.leb (bin_of rops sz f p) v) h.
  Definition above (h : list point) (f v : nat) : list point := filter (fun p => negb (Nat.leb (bin_of rops sz f p) v)) h.
  Definition information_gain (h : list point) (fv : nat * nat) : R :=
    let lo := below h (fst fv) (snd fv) in
    let hi := above h (fst fv) (snd fv) in
    entropy h - (part lo h * entropy lo + part hi h * entropy hi).
  (** The mean of the gains observed after each of the points. *)
  Definition average_gain (h : list point) (fv : nat * nat) : R :=
    rsum_n (fun j => information_gain (firstn (S j) h) fv) (length h) / IZR (size_of h).

  (** [k1] is a best candidate and [k2] a best one of the others. *)
  Definition best_pair (g : nat -> R) (n k1 k2 : nat) : Prop :=
    (k1 < n)%nat /\ (k2 < n)%nat /\ k1 <> k2 /\ (forall k, (k < n)%nat -> g k <= g k1) /\ (forall k, (k < n)%nat -> k <> k1 -> g k <= g k2).
  Definition gain_at (h : list point) (k : nat) : R := average_gain h (nth k (candidates sz) (0, 0)%nat).
  (** The Hoeffding bound, as this library states it. *)
  Definition split_due (log_ : R -> R) (delta : R) (h : list point) : Prop :=
    exists k1 k2, best_pair (gain_at h) (length (candidates sz)) k1 k2 /\
      4 * log_ (1 / delta) / (2 * IZR (size_of h)) < (gain_at h k1 - gain_at h k2) ^ 2 /\ 0 < gain_at h k1.
End Gain.

(** ** Memory *)
(** Bytes of the counters of one leaf: the count, a limit and a sum of gains for each candidate, a counter for
    each label and bin; and whether [n] nodes fit beside them. *)
Definition leaf_bytes (sz : list nat) (lc : nat) : Z :=
  4 + 16 * Z.of_nat (length (candidates sz)) + 4 * Z.of_nat (start sz (length sz)) * Z.of_nat lc.
Definition fits (sz : list nat) (lc : nat) (max_size node_size : Z) (n : nat) : Prop :=
  Z.of_nat n * node_size + leaf_bytes sz lc <= max_size.

(** ** Finding the leaf *)
(** [route t x i j]: from node [i], the point [x] comes to the leaf [j]. *)
Inductive route (O : ops) (t : tree O) (x : list (num O)) : nat -> nat -> Prop :=
| route_leaf : forall i n, nth_error (nodes O t) i = Some n -> is_leaf O n = true -> route O t x i i
| route_node : forall i n f v c j, nth_error (nodes O t) i = Some n -> split_feature O n = Z.of_nat f -> split_value O n = Some v ->
    Z.of_nat c = (if nle O (nth f x (nofZ O 0)) v then child_left O n else child_right O n) ->
    route O t x c j -> route O t x i j.
