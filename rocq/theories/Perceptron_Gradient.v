(** * The chain rule computes the gradient of the loss *)
From Coq Require Import ZArith List Bool Lia Reals Lra.
From Verif Require Import CppBase NumOps Perceptron_Spec.
Local Open Scope R_scope.

Local Notation T := (total rops).

Lemma T_S : forall (f : nat -> R) n, @eq R (T f (S n)) (T f n + f n).
Proof. reflexivity. Qed.
Lemma T_0 : forall (f : nat -> R), @eq R (T f 0) 0.
Proof. reflexivity. Qed.
Lemma T_ext : forall (f g : nat -> R) n, (forall k, (k < n)%nat -> f k = g k) -> @eq R (T f n) (T g n).
Proof. intros f g n H. induction n as [|n IH]; [reflexivity|]. rewrite !T_S, IH, H by auto. reflexivity. Qed.
Lemma T_plus : forall (f g : nat -> R) n, @eq R (T (fun k => f k + g k) n) (T f n + T g n).
Proof. intros f g n. induction n as [|n IH]; [rewrite !T_0; ring|]. rewrite !T_S, IH. ring. Qed.
Lemma T_mult : forall (c : R) (f : nat -> R) n, @eq R (T (fun k => c * f k) n) (c * T f n).
Proof. intros c f n. induction n as [|n IH]; [rewrite !T_0; ring|]. rewrite !T_S, IH. ring. Qed.
Lemma T_zero : forall (f : nat -> R) n, (forall k, (k < n)%nat -> f k = 0) -> @eq R (T f n) 0.
Proof. intros f n H. induction n as [|n IH]; [reflexivity|]. rewrite T_S, IH, H by auto. ring. Qed.
Lemma T_one : forall (f : nat -> R) n k, (k < n)%nat -> (forall i, (i < n)%nat -> i <> k -> f i = 0) -> @eq R (T f n) (f k).
Proof.
  intros f n k Hk H. induction n as [|n IH]; [lia|]. rewrite T_S. destruct (Nat.eq_dec n k) as [->|Nk].
  - rewrite T_zero; [ring|]. intros i Hi. apply H; lia.
  - rewrite IH; [|lia|]; [rewrite (H n) by lia; ring|]. intros i Hi Ni. apply H; lia.
Qed.
Lemma T_swap : forall (f : nat -> nat -> R) n m, @eq R (T (fun i => T (f i) m) n) (T (fun j => T (fun i => f i j) n) m).
Proof.
  intros f n m. induction n as [|n IH].
  - rewrite T_0. symmetry. apply T_zero. intros k _. apply T_0.
  - rewrite T_S, IH. rewrite <- T_plus. apply T_ext. intros k _. now rewrite T_S.
Qed.
Lemma T_nonneg : forall (f : nat -> R) n, (forall k, (k < n)%nat -> 0 <= f k) -> (0 <= T f n)%R.
Proof.
  intros f n H. induction n as [|n IH]; [rewrite T_0; lra|]. rewrite T_S. specialize (H n ltac:(lia)) as Hn.
  assert (0 <= T f n)%R by (apply IH; intros; apply H; lia). change (num rops) with R in *. lra.
Qed.
Lemma T_derivable : forall (f : R -> nat -> R) (f' : nat -> R) n h,
  (forall k, (k < n)%nat -> derivable_pt_lim (fun h => f h k) h (f' k)) ->
  derivable_pt_lim (fun h => T (f h) n) h (T f' n).
Proof.
  intros f f' n h H. induction n as [|n IH].
  - apply (derivable_pt_lim_const 0).
  - apply (derivable_pt_lim_plus (fun h => T (f h) n) (fun h => f h n)); [apply IH; auto|apply H; lia].
Qed.

Lemma deriv_eq : forall f g h a b, (forall t, f t = g t) -> a = b -> derivable_pt_lim f h a -> derivable_pt_lim g h b.
Proof. intros f g h a b E -> D eps He. destruct (D eps He) as [d Hd]. exists d. intros k. rewrite <- !E. apply Hd. Qed.

Section Gradient.
  Variable size : nat -> nat.
  Variable act deriv : R -> R.
  Hypothesis Hact : forall z, derivable_pt_lim act z (deriv (act z)).
  Variable last : nat.
  Variable x e : nat -> R.
  Variable w v : nat -> nat -> nat -> R.

  (** The weights moved along the direction [v]. *)
  Definition along (h : R) : nat -> nat -> nat -> R := fun l i j => w l i j + h * v l i j.

  Local Notation out h := (output rops size act (along h) x).
  Local Notation out0 := (output rops size act w x).
  Local Notation inp := (input_of rops size act w x).
  Local Notation D := (delta rops size act deriv w x last e).

  (** Sensitivity of the output of each neuron. *)
  Fixpoint sens (l i : nat) : R :=
    match l with
    | O => 0
    | S l' => deriv (out0 l i) * (T (fun j => v l i j * out0 l' j + w l i j * sens l' j) (size l') + v l i (size l'))
    end.

  Lemma output_ext : forall (w1 w2 : nat -> nat -> nat -> R), (forall l i j, w1 l i j = w2 l i j) ->
    forall l i, @eq R (output rops size act w1 x l i) (output rops size act w2 x l i).
  Proof.
    intros w1 w2 H. induction l as [|l IH]; intros i; [reflexivity|]. cbn [output rops num nadd nmul]. f_equal. rewrite (H (S l) i (size l)).
    f_equal. apply T_ext. intros k _. cbn [rops num nadd nmul]. now rewrite IH, H.
  Qed.
  Lemma along0 : forall l i, @eq R (out 0 l i) (out0 l i).
  Proof. apply output_ext. intros. unfold along. ring. Qed.

  Lemma weight_der : forall l i j, derivable_pt_lim (fun h => along h l i j) 0 (v l i j).
  Proof.
    intros l i j. unfold along.
    apply (deriv_eq ((fun _ => w l i j) + (fun h => h) * (fun _ => v l i j))%F _ 0 (0 + (1 * v l i j + 0 * 0))).
    - reflexivity.
    - ring.
    - apply derivable_pt_lim_plus; [apply derivable_pt_lim_const|].
      apply (derivable_pt_lim_mult (fun h => h) (fun _ => v l i j)); [apply derivable_pt_lim_id|apply derivable_pt_lim_const].
  Qed.

  Lemma output_der : forall l i, derivable_pt_lim (fun h => out h l i) 0 (sens l i).
  Proof.
    induction l as [|l IH]; intros i.
    - apply (derivable_pt_lim_const (x i)).
    - cbn [sens].
      set (z := fun h => T (fun j => along h (S l) i j * out h l j) (size l) + along h (S l) i (size l)).
      assert (Dz : derivable_pt_lim z 0 (T (fun j => v (S l) i j * out0 l j + w (S l) i j * sens l j) (size l) + v (S l) i (size l))).
      { apply (derivable_pt_lim_plus (fun h => T (fun j => along h (S l) i j * out h l j) (size l))); [|apply weight_der].
        apply (T_derivable (fun h j => along h (S l) i j * out h l j)). intros k _.
        apply (deriv_eq (fun h => along h (S l) i k * out h l k) _ 0 (v (S l) i k * out 0 l k + along 0 (S l) i k * sens l k)).
        - reflexivity.
        - rewrite along0. unfold along. change (num rops) with R. ring.
        - apply (derivable_pt_lim_mult (fun h => along h (S l) i k) (fun h => out h l k)); [apply weight_der|apply IH]. }
      apply (deriv_eq (fun h => act (z h)) _ 0
        (deriv (act (z 0)) * (T (fun j => v (S l) i j * out0 l j + w (S l) i j * sens l j) (size l) + v (S l) i (size l)))).
      + reflexivity.
      + f_equal. f_equal. symmetry. rewrite <- along0. reflexivity.
      + apply (derivable_pt_lim_comp z act); [exact Dz|apply Hact].
  Qed.

  (** [delta l i = deriv (output l i) * pull l i], layers counted from the input. *)
  Definition pull (l i : nat) : R :=
    if Nat.ltb l last then T (fun j => D (last - S l) j * w (S l) j i) (size (S l)) else out0 last i - e i.
  Lemma delta_pull : forall l i, (l <= last)%nat -> @eq R (D (last - l) i) (deriv (out0 l i) * pull l i).
  Proof.
    intros l i H. unfold pull. destruct (Nat.ltb_spec l last) as [L|G].
    - replace (last - l)%nat with (S (last - S l)) by lia. cbn [delta].
      replace (last - (last - S l))%nat with (S l) by lia. replace (last - S (last - S l))%nat with l by lia.
      cbn [rops nmul]. apply Rmult_comm.
    - assert (l = last) by lia. subst l. rewrite Nat.sub_diag. reflexivity.
  Qed.

  (** Contribution of the weights into layer [S l]. *)
  Definition layer_part (l : nat) : R :=
    T (fun i => T (fun j => D (last - S l) i * inp l j * v (S l) i j) (S (size l))) (size (S l)).

  Lemma step_sens : forall l, (S l <= last)%nat ->
    @eq R (T (fun i => pull (S l) i * sens (S l) i) (size (S l))) (layer_part l + T (fun j => pull l j * sens l j) (size l)).
  Proof.
    intros l H.
    transitivity (T (fun i => D (last - S l) i * (T (fun j => v (S l) i j * out0 l j) (size l) + v (S l) i (size l)) +
                              T (fun j => D (last - S l) i * w (S l) i j * sens l j) (size l)) (size (S l))).
    { apply T_ext. intros i Hi. rewrite (delta_pull (S l)) by lia. cbn [sens].
      rewrite T_plus. rewrite (T_ext (fun j => deriv (out0 (S l) i) * pull (S l) i * w (S l) i j * sens l j)
        (fun j => (deriv (out0 (S l) i) * pull (S l) i) * (w (S l) i j * sens l j))) by (intros; change (num rops) with R; ring).
      rewrite T_mult. change (num rops) with R. ring. }
    rewrite T_plus. f_equal.
    - unfold layer_part. apply T_ext. intros i Hi.
      rewrite T_S. unfold input_of at 2. rewrite Nat.ltb_irrefl. cbn [rops nofZ].
      rewrite (T_ext (fun k => D (last - S l) i * inp l k * v (S l) i k) (fun k => D (last - S l) i * (v (S l) i k * out0 l k))).
      + rewrite T_mult. change (num rops) with R. ring.
      + intros k Hk. unfold input_of. rewrite (proj2 (Nat.ltb_lt k _)) by exact Hk. change (num rops) with R. ring.
    - rewrite T_swap. apply T_ext. intros j Hj. unfold pull. rewrite (proj2 (Nat.ltb_lt l last)) by lia.
      rewrite Rmult_comm. rewrite <- T_mult. apply T_ext. intros i Hi. change (num rops) with R. ring.
  Qed.

  Lemma loss_der : derivable_pt_lim (fun h => loss size act (along h) x last e) 0 (T layer_part last).
  Proof.
    unfold loss.
    apply (deriv_eq (fun h => / 2 * T (fun i => (out h last i - e i) ^ 2) (size last)) _ 0
      (/ 2 * T (fun i => 2 * (pull last i * sens last i)) (size last))).
    - reflexivity.
    - rewrite T_mult.
      assert (A : forall l, (l <= last)%nat -> @eq R (T (fun i => pull l i * sens l i) (size l)) (T layer_part l)).
      { induction l as [|l IH]; intros H.
        - rewrite T_0. apply T_zero. intros k _. cbn [sens]. ring.
        - rewrite step_sens by exact H. rewrite IH by lia. rewrite T_S. apply Rplus_comm. }
      rewrite A by lia. change (num rops) with R. lra.
    - apply (derivable_pt_lim_scal (fun h => T (fun i => (out h last i - e i) ^ 2) (size last))).
      apply (T_derivable (fun h i => (out h last i - e i) ^ 2)). intros k _.
      assert (Dd : derivable_pt_lim (fun h => out h last k - e k) 0 (sens last k)).
      { apply (deriv_eq (fun h => out h last k - e k) _ 0 (sens last k - 0)); [reflexivity|ring|].
        apply (derivable_pt_lim_minus (fun h => out h last k) (fun _ => e k)); [apply output_der|apply derivable_pt_lim_const]. }
      apply (deriv_eq (fun h => (out h last k - e k) ^ 2) _ 0 ((INR 2 * (out 0 last k - e k) ^ 1) * sens last k)); [reflexivity| |].
      + unfold pull. rewrite Nat.ltb_irrefl, along0. cbn [INR pow]. change (num rops) with R. ring.
      + apply (derivable_pt_lim_comp (fun h => out h last k - e k) (fun y => y ^ 2)); [exact Dd|].
        apply (derivable_pt_lim_pow (out 0 last k - e k) 2).
  Qed.
End Gradient.

(** Only one weight moves. *)
Definition unit_at (L I J : nat) : nat -> nat -> nat -> R := fun l i j =>
  if (Nat.eqb l L && Nat.eqb i I && Nat.eqb j J)%bool then 1 else 0.

Lemma partial_der : forall size act deriv last x e w L I J, (forall z, derivable_pt_lim act z (deriv (act z))) ->
  (1 <= L <= last)%nat -> (I < size L)%nat -> (J <= size (pred L))%nat ->
  derivable_pt_lim (fun h => loss size act (fun l i j => w l i j + h * unit_at L I J l i j) x last e) 0
    (input_of rops size act w x (pred L) J * delta rops size act deriv w x last e (last - L) I).
Proof.
  intros size act deriv last x e w L I J Ha HL HI HJ.
  apply (deriv_eq (fun h => loss size act (along w (unit_at L I J) h) x last e) _ 0
    (T (layer_part size act deriv last x e w (unit_at L I J)) last)); [reflexivity| |now apply loss_der].
  destruct L as [|L]; [lia|]. cbn [pred] in *.
  rewrite (T_one _ _ L) by (try lia; intros l Hl Nl; unfold layer_part;
    apply T_zero; intros i _; apply T_zero; intros j _; unfold unit_at;
    rewrite (proj2 (Nat.eqb_neq (S l) (S L))) by lia; cbn [andb]; change (num rops) with R; ring).
  unfold layer_part. rewrite (T_one _ _ I) by (try lia; intros i Hi Ni;
    apply T_zero; intros j _; unfold unit_at;
    rewrite (proj2 (Nat.eqb_neq i I)) by lia; rewrite andb_false_r; cbn [andb]; change (num rops) with R; ring).
  rewrite (T_one _ _ J) by (try lia; intros j Hj Nj; unfold unit_at;
    rewrite (proj2 (Nat.eqb_neq j J)) by lia; rewrite andb_false_r; change (num rops) with R; ring).
  unfold unit_at. rewrite !Nat.eqb_refl. cbn [andb]. change (num rops) with R. ring.
Qed.

(** Along the step of gradient descent the loss does not grow to first order. *)
Lemma descent_der : forall size act deriv last x e w rate, (forall z, derivable_pt_lim act z (deriv (act z))) -> 0 <= rate ->
  exists s, s <= 0 /\
    derivable_pt_lim (fun h => loss size act (fun l i j => w l i j + h * (descended rops size act deriv w x last e rate l i j - w l i j)) x last e) 0 s.
Proof.
  intros size act deriv last x e w rate Ha Hr.
  eexists. split; [|apply (loss_der size act deriv Ha last x e w (fun l i j => descended rops size act deriv w x last e rate l i j - w l i j))].
  set (P := fun l => T (fun i => T (fun j => (delta rops size act deriv w x last e (last - S l) i * input_of rops size act w x l j) ^ 2) (S (size l))) (size (S l))).
  assert (E : @eq R (T (layer_part size act deriv last x e w (fun l i j => descended rops size act deriv w x last e rate l i j - w l i j)) last)
              (- rate * T P last)).
  { rewrite <- T_mult. apply T_ext. intros l _. unfold layer_part, P. rewrite <- T_mult. apply T_ext. intros i _.
    rewrite <- T_mult. apply T_ext. intros j _. unfold descended. cbn [pred rops nadd nmul nopp]. change (num rops) with R. ring. }
  rewrite E. assert (0 <= T P last).
  { apply T_nonneg. intros l _. apply T_nonneg. intros i _. apply T_nonneg. intros j _. apply pow2_ge_0. }
  change (num rops) with R in *. nra.
Qed.
