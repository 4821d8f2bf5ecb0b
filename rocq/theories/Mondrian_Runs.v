(** * Proofs for the Mondrian forest: concrete histories *)
From Coq Require Import ZArith List Bool Lia.
From Verif Require Import CppBase CppFacts NumOps Utils_Model Mondrian_Model Mondrian_Spec.
Import ListNotations.
Local Open Scope Z_scope.

Section Runs.
  Variable O : ops.
  Variable exp_ log_ : num O -> num O.
  Variable rnd : nat -> num O.
  Variable tc fc lc mn : Z.
  Variable lifetime base_measure discount_factor : num O.
  Variable ok_value : num O -> Prop.
  Local Notation train := (train O log_ rnd tc fc lc mn lifetime).
  Local Notation reached := (reached O exp_ log_ rnd tc fc lc mn lifetime base_measure discount_factor ok_value).
  Local Notation input := (input O fc ok_value).

  (** Training with points, the first one first. *)
  Fixpoint run (f : forest O) (cs : list (point O)) : res (forest O) :=
    match cs with
    | [] => Ok f
    | (x, label) :: cs => do r <- train f x label; run (fst r) cs
    end.
  Definition valid (p : point O) : Prop := Z.of_nat (length (fst p)) = fc /\ Forall ok_value (fst p) /\ 0 <= snd p < lc.
  Lemma valid_input : forall p, valid p -> input (fst p).
  Proof.
    intros [x l] [H1 [H2 H3]]. cbn [fst] in *. split; [exact H1|]. intros d Hd. rewrite Forall_forall in H2. apply H2, nth_In. lia.
  Qed.
  Lemma run_reached : forall cs f h f', Forall valid cs -> reached f h -> run f cs = Ok f' -> reached f' (rev cs ++ h).
  Proof.
    induction cs as [|[x label] cs IH]; intros f h f' V R E; cbn [run rev app] in *; [congruence|].
    apply Forall_cons_iff in V. destruct V as [V1 V2]. destruct (bind_inv _ _ _ _ _ E) as [[f1 r] [E1 E2]]. cbn [fst] in E2.
    rewrite <- app_assoc. cbn [app]. apply IH with f1; auto. apply reached_train with f r; auto; [now apply (valid_input (x, label))|apply V1].
  Qed.
  (** Any history, if training does not fail. *)
  Hypothesis total : forall f h x label, reached f h -> Z.of_nat (length h) < 2147483647 -> input x -> 0 <= label < lc -> exists f', train f x label = Ok (f', None).
  Lemma any_reached : forall h, Forall valid h -> Z.of_nat (length h) <= 2147483647 -> exists f, reached f h.
  Proof.
    induction h as [|[x label] h IH]; intros V Hn; [eexists; constructor|]. cbn [length] in Hn. apply Forall_cons_iff in V. destruct V as [V1 V2].
    destruct IH as [f R]; [exact V2|lia|]. destruct (total f h x label R ltac:(lia) (valid_input (x, label) V1) ltac:(apply V1)) as [f' E].
    exists f'. apply reached_train with f None; auto; [now apply (valid_input (x, label))|apply V1].
  Qed.
End Runs.

(** The logarithm is only applied to [1 - u] for the draws [u]. *)
Section Log.
  Variable O : ops.
  Variable log_ log' : num O -> num O.
  Variable rnd : nat -> num O.
  Variable tc fc lc mn : Z.
  Variable lifetime : num O.
  Hypothesis Same : forall k, log' (nsub O (nofZ O 1) (rnd k)) = log_ (nsub O (nofZ O 1) (rnd k)).
  Lemma bind_ext : forall A B (m : res A) (k k' : A -> res B), (forall a, k a = k' a) -> bind m k = bind m k'.
  Proof. intros A B m k k' H. destruct m; cbn; auto. Qed.
  Lemma forZ_ext : forall S (b b' : Z -> S -> res S) n i s, (forall j s, b j s = b' j s) -> forZ n i b s = forZ n i b' s.
  Proof. induction n as [|n IH]; intros i s H; cbn [forZ]; [reflexivity|]. rewrite H. apply bind_ext. intros a. now apply IH. Qed.
  Lemma extend_log : forall steps f i t x l,
    extend_block O log' rnd fc lc mn lifetime steps f i t x l = extend_block O log_ rnd fc lc mn lifetime steps f i t x l.
  Proof.
    induction steps as [|steps IH]; intros f i t x l; cbn [extend_block]; [reflexivity|].
    apply bind_ext. intros n. apply bind_ext. intros pt. apply bind_ext. intros [ps sum].
    assert (E : (if neq O sum (nofZ O 0) then (nofZ O (-1), f) else let (u, f) := uniform O rnd f in (rand_exponential O log' u sum, f)) =
                (if neq O sum (nofZ O 0) then (nofZ O (-1), f) else let (u, f) := uniform O rnd f in (rand_exponential O log_ u sum, f))).
    { destruct (neq O sum (nofZ O 0)); [reflexivity|]. cbn [uniform]. unfold rand_exponential. now rewrite Same. }
    rewrite E. clear E. match goal with |- (let (_, _) := ?q in _) = _ => destruct q as [e f1] end. apply bind_ext. intros [[|] f2]; [reflexivity|].
    apply bind_ext. intros f3. apply bind_ext. intros n1. destruct (is_leaf O n1); [reflexivity|]. apply bind_ext. intros y. apply bind_ext. intros v.
    destruct (nle O y v); [apply IH|]. destruct (nlt O v y); [apply IH|reflexivity].
  Qed.
  Lemma train_log : forall f x l, train O log' rnd tc fc lc mn lifetime f x l = train O log_ rnd tc fc lc mn lifetime f x l.
  Proof.
    intros f x l. unfold train. apply forZ_ext. intros i [g r]. unfold train_tree. f_equal. apply bind_ext. intros k. destruct (k =? -1); [reflexivity|]. apply extend_log.
  Qed.
  Lemma run_log : forall cs f, run O log' rnd tc fc lc mn lifetime f cs = run O log_ rnd tc fc lc mn lifetime f cs.
  Proof. induction cs as [|[x l] cs IH]; intros f; cbn [run]; [reflexivity|]. rewrite train_log. apply bind_ext. intros r. apply IH. Qed.
End Log.
