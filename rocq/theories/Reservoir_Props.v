(** * Properties of the reservoirs (C13-C18, C60, C105) *)
From Coq Require Import ZArith QArith List Bool Lia Reals.
From Verif Require Import CppBase CppFacts Dbl DblFacts NumOps Reservoir_Model Reservoir_Spec Reservoir_Proofs Reservoir_Prob Reservoir_Exp.
Import ListNotations.
Local Open Scope Z_scope.

(** C13. One add in binary64, from any state: the index is -1 and nothing changes, or
    it is in range and exactly that slot receives the element. *)
Theorem reservoir_index_range :
  forall (A : Type) (size : Z), 1 <= size <= 2147483647 ->
  forall (s : @reservoir A) (r1 r2 : dbl) (e : A),
    0 <= counter s < 4294967296 -> Z.of_nat (length (sample s)) = size ->
    unit_open r2 ->
    exists s' idx, radd dops size s r1 r2 e = Ok (s', idx) /\ counter s' = u32 (counter s + 1) /\
      (counter s < size -> idx = counter s) /\
      ((idx = -1 /\ sample s' = sample s) \/
       (0 <= idx < size /\ sample s' = upd (sample s) (Z.to_nat idx) (Some e))).
Proof.
  intros A size Hs s r1 r2 e H1 H2 H3.
  exact (radd_ok dops size unit_open Hs (dops_idx size Hs) s r1 r2 e H1 H2 H3).
Qed.
Print Assumptions reservoir_index_range.

(** The largest double below 1 as second draw, on a full reservoir of size 3. *)
Definition almost_one : dbl := dlit (2 ^ 53 - 1) (-53).
Example reservoir_index_range_ex :
  unit_open almost_one /\
  radd dops 3 (mkRes 7 [Some 1; Some 2; Some 3]) dzero almost_one 9 = Ok (mkRes 8 [Some 1; Some 2; Some 9], 2) /\
  radd dops 3 (mkRes 7 [Some 1; Some 2; Some 3]) almost_one almost_one 9 = Ok (mkRes 8 [Some 1; Some 2; Some 3], -1).
Proof.
  split. { split; [reflexivity|]. vm_compute. Lra.lra. }
  split; vm_compute; reflexivity.
Qed.

(** C14 is false for every sample size: a source that returns exactly 1.0 makes add
    write past the end of the sample. *)
Theorem reservoir_random_one_refuted :
  forall size, 1 <= size <= 2147483647 ->
  exists l : list (unit * (dbl * dbl)),
    (forall e r1 r2, In (e, (r1, r2)) l -> unit_closed r1 /\ unit_closed r2) /\
    rrun dops size l = Undef OutOfBounds.
Proof.
  intros size Hs. eexists. split; [|exact (rand_one_ub size Hs)].
  intros e r1 r2 H. pose proof (unit_open_closed _ unit_zero) as U0.
  assert (U1 : unit_closed done). { split; [reflexivity|]. vm_compute. Lra.lra. }
  apply in_app_or in H. destruct H as [H|[H|[]]].
  - apply repeat_spec in H. injection H as -> -> ->. auto.
  - injection H as <- <- <-. auto.
Qed.
Print Assumptions reservoir_random_one_refuted.

(** The same for the exponential reservoir. *)
Theorem exp_reservoir_random_one_refuted :
  exists (size : Z) (l : list (unit * (dbl * dbl))),
    (forall e r1 r2, In (e, (r1, r2)) l -> unit_closed r1 /\ unit_closed r2) /\
    exp_run dops size l = Undef OutOfBounds.
Proof.
  exists 2, (repeat (tt, (done, done)) 3). split.
  - intros e r1 r2 H. apply repeat_spec in H. injection H as -> -> ->.
    assert (U1 : unit_closed done). { split; [reflexivity|]. vm_compute. Lra.lra. }
    auto.
  - vm_compute. reflexivity.
Qed.
Print Assumptions exp_reservoir_random_one_refuted.

(** C15. Up to 2^32-1 adds the sample holds elements of pairwise distinct stream
    positions, min(n, size) of them, in order while it is not full. *)
Theorem reservoir_distinct_positions :
  forall (A : Type) (size : Z), 1 <= size <= 2147483647 ->
  forall l : list (A * (dbl * dbl)), draws_open l -> Z.of_nat (length l) < 4294967296 ->
    exists s is pos, rrun dops size l = Ok (s, is) /\ holds (sample s) (map fst l) pos /\
      counter s = Z.of_nat (length l) /\ Z.of_nat (length (sample s)) = size /\
      Z.of_nat (length pos) = Z.min (Z.of_nat (length l)) size /\
      (Z.of_nat (length l) <= size -> pos = seq 0 (length l)).
Proof.
  intros A size Hs. exact (rrun_holds dops size unit_open Hs (dops_idx size Hs)).
Qed.
Print Assumptions reservoir_distinct_positions.

Example reservoir_distinct_ex :
  rrun dops 2 (map (fun i => (i, (dhalf, dhalf))) [10; 11; 12; 13]) =
    Ok (mkRes 4 [Some 10; Some 12], [0; 1; 1; -1]) /\
  holds [Some 10; Some 12] [10; 11; 12; 13] [0%nat; 2%nat].
Proof.
  split; [vm_compute; reflexivity|]. split. { repeat constructor; cbn; lia. }
  split. { intros p [<-|[<-|[]]]; cbn; lia. } split; [cbn; lia|].
  intros [|[|i]]; try reflexivity. cbn. now destruct i.
Qed.

(** C60. Ideal uniform source: draws are the N equally likely values i/N, with N
    divisible by the denominators that occur. Any set of r distinct positions is
    entirely in the sample in a fraction size(size-1).../(n(n-1)...) of all outcomes
    of the draws; for r = size this says that all subsets are equally likely. *)
Theorem reservoir_sets_uniform :
  forall (N : positive) (size : Z) (n : nat),
    1 <= size <= 2147483647 -> size <= Z.of_nat n < 4294967296 ->
    (size | Z.pos N) -> (forall m, size < m <= Z.of_nat n -> (m | Z.pos N)) ->
    forall ps : list Z, NoDup ps -> (forall p, In p ps -> 0 <= p < Z.of_nat n) ->
    falling (Z.of_nat n) (length ps) *
      count_if (fun d => match rrun qops size (enumerate 0 d) with
                         | Ok (s, _) => all_in ps (sample s) | _ => false end) (all_draws N n)
    = falling size (length ps) * Z.of_nat (length (all_draws N n)).
Proof.
  intros N size n Hs Hn [w Hw] Hd ps H1 H2.
  assert (Hw' : Z.pos N = size * w) by lia.
  exact (set_prob N size w Hs Hw' n Hn Hd ps H1 H2).
Qed.
Print Assumptions reservoir_sets_uniform.

(** C16. Each element is in the sample with probability exactly size/n. *)
Theorem reservoir_inclusion_uniform :
  forall (N : positive) (size : Z) (n : nat),
    1 <= size <= 2147483647 -> size <= Z.of_nat n < 4294967296 ->
    (size | Z.pos N) -> (forall m, size < m <= Z.of_nat n -> (m | Z.pos N)) ->
    forall p, 0 <= p < Z.of_nat n ->
    Z.of_nat n *
      count_if (fun d => match rrun qops size (enumerate 0 d) with
                         | Ok (s, _) => existsb (fun c => match c with Some q => q =? p | None => false end) (sample s)
                         | _ => false end) (all_draws N n)
    = size * Z.of_nat (length (all_draws N n)).
Proof.
  intros N size n Hs Hn Hw Hd p Hp.
  pose proof (reservoir_sets_uniform N size n Hs Hn Hw Hd [p]) as H.
  cbn [length falling] in H. rewrite !Z.mul_1_r in H. rewrite <- H.
  - f_equal. apply count_ext. intros d _.
    destruct (rrun qops size (enumerate 0 d)) as [[s is]| | |]; auto.
    unfold all_in. cbn [forallb]. now rewrite andb_true_r.
  - repeat constructor. intros [].
  - intros q [<-|[]]. exact Hp.
Qed.
Print Assumptions reservoir_inclusion_uniform.

(** Such grids exist for all sizes and lengths. *)
Lemma reservoir_grid_exists : forall (size : Z) (n : nat), 1 <= size ->
  exists N, (size | Z.pos N) /\ forall m, size < m <= Z.of_nat n -> (m | Z.pos N).
Proof.
  intros size n Hs. induction n as [|n [N [H1 H2]]].
  - exists (Z.to_pos size). split; [exists 1; lia|]. intros m Hm. lia.
  - exists (N * Pos.of_succ_nat n)%positive. rewrite Pos2Z.inj_mul. split; [now apply Z.divide_mul_l|].
    intros m Hm. destruct (Z.eq_dec m (Z.of_nat (S n))) as [->|Hne].
    + rewrite Zpos_P_of_succ_nat, <- Nat2Z.inj_succ. apply Z.divide_factor_r.
    + apply Z.divide_mul_l. apply H2. lia.
Qed.

(** The hypotheses for size 2 and three elements on the grid of sixths, and one outcome. *)
Example reservoir_inclusion_ex :
  (2 | 6) /\ (forall m, 2 < m <= 3 -> (m | 6)) /\
  (length (all_draws 6 1) = 36)%nat /\
  rrun qops 2 (enumerate 0 [(0, 0); (1#6, 1#6); (1#6, 3#6)]%Q) = Ok (mkRes 3 [Some 0; Some 2], [0; 1; 1]).
Proof.
  split; [exists 3; lia|]. split. { intros m Hm. assert (m = 3) as -> by lia. exists 2. lia. }
  split; vm_compute; reflexivity.
Qed.

(** C17. The counter is the number of adds modulo 2^32, for histories of any length. *)
Theorem reservoir_count_mod :
  forall (A : Type) (size : Z), 1 <= size <= 2147483647 ->
  forall l : list (A * (dbl * dbl)), draws_open l ->
    exists s is, rrun dops size l = Ok (s, is) /\ count s = u32 (Z.of_nat (length l)) /\
      Z.of_nat (length (sample s)) = size /\ length is = length l /\
      forall i, In i is -> i = -1 \/ 0 <= i < size.
Proof.
  intros A size Hs. exact (rrun_count dops size unit_open Hs (dops_idx size Hs)).
Qed.
Print Assumptions reservoir_count_mod.

(** C17. Whenever the counter is below the size again, add stores the element in that
    slot whatever the random source says. *)
Theorem reservoir_wrap_forced :
  forall (A : Type) (size : Z), 1 <= size <= 2147483647 ->
  forall (l : list (A * (dbl * dbl))) e (r1 r2 : dbl), draws_open l -> unit_open r2 ->
    u32 (Z.of_nat (length l)) < size ->
    exists s is s', rrun dops size l = Ok (s, is) /\
      radd dops size s r1 r2 e = Ok (s', u32 (Z.of_nat (length l))) /\
      nth_error (sample s') (Z.to_nat (u32 (Z.of_nat (length l)))) = Some (Some e).
Proof.
  intros A size Hs. exact (radd_forced dops size unit_open Hs (dops_idx size Hs)).
Qed.
Print Assumptions reservoir_wrap_forced.

(** C17. The 2^32-th add divides by zero (counter + 1 wraps), so it always accepts. *)
Theorem reservoir_wrap_accepts :
  forall (A : Type) (size : Z) (s : @reservoir A) (r1 r2 : dbl) (e : A), 1 <= size <= 2147483647 ->
  counter s = 4294967295 -> Z.of_nat (length (sample s)) = size -> unit_open r1 -> unit_open r2 ->
  exists s' idx, radd dops size s r1 r2 e = Ok (s', idx) /\ 0 <= idx < size /\ counter s' = 0.
Proof. exact at_max. Qed.
Print Assumptions reservoir_wrap_accepts.

Example reservoir_wrap_ex :
  radd dops 2 (mkRes 4294967295 [Some 1; Some 2]) almost_one dhalf 7 = Ok (mkRes 0 [Some 1; Some 7], 1) /\
  radd dops 2 (mkRes 0 [Some 1; Some 7]) almost_one dhalf 8 = Ok (mkRes 1 [Some 8; Some 7], 0) /\
  u32 (4294967296 + 1) < 2.
Proof. split; [vm_compute; reflexivity|]. split; vm_compute; reflexivity. Qed.

(** C18. The exponential reservoir, for histories of any length. *)
Theorem exp_reservoir_invariant :
  forall (A : Type) (size : Z), 1 <= size <= 2147483647 ->
  forall l : list (A * (dbl * dbl)), draws_open l ->
    exists s is pos, exp_run dops size l = Ok (s, is) /\ holds (sample s) (map fst l) pos /\
      counter s = Z.of_nat (length pos) /\ counter s <= size /\
      Z.of_nat (length (sample s)) = size /\ length is = length l /\
      (forall i, In i is -> 0 <= i < size) /\
      (l <> [] -> In (length l - 1)%nat pos).
Proof. exact @exp_run_ok. Qed.
Print Assumptions exp_reservoir_invariant.

(** C18. One add: the element is stored at the returned index; the count grows by at
    most one and never shrinks. *)
Theorem exp_reservoir_step :
  forall (A : Type) (size : Z), 1 <= size <= 2147483647 ->
  forall (s : @reservoir A) (r1 r2 : dbl) e, unit_open r1 -> unit_open r2 ->
    0 <= counter s <= size -> Z.of_nat (length (sample s)) = size ->
    exists s' idx, exp_add dops size s r1 r2 e = Ok (s', idx) /\
      sample s' = upd (sample s) (Z.to_nat idx) (Some e) /\
      ((0 <= idx < counter s /\ counter s' = counter s) \/
       (idx = counter s /\ counter s < size /\ counter s' = counter s + 1)).
Proof. exact @exp_add_ok. Qed.
Print Assumptions exp_reservoir_step.

Example exp_reservoir_ex :
  exp_run dops 3 (map (fun i => (i, (dhalf, dhalf))) [10; 11; 12; 13; 14]) =
    Ok (mkRes 2 [Some 10; Some 14; None], [0; 1; 1; 1; 1]).
Proof. vm_compute. reflexivity. Qed.

(** C105. Ideal uniform source, N divisible by 1, ..., size: the positions [ps] are all
    in the exponential reservoir after n adds in a fraction
    (size - r_0) ... (size - r_(n-1)) / size^n of all outcomes of the draws. *)
Theorem exp_reservoir_sets_law :
  forall (N : positive) (size : Z) (n : nat), 1 <= size <= 2147483647 ->
    (forall m, 1 <= m <= size -> (m | Z.pos N)) ->
    forall ps : list Z, NoDup ps -> (forall p, In p ps -> 0 <= p < Z.of_nat n) ->
    size ^ Z.of_nat n *
      count_if (fun d => match exp_run qops size (enumerate 0 d) with
                         | Ok (s, _) => all_in ps (sample s) | _ => false end) (all_draws N n)
    = survive size ps n * Z.of_nat (length (all_draws N n)).
Proof. intros N size n Hs Hd ps. exact (exp_set_count N size n Hs Hd ps). Qed.
Print Assumptions exp_reservoir_sets_law.

(** C105. An element followed by [age] others is in the reservoir with probability
    exactly (1 - 1/size)^age, whatever came before it. *)
Theorem exp_reservoir_decay :
  forall (N : positive) (size : Z), 1 <= size <= 2147483647 ->
    (forall m, 1 <= m <= size -> (m | Z.pos N)) ->
    forall p age : nat,
    size ^ Z.of_nat age *
      count_if (fun d => match exp_run qops size (enumerate 0 d) with
                         | Ok (s, _) => existsb (fun c => match c with Some q => q =? Z.of_nat p | None => false end) (sample s)
                         | _ => false end) (all_draws N (p + 1 + age))
    = (size - 1) ^ Z.of_nat age * Z.of_nat (length (all_draws N (p + 1 + age))).
Proof.
  intros N size Hs Hd p age. set (n := (p + 1 + age)%nat).
  pose proof (exp_reservoir_sets_law N size n Hs Hd [Z.of_nat p]) as H.
  specialize (H ltac:(repeat constructor; intros [])).
  specialize (H ltac:(intros q [<-|[]]; unfold n; lia)).
  rewrite survive_one in H by (unfold n; lia).
  replace (Z.of_nat n - 1 - Z.of_nat p) with (Z.of_nat age) in H by (unfold n; lia).
  replace (Z.of_nat n) with (Z.of_nat p + 1 + Z.of_nat age) in H by (unfold n; lia).
  rewrite (Z.pow_add_r size (Z.of_nat p + 1)) in H by lia. rewrite <- !Z.mul_assoc in H.
  apply Z.mul_reg_l in H; [|apply Z.pow_nonzero; lia].
  rewrite <- H. f_equal. apply count_ext. intros d _.
  destruct (exp_run qops size (enumerate 0 d)) as [[s is]| | |]; auto.
  unfold all_in. cbn [forallb]. now rewrite andb_true_r.
Qed.
Print Assumptions exp_reservoir_decay.

(** Such grids exist for every size. *)
Lemma exp_grid_exists : forall size : Z, 1 <= size -> exists N, forall m, 1 <= m <= size -> (m | Z.pos N).
Proof.
  intros size Hs. destruct (reservoir_grid_exists 1 (Z.to_nat size)) as [N [_ H]]; [lia|]. exists N.
  intros m Hm. destruct (Z.eq_dec m 1) as [->|]; [apply Z.divide_1_l|]. apply H. lia.
Qed.

(** Size 2, three adds, draws 0 and 1/2: position 0 has age 2 and is kept in one
    outcome out of four; positions 0 and 1 together never. *)
Example exp_reservoir_decay_ex :
  (forall m, 1 <= m <= 2 -> (m | 2)) /\ (length (all_draws 2 3) = 64)%nat /\
  count_if (fun d => match exp_run qops 2 (enumerate 0 d) with
                     | Ok (s, _) => all_in [0] (sample s) | _ => false end) (all_draws 2 3) = 16 /\
  count_if (fun d => match exp_run qops 2 (enumerate 0 d) with
                     | Ok (s, _) => all_in [1; 2] (sample s) | _ => false end) (all_draws 2 3) = 32 /\
  survive 2 [0; 1] 3 = 0 /\ survive 2 [1; 2] 3 = 4.
Proof.
  split. { intros m Hm. assert (m = 1 \/ m = 2) as [->| ->] by lia; [exists 2|exists 1]; lia. }
  split; [reflexivity|]. split; [vm_compute; reflexivity|]. split; vm_compute; auto.
Qed.
