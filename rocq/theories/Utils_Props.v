(** * Properties of the utilities (C37-C39, C61-C63) *)
From Coq Require Import ZArith QArith List Bool Lia Reals Lra Permutation.
From Flocq Require Import Core BinarySingleNaN.
From Verif Require Import CppBase CppFacts Dbl DblFacts NumOps NumFacts Reservoir_Spec Reservoir_Prob
  Utils_Model Utils_Spec Utils_Proofs.
Import ListNotations.
Local Open Scope Z_scope.

(** C37. In binary64, with draws in [0,1), shuffle rearranges the array. *)
Theorem shuffle_permutes :
  forall (A : Type) (a : list A) (ds : list dbl), a <> [] -> Z.of_nat (length a) <= 2147483647 ->
  length ds = (length a - 1)%nat -> Forall unit_open ds ->
  exists b, shuffle dops ds a (Z.of_nat (length a)) = Ok b /\ Permutation a b.
Proof.
  intros A a ds Ne Hm Hl Hd. assert (0 < length a)%nat by (destruct a; [congruence|cbn; lia]).
  unfold shuffle. replace (Z.to_nat (Z.of_nat (length a) - 1)) with (length a - 1)%nat by lia.
  rewrite Forall_forall in Hd.
  destruct (shuffle_dops A (length a - 1) ds a) as [js [G E]]; auto; try lia.
  eexists. split; [exact E|]. apply shuf_perm; [exact G|lia].
Qed.
Print Assumptions shuffle_permutes.

(** C37. It never leaves an element in place. *)
Theorem shuffle_moves_everything :
  forall (A : Type) (a : list A) (ds : list dbl), NoDup a -> 2 <= Z.of_nat (length a) <= 2147483647 ->
  length ds = (length a - 1)%nat -> Forall unit_open ds ->
  exists b, shuffle dops ds a (Z.of_nat (length a)) = Ok b /\ deranged a b.
Proof.
  intros A a ds Nd Hm Hl Hd.
  unfold shuffle. replace (Z.to_nat (Z.of_nat (length a) - 1)) with (length a - 1)%nat by lia.
  rewrite Forall_forall in Hd.
  destruct (shuffle_dops A (length a - 1) ds a) as [js [G E]]; auto; try lia.
  eexists. split; [exact E|]. apply shuf_deranged; auto. lia.
Qed.
Print Assumptions shuffle_moves_everything.

(** The outcome of a shuffle is [b]. *)
Definition outcome (a b : list Z) (ds : list Q) : bool :=
  match shuffle qops ds a (Z.of_nat (length a)) with
  | Ok c => same_array c b
  | _ => false
  end.

(** C37. With an ideal source an arrangement has probability 0 or 1/(n-1)!. *)
Theorem shuffle_distribution :
  forall (N : positive) (a b : list Z), NoDup a -> 1 <= Z.of_nat (length a) <= 2147483647 ->
  (forall i, 1 <= i < Z.of_nat (length a) -> (i | Z.pos N)) ->
  let all := draws N (length a - 1) in
  count_if (outcome a b) all = 0 \/
  zfact (length a - 1) * count_if (outcome a b) all = Z.of_nat (length all).
Proof.
  intros N a b Nd Hm Hd all.
  assert (E : forall ds, outcome a b ds = hits (length a - 1) a b ds).
  { intros ds. unfold outcome, hits, shuffle.
    now replace (Z.to_nat (Z.of_nat (length a) - 1)) with (length a - 1)%nat by lia. }
  rewrite (count_ext _ _ (hits (length a - 1) a b)) by (intros; apply E).
  apply hits_dist; auto; try lia. intros i Hi. apply Hd. lia.
Qed.
Print Assumptions shuffle_distribution.

(** C37. The original arrangement has probability 0, for every array. *)
Theorem shuffle_never_identity :
  forall (N : positive) (a : list Z), NoDup a -> 2 <= Z.of_nat (length a) <= 2147483647 ->
  count_if (outcome a a) (draws N (length a - 1)) = 0.
Proof.
  intros N a Nd Hm. rewrite (count_ext _ _ (fun _ => false)); [apply count_false|].
  intros ds Hd. destruct (draws_spec N _ _ Hd) as [L V].
  destruct (shuffle_qops N (length a - 1) ds a) as [js [G E]]; auto; try lia.
  unfold outcome, shuffle. replace (Z.to_nat (Z.of_nat (length a) - 1)) with (length a - 1)%nat by lia.
  rewrite E. unfold same_array. destruct (list_eq_dec Z.eq_dec (shuf (length a - 1) js a) a) as [Ea|]; [|reflexivity].
  exfalso. destruct (shuf_deranged Z a js Nd ltac:(lia) G) as [_ D]. rewrite Ea in D.
  destruct a as [|x a]; [cbn in Hm; lia|]. exact (D 0%nat x eq_refl eq_refl).
Qed.
Print Assumptions shuffle_never_identity.

(** C37. Not every permutation is equally likely. *)
Theorem shuffle_uniform_refuted :
  exists (N : positive) (a b : list Z), NoDup a /\ Permutation a b /\
    zfact (length a) * count_if (outcome a b) (draws N (length a - 1)) <> Z.of_nat (length (draws N (length a - 1))).
Proof.
  exists 2%positive, [1; 2; 3], [1; 2; 3]. split; [|split; [reflexivity|]].
  - repeat constructor; cbn; intuition lia.
  - rewrite shuffle_never_identity; [vm_compute; discriminate| |vm_compute; split; discriminate].
    repeat constructor; cbn; intuition lia.
Qed.
Print Assumptions shuffle_uniform_refuted.

Example shuffle_ex :
  shuffle dops [dhalf; dzero; dhalf] [10; 11; 12; 13] 4 = Ok [13; 12; 10; 11] /\
  count_if (outcome [1; 2; 3] [2; 3; 1]) (draws 6 2) = 18 /\
  count_if (outcome [1; 2; 3] [3; 1; 2]) (draws 6 2) = 18 /\
  count_if (outcome [1; 2; 3] [2; 1; 3]) (draws 6 2) = 0 /\ length (draws 6 2) = 36%nat.
Proof. repeat split; vm_compute; reflexivity. Qed.

(** C38. Exact arithmetic: the index whose cumulative interval contains the draw. *)
Theorem pick_is_inverse_cdf :
  forall (w : list R) (u : R), Forall (fun x => 0 <= x)%R w ->
  (0 < partial_sum w (length w))%R -> (0 < u <= 1)%R ->
  exists p i, turn_array_into_probability rops w (Z.of_nat (length w)) (-1)%R = Ok p /\
    pick_from_distribution rops u p (Z.of_nat (length w)) = Ok i /\ 0 <= i < Z.of_nat (length w) /\
    (partial_sum w (Z.to_nat i) / partial_sum w (length w) < u <= partial_sum w (S (Z.to_nat i)) / partial_sum w (length w))%R /\
    (0 < nth (Z.to_nat i) w 0)%R.
Proof. exact pick_real. Qed.
Print Assumptions pick_is_inverse_cdf.

(** C38. Binary64: no undefined behaviour, and a positive draw never picks an index of
    weight zero, if the sum is finite and not zero. The index can be [size]. *)
Theorem pick_positive_weight :
  forall (w : list dbl) (u : dbl), w <> [] -> is_finite u = true -> (0 < B2R u)%R ->
  let s := fold_left dadd w dzero in is_finite s = true -> B2R s <> 0%R ->
  exists p i, turn_array_into_probability dops w (Z.of_nat (length w)) (dofZ (-1)) = Ok p /\
    pick_from_distribution dops u p (Z.of_nat (length w)) = Ok i /\ 0 <= i <= Z.of_nat (length w) /\
    forall x, nth_error w (Z.to_nat i) = Some x -> is_finite x = true -> B2R x <> 0%R.
Proof. exact pick_positive_ieee. Qed.
Print Assumptions pick_positive_weight.

(** C38. The draw 0 picks index 0 although its weight is zero. *)
Theorem pick_zero_weight_refuted :
  exists (w : list dbl) (u : dbl), unit_open u /\ nth_error w 0 = Some dzero /\ nth_error w 1 = Some done /\
    (do p <- turn_array_into_probability dops w 2 (dofZ (-1)); pick_from_distribution dops u p 2) = Ok 0.
Proof.
  exists [dzero; done], dzero. split; [split; [reflexivity|]; unfold dzero; cbn; lra|].
  split; [reflexivity|]. split; [reflexivity|]. vm_compute. reflexivity.
Qed.
Print Assumptions pick_zero_weight_refuted.

(** C38. With seven equal weights and the draw 1 - 2^-53 the index is 7. *)
Theorem pick_in_range_refuted :
  exists (w : list dbl) (u : dbl), unit_open u /\ w = repeat done 7 /\
    (do p <- turn_array_into_probability dops w 7 (dofZ (-1)); pick_from_distribution dops u p 7) = Ok 7.
Proof.
  exists (repeat done 7), (dlit 9007199254740991 (-53)). split; [|split; [reflexivity|vm_compute; reflexivity]].
  split; [reflexivity|]. vm_compute. lra.
Qed.
Print Assumptions pick_in_range_refuted.

Example pick_ex :
  (do p <- turn_array_into_probability dops [dofZ 6; dofZ 15; dzero; dofZ 9] 4 (dofZ (-1));
   pick_from_distribution dops (dlit 3 (-2)) p 4) = Ok 3 /\
  (do p <- turn_array_into_probability dops [dofZ 6; dofZ 15; dzero; dofZ 9] 4 (dofZ (-1));
   pick_from_distribution dops dhalf p 4) = Ok 1.
Proof. split; vm_compute; reflexivity. Qed.

(** C39. On doubles without NaN: the first of the largest values. *)
Theorem index_max_first_maximum :
  forall a : list dbl, a <> [] -> Forall not_nan a ->
  exists b v, index_max (fun x y => dgt x y) a (Z.of_nat (length a)) = Ok (Z.of_nat b) /\ nth_error a b = Some v /\
    (forall j x, nth_error a j = Some x -> dlt v x = false) /\
    (forall j x, (j < b)%nat -> nth_error a j = Some x -> dlt x v = true).
Proof.
  intros a Ne Hn. rewrite Forall_forall in Hn.
  destruct (index_max_ok dbl (fun x y => dgt x y) dkey a) as [b [v [H1 [H2 [H3 H4]]]]]; auto.
  - intros x y Hx Hy. apply dlt_key; auto.
  - exists b, v. split; [exact H1|]. split; [exact H2|]. pose proof (nth_error_In _ _ H2) as Iv. split.
    + intros j x Hx. pose proof (H3 j x Hx) as K. pose proof (nth_error_In _ _ Hx) as Ix.
      destruct (dlt v x) eqn:E; [|reflexivity]. apply dlt_key in E; auto. lra.
    + intros j x Hj Hx. pose proof (H4 j x Hj Hx) as K. pose proof (nth_error_In _ _ Hx) as Ix. apply dlt_key; auto.
Qed.
Print Assumptions index_max_first_maximum.

(** C39. The same for [int]. *)
Theorem index_max_first_maximum_int :
  forall a : list Z, a <> [] ->
  exists b v, index_max Z.gtb a (Z.of_nat (length a)) = Ok (Z.of_nat b) /\ nth_error a b = Some v /\
    (forall j x, nth_error a j = Some x -> x <= v) /\
    (forall j x, (j < b)%nat -> nth_error a j = Some x -> x < v).
Proof.
  intros a Ne. destruct (index_max_ok Z Z.gtb IZR a) as [b [v [H1 [H2 [H3 H4]]]]]; auto.
  - intros x y _ _. rewrite Z.gtb_ltb, Z.ltb_lt. split; [apply IZR_lt|apply lt_IZR].
  - exists b, v. split; [exact H1|]. split; [exact H2|]. split.
    + intros j x Hx. apply le_IZR. eauto.
    + intros j x Hj Hx. apply lt_IZR. eauto.
Qed.
Print Assumptions index_max_first_maximum_int.

Example index_max_ex :
  index_max (fun x y => dgt x y) [done; dninf; dinf; dhalf; dinf] 5 = Ok 2 /\
  index_max Z.gtb [3; 8; -1; 8] 4 = Ok 1.
Proof. split; vm_compute; reflexivity. Qed.

(** C61. In exact arithmetic round returns a nearest integer. *)
Theorem round_nearest :
  forall v, (-2147483647 <= v <= 2147483646)%R ->
  exists z, round rops (/ 2)%R v = Ok z /\ (Rabs (IZR z - v) <= / 2)%R.
Proof. exact round_real. Qed.
Print Assumptions round_nearest.

(** C61. In binary64 it does not: 0.5 - 2^-54 becomes 1. *)
Theorem round_nearest_refuted :
  exists v : dbl, is_finite v = true /\ (0 < B2R v < / 2)%R /\ round dops dhalf v = Ok 1.
Proof.
  exists (dlit 9007199254740991 (-54)). split; [reflexivity|]. split; [|vm_compute; reflexivity].
  vm_compute. lra.
Qed.
Print Assumptions round_nearest_refuted.

Example round_ex : round dops dhalf (dlit (-5) (-1)) = Ok (-3) /\ round dops dhalf (dlit 5 (-1)) = Ok 3 /\
  round dops dhalf (dlit 9 (-2)) = Ok 2 /\ round dops dhalf (dofZ 2147483648) = Undef BadConversion.
Proof. repeat split; vm_compute; reflexivity. Qed.

(** C62. rand_exponential is the inverse of the exponential distribution function. *)
Theorem rand_exponential_inverse_cdf :
  forall u rate, (0 <= u < 1)%R -> (0 < rate)%R ->
  let x := rand_exponential rops ln u rate in (0 <= x)%R /\ (1 - exp (- rate * x) = u)%R.
Proof. exact rand_exp_real. Qed.
Print Assumptions rand_exponential_inverse_cdf.

(** C63. div_int is integer division towards zero, defined except for a zero divisor and
    INT_MIN / -1. *)
Theorem div_int_truncates :
  forall a b, -2147483648 <= a <= 2147483647 -> -2147483648 <= b <= 2147483647 -> b <> 0 ->
  (a, b) <> (-2147483648, -1) ->
  exists q, div_int a b = Ok q /\ Z.abs (q * b) <= Z.abs a < Z.abs (q * b) + Z.abs b /\ 0 <= a * (q * b).
Proof. exact div_int_ok. Qed.
Print Assumptions div_int_truncates.

Example div_int_ex : div_int (-7) 2 = Ok (-3) /\ div_int 7 (-2) = Ok (-3) /\ div_int 1 0 = Undef DivByZero /\
  div_int (-2147483648) (-1) = Undef SignedOverflow.
Proof. repeat split. Qed.
