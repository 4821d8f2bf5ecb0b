(** * Properties of the perceptron (C43-C45, C67) *)
From Coq Require Import ZArith List Bool Lia Reals Lra QArith.
From Verif Require Import CppBase CppFacts NumOps Perceptron_Model Perceptron_Spec Perceptron_Proofs
  Perceptron_Weights Perceptron_Gradient.
Import ListNotations.
Local Open Scope Z_scope.

(** The size of layer [l], and the last layer, of a network given by its layer sizes. *)
Definition layer (sz : list nat) (l : nat) : nat := nth l sz 0%nat.
Definition last_layer (sz : list nat) : nat := (length sz - 1)%nat.
(** An object with these layers whose two arrays have [t] cells each. *)
Definition network (O : ops) (sz : list nat) (t : nat) (m : mlp O) : Prop :=
  layer_size O m = map Z.of_nat sz /\ length (weights O m) = t /\ length (neuron_output O m) = t.
(** All neurons and all weights fit in [t] cells. *)
Definition room (sz : list nat) (t : nat) : Prop :=
  (neurons_before (layer sz) (length sz) <= t)%nat /\ (weights_before (layer sz) (length sz) <= t)%nat.
(** The weights an array stands for. *)
Definition weights_of (O : ops) (sz : list nat) (ws : list (num O)) (l i j : nat) : num O :=
  nth (place (layer sz) l i j) ws (nofZ O 0).
Definition values (O : ops) (x : list (num O)) (i : nat) : num O := nth i x (nofZ O 0).
(** Weight [j] of neuron [i] of layer [l] exists. *)
Definition is_weight (sz : list nat) (l i j : nat) : Prop :=
  (1 <= l < length sz)%nat /\ (i < layer sz l)%nat /\ (j <= layer sz (l - 1))%nat.
Definition predicted (O : ops) (sz : list nat) (act : num O -> num O) (ws x : list (num O)) : list (num O) :=
  map (output O (layer sz) act (weights_of O sz ws) (values O x) (last_layer sz)) (seq 0 (layer sz (last_layer sz))).

Lemma is_weight_coord : forall sz l i j, is_weight sz l i j <-> (l < length sz)%nat /\ coord (size sz) l i j.
Proof.
  intros sz l i j. unfold is_weight, coord. change (layer sz) with (size sz). replace (l - 1)%nat with (pred l) by lia. tauto.
Qed.

(** C43. For every layer structure that fits, [feed_forward] gives the output of the
    mathematical network, in any arithmetic (binary64 included) and for any activation. It changes
    neither the weights nor the rest. *)
Theorem perceptron_feed_forward :
  forall O sz t (act : num O -> num O) m x o, sz <> [] -> network O sz t m -> room sz t ->
  length x = layer sz 0 -> length o = layer sz (last_layer sz) ->
  exists m', feed_forward O (Z.of_nat (length sz)) act m x o = Ok (m', predicted O sz act (weights O m) x) /\
    network O sz t m' /\ weights O m' = weights O m /\ learning_rate O m' = learning_rate O m.
Proof.
  intros O sz t act m x o Ne N R Hx Ho.
  destruct (feed_ok O act sz Ne t R m N x Hx o Ho) as [m' [o' [E [A [B [C [D F]]]]]]].
  exists m'. split; [rewrite E, F; reflexivity|]. split; [|auto]. split; [rewrite C; apply N|]. split; [rewrite B; apply N|apply D].
Qed.
Print Assumptions perceptron_feed_forward.

(** C43. From the constructor: the weights given to [set_weights] are those of the network. *)
Theorem perceptron_set_then_feed :
  forall O sz max_size (rate : num O) random (act : num O -> num O) ws x o, sz <> [] -> 0 <= max_size ->
  room sz (Z.to_nat (total_weight_count max_size)) ->
  length ws = weights_before (layer sz) (length sz) ->
  length x = layer sz 0 -> length o = layer sz (last_layer sz) ->
  exists m', (do m <- mlp_init O (Z.of_nat (length sz)) max_size (map Z.of_nat sz) rate random;
              do m <- set_weights_all O (Z.of_nat (length sz)) m ws;
              feed_forward O (Z.of_nat (length sz)) act m x o) = Ok (m', predicted O sz act ws x) /\
    network O sz (Z.to_nat (total_weight_count max_size)) m'.
Proof.
  intros O sz M rate random act ws x o Ne HM R Hw Hx Ho. unfold mlp_init.
  set (t := Z.to_nat (total_weight_count M)) in *.
  assert (Ls : forZ (Z.to_nat (Z.of_nat (length sz))) 0 (fun i ls => do s <- rd (map Z.of_nat sz) i; Ok (ls ++ [s])) [] = Ok (map Z.of_nat sz)).
  { rewrite Nat2Z.id.
    destruct (forN _ (fun k ls => ls = map Z.of_nat (firstn k sz)) (fun i ls => do s <- rd (map Z.of_nat sz) i; Ok (ls ++ [s])) (length sz) 0 []) as [ls [E ->]].
    - reflexivity.
    - intros k ls Hk ->. rewrite Z.add_0_l. rewrite (rdN_nth _ _ _ 0) by (rewrite map_length; lia). cbn [bind].
      eexists. split; [reflexivity|]. change 0 with (Z.of_nat 0). rewrite map_nth.
      change [Z.of_nat (nth k sz 0%nat)] with (map Z.of_nat [nth k sz 0%nat]). rewrite <- map_app. f_equal. clear - Hk. revert k Hk. induction sz as [|a l IH]; intros k Hk; [cbn in Hk; lia|].
      destruct k as [|k]; [reflexivity|]. cbn [firstn app nth]. f_equal. apply IH. cbn in Hk. lia.
    - now rewrite firstn_all in E. }
  rewrite Ls. cbn [bind].
  set (m0 := mkMlp O rate (map random (seq 0 t)) (repeat None t) (map Z.of_nat sz)).
  assert (N0 : network O sz t m0).
  { split; [reflexivity|]. split; [cbn; now rewrite map_length, seq_length|cbn; now rewrite repeat_length]. }
  destruct (set_all_ok O sz Ne t m0 N0 ws R Hw) as [m1 [E [A1 [A2 [A3 A4]]]]]. rewrite E. cbn [bind].
  assert (N1 : network O sz t m1).
  { split; [rewrite A2; apply N0|]. split; [|rewrite A3; apply N0]. rewrite A4, app_length, skipn_length.
    destruct N0 as [_ [-> _]]. destruct R as [_ R]. change (size sz) with (layer sz). lia. }
  destruct (perceptron_feed_forward O sz t act m1 x o Ne N1 R Hx Ho) as [m' [E' [N' _]]].
  exists m'. split; [|exact N']. rewrite E'. f_equal. f_equal. unfold predicted.
  assert (P : forall l i, (l < length sz)%nat -> (i < layer sz l)%nat ->
     output O (layer sz) act (weights_of O sz (weights O m1)) (values O x) l i = output O (layer sz) act (weights_of O sz ws) (values O x) l i).
  { induction l as [|l IH]; intros i Hl Hi; [reflexivity|]. cbn [output].
    assert (W : forall j, (j <= layer sz l)%nat -> weights_of O sz (weights O m1) (S l) i j = weights_of O sz ws (S l) i j).
    { intros j Hj. unfold weights_of. rewrite A4. apply app_nth1. rewrite Hw.
      apply (place_lt (layer sz) (S l) i j); [|exact Hl]. split; [lia|]. split; [exact Hi|exact Hj]. }
    f_equal. rewrite (W (layer sz l)) by lia. f_equal. apply total_ext. intros j Hj. now rewrite W, IH by lia. }
  apply map_ext_in. intros i Hi. apply in_seq in Hi. apply P; [|lia].
  unfold last_layer. destruct sz; [congruence|cbn; lia].
Qed.
Print Assumptions perceptron_set_then_feed.

(** A 2-2-1 network computing the exclusive or with the step function, in rationals. *)
Definition step (z : Q) : Q := if Qle_bool (1 # 2) z then 1%Q else 0%Q.
Definition xor_weights : list Q := map inject_Z [1; 1; 0; 1; 1; -1; 1; -2; 0].
Definition xor_net (a b : Z) : res (list Q) :=
  do m <- mlp_init qops 3 150 [2; 2; 1] (1 # 2)%Q (fun _ => 0%Q);
  do m <- set_weights_all qops 3 m xor_weights;
  do (_, o) <- feed_forward qops 3 step m (map inject_Z [a; b]) [7%Q];
  Ok o.
Definition is_out (r : res (list Q)) (q : Q) : bool := match r with Ok [v] => Qeq_bool v q | _ => false end.
Example perceptron_xor :
  is_out (xor_net 0 0) 0 = true /\ is_out (xor_net 0 1) 1 = true /\
  is_out (xor_net 1 0) 1 = true /\ is_out (xor_net 1 1) 0 = true.
Proof. vm_compute. auto. Qed.
Example perceptron_xor_room : room [2; 2; 1]%nat (Z.to_nat (total_weight_count 150)).
Proof. split; vm_compute; lia. Qed.

(** C44. [backpropagate] is undefined after every [feed_forward] on every network with at
    least two layers: the layer before the first is read (l.168). *)
Theorem perceptron_backpropagate_undefined :
  forall O sz t (act deriv : num O -> num O) m x o e, (2 <= length sz)%nat -> network O sz t m -> room sz t ->
  length x = layer sz 0 -> length o = layer sz (last_layer sz) -> length e = layer sz (last_layer sz) ->
  (do (m', _) <- feed_forward O (Z.of_nat (length sz)) act m x o;
   backpropagate O (Z.of_nat (length sz)) deriv None m' e) = Undef OutOfBounds.
Proof.
  intros O sz t act deriv m x o e H2 N R Hx Ho He. assert (Ne : sz <> []) by (destruct sz; [cbn in H2; lia|discriminate]).
  destruct (feed_ok O act sz Ne t R m N x Hx o Ho) as [m' [o' [E [A [B [C [D F]]]]]]]. rewrite E. cbn [bind].
  assert (N' : network O sz t m') by (split; [rewrite C; apply N|]; split; [rewrite B; apply N|apply D]).
  apply (backprop_undef O act deriv sz Ne t R m' N' x); auto.
  unfold holds in *. rewrite B. exact D.
Qed.
Print Assumptions perceptron_backpropagate_undefined.

Definition out_of_bounds {A} (r : res A) : bool := match r with Undef OutOfBounds => true | _ => false end.
(** C44, on the smallest network: one input, one neuron. *)
Theorem perceptron_backpropagate_defined_refuted :
  exists (sz : list nat) (rate : Q) x o e,
    room sz (Z.to_nat (total_weight_count 64)) /\ length x = layer sz 0 /\
    length o = layer sz (last_layer sz) /\ length e = layer sz (last_layer sz) /\
    out_of_bounds (do m <- mlp_init qops (Z.of_nat (length sz)) 64 (map Z.of_nat sz) rate (fun _ => 1%Q);
       do (m, _) <- feed_forward qops (Z.of_nat (length sz)) (fun z => z) m x o;
       backpropagate qops (Z.of_nat (length sz)) (fun _ => 1%Q) None m e) = true.
Proof.
  exists [1; 1]%nat, (1 # 2)%Q, [3%Q], [0%Q], [5%Q]. split; [split; vm_compute; lia|].
  split; [reflexivity|]. split; [reflexivity|]. split; [reflexivity|]. vm_compute. reflexivity.
Qed.
Print Assumptions perceptron_backpropagate_defined_refuted.

(** C44. Whatever the stray read gives, the rest is right: every weight is replaced by
    [w + ((-rate) * input) * delta], with [delta] from the chain rule on the weights and outputs
    before the call; the mean squared error is returned; cells beyond the weights keep their value. *)
Theorem perceptron_backpropagate_step :
  forall O sz t (act deriv : num O -> num O) m x o e below, sz <> [] -> network O sz t m -> room sz t ->
  length x = layer sz 0 -> length o = layer sz (last_layer sz) -> length e = layer sz (last_layer sz) ->
  exists m', (do (m1, _) <- feed_forward O (Z.of_nat (length sz)) act m x o;
              backpropagate O (Z.of_nat (length sz)) deriv (Some below) m1 e) =
    Ok (m', let last := last_layer sz in
            let err i := nsub O (output O (layer sz) act (weights_of O sz (weights O m)) (values O x) last i) (values O e i) in
            ndiv O (total O (fun i => nmul O (err i) (err i)) (layer sz last)) (nofZ O (Z.of_nat (layer sz last)))) /\
    network O sz t m' /\ learning_rate O m' = learning_rate O m /\
    (forall l i j, is_weight sz l i j ->
       weights_of O sz (weights O m') l i j =
       descended O (layer sz) act deriv (weights_of O sz (weights O m)) (values O x) (last_layer sz) (values O e) (learning_rate O m) l i j) /\
    (forall k, (weights_before (layer sz) (length sz) <= k)%nat -> nth_error (weights O m') k = nth_error (weights O m) k).
Proof.
  intros O sz t act deriv m x o e below Ne N R Hx Ho He.
  destruct (feed_ok O act sz Ne t R m N x Hx o Ho) as [m1 [o' [E [A [B [C [D F]]]]]]]. rewrite E. cbn [bind].
  assert (N' : network O sz t m1) by (split; [rewrite C; apply N|]; split; [rewrite B; apply N|apply D]).
  assert (D' : holds O act sz t m1 x (length sz) (neuron_output O m1)) by (unfold holds in *; rewrite B; exact D).
  destruct (backprop_ok O act deriv sz Ne t R m1 N' x D' e He (Some below) ltac:(discriminate)) as [m' [E' [N2 [A2 [B2 C2]]]]].
  rewrite B, A in *. exists m'. split; [exact E'|]. split; [exact N2|]. split; [exact A2|]. split; [|exact C2].
  intros l i j W. apply is_weight_coord in W. destruct W as [W1 W2]. now apply B2.
Qed.
Print Assumptions perceptron_backpropagate_step.

(** 1-1 network, weight 1, bias 1, input 3, target 5, rate 1/2: output 4, error -1;
    the weight becomes 1 + 3/2, the bias 1 + 1/2, and the mean squared error is 1. *)
Definition tiny_step : res (mlp qops * Q) :=
  do m <- mlp_init qops 2 64 [1; 1] (1 # 2)%Q (fun _ => 1%Q);
  do (m, _) <- feed_forward qops 2 (fun z => z) m [3%Q] [0%Q];
  backpropagate qops 2 (fun _ => 1%Q) (Some 1000) m [5%Q].
Example perceptron_tiny_step :
  match tiny_step with
  | Ok (m, r) => match weights qops m with
                 | a :: b :: c :: _ => Qeq_bool a (5 # 2) && Qeq_bool b (3 # 2) && Qeq_bool c 1 && Qeq_bool r 1
                 | _ => false
                 end
  | _ => false
  end = true.
Proof. vm_compute. reflexivity. Qed.
(** Two layers of weights: the error of the hidden neuron uses the weight before its change. *)
Definition deep_step : res (mlp qops * Q) :=
  do m <- mlp_init qops 3 64 [1; 1; 1] 1%Q (fun _ => 1%Q);
  do m <- set_weights_all qops 3 m (map inject_Z [2; 0; 3; 0]);
  do (m, _) <- feed_forward qops 3 (fun z => z) m [1%Q] [0%Q];
  backpropagate qops 3 (fun _ => 1%Q) (Some 0) m [5%Q].
Example perceptron_deep_step :
  match deep_step with
  | Ok (m, r) => match weights qops m with
                 | a :: b :: c :: d :: _ => Qeq_bool a (-1) && Qeq_bool b (-3) && Qeq_bool c 1 && Qeq_bool d (-1) && Qeq_bool r 1
                 | _ => false
                 end
  | _ => false
  end = true.
Proof. vm_compute. reflexivity. Qed.

(** C44. In exact arithmetic, with [derivative (activation z)] the derivative of the
    activation at [z], the change of each weight is [- learning_rate] times the partial derivative
    of half the sum of squared errors with respect to that weight. *)
Theorem perceptron_backpropagate_gradient :
  forall sz t (act deriv : R -> R) (m : mlp rops) (x o e : list R) below,
  (forall z, derivable_pt_lim act z (deriv (act z))) ->
  sz <> [] -> network rops sz t m -> room sz t ->
  length x = layer sz 0 -> length o = layer sz (last_layer sz) -> length e = layer sz (last_layer sz) ->
  exists m' r, (do (m1, _) <- feed_forward rops (Z.of_nat (length sz)) act m x o;
                backpropagate rops (Z.of_nat (length sz)) deriv (Some below) m1 e) = Ok (m', r) /\
    forall l i j, is_weight sz l i j ->
    exists slope : R,
      derivable_pt_lim (fun h => loss (layer sz) act
          (fun l' i' j' => weights_of rops sz (weights rops m) l' i' j' + (if (Nat.eqb l' l && Nat.eqb i' i && Nat.eqb j' j)%bool then h else 0))%R
          (values rops x) (last_layer sz) (values rops e)) 0 slope /\
      @eq R (weights_of rops sz (weights rops m') l i j)
            (weights_of rops sz (weights rops m) l i j - learning_rate rops m * slope)%R.
Proof.
  intros sz t act deriv m x o e below Ha Ne N R Hx Ho He.
  destruct (perceptron_backpropagate_step rops sz t act deriv m x o e below Ne N R Hx Ho He) as [m' [E [_ [_ [H _]]]]].
  eexists. eexists. split; [exact E|]. intros l i j W. rewrite (H l i j W). destruct W as [W1 [W2 W3]].
  eexists. split.
  - eapply deriv_eq; [| |apply (partial_der (layer sz) act deriv (last_layer sz) (values rops x) (values rops e)
       (weights_of rops sz (weights rops m)) l i j Ha)].
    + intros h. unfold loss. f_equal. apply T_ext. intros k _. f_equal. f_equal. apply output_ext. intros l' i' j'. unfold unit_at.
      destruct (_ && _)%bool; ring.
    + reflexivity.
    + unfold last_layer. lia.
    + exact W2.
    + now replace (pred l) with (l - 1)%nat by lia.
  - unfold descended. cbn [rops nadd nmul nopp]. change (num rops) with Rdefinitions.R. ring.
Qed.
Print Assumptions perceptron_backpropagate_gradient.

(** The logistic function, with [derivative(s) = s * (1 - s)] taken of the output, meets the hypothesis. *)
Definition logistic (z : R) : R := (/ (1 + exp (- z)))%R.
Example logistic_hypothesis : forall z, derivable_pt_lim logistic z (logistic z * (1 - logistic z))%R.
Proof.
  intros z. pose proof (exp_pos (- z)) as Hp.
  apply (deriv_eq (div_fct (fct_cte 1) (plus_fct (fct_cte 1) (comp exp (opp_fct id)))) _ z
    ((0 * (1 + exp (- z)) - (0 + exp (- z) * - 1) * 1) / Rsqr (1 + exp (- z)))%R).
  - intros t. unfold logistic, div_fct, plus_fct, comp, opp_fct, id, fct_cte. unfold Rdiv. apply Rmult_1_l.
  - unfold logistic, Rsqr. field. lra.
  - apply (derivable_pt_lim_div (fct_cte 1) (plus_fct (fct_cte 1) (comp exp (opp_fct id)))).
    + apply derivable_pt_lim_const.
    + apply derivable_pt_lim_plus; [apply derivable_pt_lim_const|].
      apply (derivable_pt_lim_comp (opp_fct id) exp); [|apply derivable_pt_lim_exp].
      apply derivable_pt_lim_opp. apply derivable_pt_lim_id.
    + unfold plus_fct, comp, opp_fct, id, fct_cte. lra.
Qed.

(** C44. A step never goes uphill: in exact arithmetic, moving the weights towards those
    after the call does not increase the loss to first order. *)
Theorem perceptron_descent :
  forall sz t (act deriv : R -> R) (m : mlp rops) (x o e : list R) below,
  (forall z, derivable_pt_lim act z (deriv (act z))) -> (0 <= learning_rate rops m)%R ->
  sz <> [] -> network rops sz t m -> room sz t ->
  length x = layer sz 0 -> length o = layer sz (last_layer sz) -> length e = layer sz (last_layer sz) ->
  exists m' r, (do (m1, _) <- feed_forward rops (Z.of_nat (length sz)) act m x o;
                backpropagate rops (Z.of_nat (length sz)) deriv (Some below) m1 e) = Ok (m', r) /\
    exists slope : R, (slope <= 0)%R /\
      derivable_pt_lim (fun h => loss (layer sz) act
          (fun l i j => weights_of rops sz (weights rops m) l i j +
             h * (weights_of rops sz (weights rops m') l i j - weights_of rops sz (weights rops m) l i j))%R
          (values rops x) (last_layer sz) (values rops e)) 0 slope.
Proof.
  intros sz t act deriv m x o e below Ha Hr Ne N R Hx Ho He.
  destruct (perceptron_backpropagate_step rops sz t act deriv m x o e below Ne N R Hx Ho He) as [m' [E [_ [_ [H _]]]]].
  eexists. eexists. split; [exact E|].
  destruct (descent_der (layer sz) act deriv (last_layer sz) (values rops x) (values rops e) (weights_of rops sz (weights rops m)) _ Ha Hr) as [s [S1 S2]].
  exists s. split; [exact S1|]. eapply deriv_eq; [|reflexivity|exact S2].
  intros h. unfold loss. f_equal.
  assert (P : forall l i, (l < length sz)%nat -> (i < layer sz l)%nat -> forall w1 w2 : nat -> nat -> nat -> Rdefinitions.R,
     (forall l i j, is_weight sz l i j -> w1 l i j = w2 l i j) ->
     @eq Rdefinitions.R (output rops (layer sz) act w1 (values rops x) l i) (output rops (layer sz) act w2 (values rops x) l i)).
  { induction l as [|l IH]; intros i Hl Hi w1 w2 Hw; [reflexivity|]. cbn [output].
    assert (W : forall j, (j <= layer sz l)%nat -> w1 (S l) i j = w2 (S l) i j).
    { intros j Hj. apply Hw. split; [lia|]. split; [exact Hi|]. now replace (S l - 1)%nat with l by lia. }
    f_equal. rewrite (W (layer sz l)) by lia. f_equal. apply T_ext. intros j Hj. rewrite W by lia. rewrite (IH j ltac:(lia) Hj w1 w2 Hw). reflexivity. }
  apply T_ext. intros i Hi. f_equal. f_equal. apply P; [|exact Hi|].
  - unfold last_layer. destruct sz; [congruence|cbn; lia].
  - intros l i' j W. rewrite (H l i' j W). reflexivity.
Qed.
Print Assumptions perceptron_descent.

(** C45. [set_weights] for one neuron, one layer or the network stays within the array when the
    network fits, sets that block and changes nothing else. *)
Theorem perceptron_set_neuron :
  forall O sz t m l i ws, network O sz t m -> room sz t -> (1 <= l < length sz)%nat -> (i < layer sz l)%nat ->
  length ws = (layer sz (l - 1) + 1)%nat ->
  exists m', set_weights_neuron O m (Z.of_nat l) (Z.of_nat i) ws = Ok m' /\ network O sz t m' /\
    learning_rate O m' = learning_rate O m /\ neuron_output O m' = neuron_output O m /\
    (forall j, (j <= layer sz (l - 1))%nat -> weights_of O sz (weights O m') l i j = nth j ws (nofZ O 0)) /\
    (forall l' i' j, is_weight sz l' i' j -> (l', i') <> (l, i) ->
       weights_of O sz (weights O m') l' i' j = weights_of O sz (weights O m) l' i' j).
Proof.
  intros O sz t m l i ws N R Hl Hi Hw. replace (l - 1)%nat with (pred l) in * by lia.
  destruct (set_neuron_ok O sz t m N l i ws R Hl Hi Hw) as [m' [E [A [B [C [D [F G]]]]]]].
  exists m'. split; [exact E|]. split; [split; [rewrite B; apply N|]; split; [exact D|rewrite C; apply N]|].
  split; [exact A|]. split; [exact C|]. split; [exact F|].
  intros l' i' j W Nl. apply nth_error_same. apply G. apply is_weight_coord in W. destruct W as [W1 W2].
  change (layer sz) with (size sz) in *.
  pose proof (place_range (size sz) _ _ _ W2) as Rg.
  assert (C0 : coord (size sz) l i 0) by (split; [lia|split; [exact Hi|lia]]).
  assert (Cl : coord (size sz) l i (size sz (pred l))) by (split; [lia|split; [exact Hi|lia]]).
  pose proof (place_range (size sz) _ _ _ C0) as R0. pose proof (place_range (size sz) _ _ _ Cl) as Rl.
  assert (Ep : place (size sz) l i (size sz (pred l)) = (place (size sz) l i 0 + size sz (pred l))%nat) by (unfold place; lia).
  destruct (Nat.lt_trichotomy l' l) as [L|[->|L]].
  - pose proof (wb_mono (size sz) (S l') l L). lia.
  - assert (i' <> i) by congruence. destruct W2 as [_ [W2 W3]]. unfold place. nia.
  - pose proof (wb_mono (size sz) (S l) l' L). lia.
Qed.
Print Assumptions perceptron_set_neuron.

Theorem perceptron_set_layer :
  forall O sz t m l ws, network O sz t m -> room sz t -> (1 <= l < length sz)%nat ->
  length ws = ((layer sz (l - 1) + 1) * layer sz l)%nat ->
  exists m', set_weights_layer O m (Z.of_nat l) ws = Ok m' /\ network O sz t m' /\
    learning_rate O m' = learning_rate O m /\ neuron_output O m' = neuron_output O m /\
    (forall i j, (i < layer sz l)%nat -> (j <= layer sz (l - 1))%nat ->
       weights_of O sz (weights O m') l i j = nth (i * (layer sz (l - 1) + 1) + j) ws (nofZ O 0)) /\
    (forall l' i j, is_weight sz l' i j -> l' <> l ->
       weights_of O sz (weights O m') l' i j = weights_of O sz (weights O m) l' i j).
Proof.
  intros O sz t m l ws N R Hl Hw. replace (l - 1)%nat with (pred l) in * by lia.
  destruct (set_layer_ok O sz t m N l ws R Hl Hw) as [m' [E [A [B [C [D [F G]]]]]]].
  exists m'. split; [exact E|]. split; [split; [rewrite B; apply N|]; split; [exact D|rewrite C; apply N]|].
  split; [exact A|]. split; [exact C|]. split; [exact F|].
  intros l' i j W Nl. apply nth_error_same. apply G. apply is_weight_coord in W. destruct W as [W1 W2].
  pose proof (place_range (size sz) _ _ _ W2) as Rg. change (layer sz) with (size sz) in *.
  destruct (Nat.lt_trichotomy l' l) as [L|[->|L]]; [|congruence|].
  - pose proof (wb_mono (size sz) (S l') l L). lia.
  - pose proof (wb_mono (size sz) (S l) l' L). lia.
Qed.
Print Assumptions perceptron_set_layer.

Example perceptron_set_layer_example :
  match (do m <- mlp_init qops 3 150 [2; 2; 1] 0%Q (fun n => inject_Z (Z.of_nat n));
         do m <- set_weights_layer qops m 2 (map inject_Z [50; 51; 52]);
         do m <- set_weights_neuron qops m 1 1 (map inject_Z [40; 41; 42]); Ok (weights qops m)) with
  | Ok ws => forallb (fun p => Qeq_bool (fst p) (snd p)) (combine ws (map inject_Z [0; 1; 2; 40; 41; 42; 50; 51; 52])) && (length ws =? 9)%nat
  | _ => false
  end = true.
Proof. vm_compute. reflexivity. Qed.

(** C45. Nothing checks that the network fits; one that does not can never complete a
    [feed_forward]. *)
Theorem perceptron_misfit_undefined :
  forall O sz t (act : num O -> num O) m x o r, (2 <= length sz)%nat -> (1 <= layer sz (last_layer sz))%nat ->
  network O sz t m -> ~ room sz t -> feed_forward O (Z.of_nat (length sz)) act m x o <> Ok r.
Proof.
  intros O sz t act m x o r H2 H1 N R E. apply R.
  refine (feed_needs_fit O sz _ t m N act x o r H2 H1 E). destruct sz; [cbn in H2; lia|discriminate].
Qed.
Print Assumptions perceptron_misfit_undefined.

(** [max_size] 48 gives 3 cells; a 2-2 network has 6 weights. The constructor accepts it. *)
Example perceptron_misfit :
  out_of_bounds (do m <- mlp_init qops 2 48 [2; 2] 0%Q (fun _ => 0%Q);
                 feed_forward qops 2 (fun z => z) m [1%Q; 1%Q] [0%Q; 0%Q]) = true.
Proof. vm_compute. reflexivity. Qed.

(** C67. The two arrays of doubles may take more than [max_size] bytes, by at most 8. *)
Theorem perceptron_max_size_refuted :
  exists max_size, 0 < max_size /\ 2 * 8 * total_weight_count max_size > max_size.
Proof. exists 24. split; [lia|]. vm_compute. reflexivity. Qed.
Print Assumptions perceptron_max_size_refuted.

Theorem perceptron_max_size_bound :
  forall max_size, 0 <= max_size -> max_size - 8 <= 2 * 8 * total_weight_count max_size <= max_size + 8.
Proof.
  intros M H. unfold total_weight_count.
  pose proof (Z.div_mod M 8 ltac:(lia)) as D. pose proof (Z.mod_pos_bound M 8 ltac:(lia)) as B.
  replace ((M + 8 - M mod 8) / 8) with (M / 8 + 1).
  - pose proof (Z.div_mod (M / 8 + 1) 2 ltac:(lia)) as D2. pose proof (Z.mod_pos_bound (M / 8 + 1) 2 ltac:(lia)) as B2. lia.
  - replace (M + 8 - M mod 8) with ((M / 8 + 1) * 8) by lia. now rewrite Z.div_mul by lia.
Qed.
Print Assumptions perceptron_max_size_bound.
Example perceptron_max_size_values : map total_weight_count [8; 24; 150; 1000] = [1; 2; 9; 63].
Proof. reflexivity. Qed.
