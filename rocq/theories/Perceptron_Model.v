(** * Model of src/perceptron.hpp

    [int] index arithmetic is exact here: a network whose arrays exist has
    indexes far below 2^31. *)
From Coq Require Import ZArith List Bool.
From Verif Require Import CppBase NumOps.
Import ListNotations.
Local Open Scope Z_scope.

Section Perceptron.
  Variable O : ops.
  (** Template parameters, and the functions of [func]. *)
  Variable layer_count max_size : Z.
  Variable activation derivative : num O -> num O.
  (** What a read of [layer_size[-1]] gives: undefined behaviour ([None]), or, to
      describe what a compiled program would go on to do, some value. *)
  Variable below : option Z.

  (** l.12: [sizeof(double)] is 8; [max_size] is not negative. *)
  Definition total_weight_count : Z := ((max_size + 8 - max_size mod 8) / 8) / 2.

  (** l.13-20; [neuron_output] starts uninitialised. *)
  Record mlp : Type := mkMlp {
    learning_rate : num O;
    weights : list (num O);
    neuron_output : list (option (num O));
    layer_size : list Z }.

  (** l.26-31 and l.36-41. *)
  Definition get_weight_base (m : mlp) (layer_idx : Z) : res Z :=
    forZ (Z.to_nat (layer_idx - 1)) 1
      (fun i b =>
         do p <- rd (layer_size m) (i - 1);
         do c <- rd (layer_size m) i;
         Ok (b + (p + 1) * c)) 0.
  Definition get_output_base (m : mlp) (layer_idx : Z) : res Z :=
    forZ (Z.to_nat layer_idx) 0 (fun i b => do c <- rd (layer_size m) i; Ok (b + c)) 0.

  (** l.48-56: the constructor; [random i] is the i-th call of [func::random]. *)
  Definition mlp_init (sizes : list Z) (rate : num O) (random : nat -> num O) : res mlp :=
    do ls <- forZ (Z.to_nat layer_count) 0
      (fun i ls => do s <- rd sizes i; Ok (ls ++ [s])) [];
    Ok (mkMlp rate (map random (seq 0 (Z.to_nat total_weight_count)))
              (repeat None (Z.to_nat total_weight_count)) ls).

  (** l.75-92: the neurons of one layer. *)
  Definition forward_layer (m : mlp) (prev cur output_base weight_base : Z)
      (no : list (option (num O))) : res (list (option (num O))) :=
    forZ (Z.to_nat cur) 0
      (fun neuron_idx no =>
         do sum <- forZ (Z.to_nat prev) 0
           (fun weight_idx sum =>
              do w <- rd (weights m) (weight_base + neuron_idx * (prev + 1) + weight_idx);
              do v <- rdi no (output_base + weight_idx);
              Ok (nadd O sum (nmul O w v))) (nofZ O 0);
         do w <- rd (weights m) (weight_base + neuron_idx * (prev + 1) + prev);
         wr no (output_base + prev + neuron_idx) (Some (activation (nadd O sum w)))) no.

  (** l.62-101: [feed_forward]; gives the new state and the array [output]. *)
  Definition feed_forward (m : mlp) (input output : list (num O)) : res (mlp * list (num O)) :=
    do s0 <- rd (layer_size m) 0;
    do no <- forZ (Z.to_nat s0) 0
      (fun n no => do x <- rd input n; wr no n (Some x)) (neuron_output m);
    do (no, output_base, _) <- forZ (Z.to_nat (layer_count - 1)) 1
      (fun layer_idx '(no, output_base, weight_base) =>
         do cur <- rd (layer_size m) layer_idx;
         do prev <- rd (layer_size m) (layer_idx - 1);
         do no <- forward_layer m prev cur output_base weight_base no;
         Ok (no, output_base + prev, weight_base + cur * (prev + 1))) (no, 0, 0);
    do last <- rd (layer_size m) (layer_count - 1);
    do output <- forZ (Z.to_nat last) 0
      (fun n output => do v <- rdi no (output_base + n); wr output n v) output;
    Ok (mkMlp (learning_rate m) (weights m) no (layer_size m), output).

  Definition with_weights (m : mlp) (ws : list (num O)) : mlp :=
    mkMlp (learning_rate m) ws (neuron_output m) (layer_size m).
  (** [weights[base + i] = new_weights[from + i]] for [i < n]. *)
  Definition copy_weights (n : Z) (base from : Z) (new_weights ws : list (num O)) : res (list (num O)) :=
    forZ (Z.to_nat n) 0
      (fun i ws => do w <- rd new_weights (from + i); wr ws (base + i) w) ws.

  (** l.108-116: [set_weights] of one neuron. *)
  Definition set_weights_neuron (m : mlp) (layer_idx neuron_idx : Z) (new_weights : list (num O)) : res mlp :=
    do base <- get_weight_base m layer_idx;
    do p <- rd (layer_size m) (layer_idx - 1);
    do ws <- copy_weights (p + 1) (base + (p + 1) * neuron_idx) 0 new_weights (weights m);
    Ok (with_weights m ws).

  (** l.122-129: [set_weights] of one layer. *)
  Definition set_weights_layer (m : mlp) (layer_idx : Z) (new_weights : list (num O)) : res mlp :=
    do base <- get_weight_base m layer_idx;
    do p <- rd (layer_size m) (layer_idx - 1);
    do c <- rd (layer_size m) layer_idx;
    do ws <- copy_weights ((p + 1) * c) base 0 new_weights (weights m);
    Ok (with_weights m ws).

  (** l.134-141: [set_weights] of the network. *)
  Definition set_weights_all (m : mlp) (new_weights : list (num O)) : res mlp :=
    do (ws, _) <- forZ (Z.to_nat (layer_count - 1)) 1
      (fun l '(ws, base) =>
         do p <- rd (layer_size m) (l - 1);
         do c <- rd (layer_size m) l;
         do ws <- copy_weights ((p + 1) * c) base base new_weights ws;
         Ok (ws, base + (p + 1) * c)) (weights m, 0);
    Ok (with_weights m ws).

  (** [layer_size[i]] with [i] possibly -1. *)
  Definition size_at (m : mlp) (i : Z) : res Z :=
    if i =? -1 then match below with Some v => Ok v | None => Undef OutOfBounds end
    else rd (layer_size m) i.

  (** l.158-164: the errors of the last layer; also the sum of squares. *)
  Definition output_errors (m : mlp) (last output_base : Z) (expected : list (num O))
      : res (list (option (num O)) * num O) :=
    forZ (Z.to_nat last) 0
      (fun i '(no, sum) =>
         do output <- rdi no (output_base + i);
         do e <- rd expected i;
         let err := nsub O output e in
         do no <- wr no (output_base + i) (Some (nmul O (derivative output) err));
         Ok (no, nadd O sum (nmul O err err))) (neuron_output m, nofZ O 0).

  (** l.169-192: the neurons of one layer and the bias. [ob] is [output_base], [w0] the
      index of the first weight of the next layer, [s] and [nx] the sizes of this layer
      and the next. *)
  Definition backward_layer (rate : num O) (s nx ob w0 : Z)
      (st : list (option (num O)) * list (num O)) : res (list (option (num O)) * list (num O)) :=
    forZ (Z.to_nat (s + 1)) 0
      (fun neuron_idx '(no, ws) =>
         do cur <- (if neuron_idx <? s then rdi no (ob + neuron_idx) else Ok (nofZ O 1));
         do err <- forZ (Z.to_nat nx) 0
           (fun weight_idx err =>
              do d <- rdi no (ob + s + weight_idx);
              do w <- rd ws (w0 + weight_idx * (s + 1) + neuron_idx);
              Ok (nadd O err (nmul O d w))) (nofZ O 0);
         let err := nmul O err (derivative cur) in
         do ws <- forZ (Z.to_nat nx) 0
           (fun weight_idx ws =>
              do d <- rdi no (ob + s + weight_idx);
              do w <- rd ws (w0 + weight_idx * (s + 1) + neuron_idx);
              wr ws (w0 + weight_idx * (s + 1) + neuron_idx)
                 (nadd O w (nmul O (nmul O (nopp O rate) cur) d))) ws;
         do no <- (if neuron_idx <? s then wr no (ob + neuron_idx) (Some err) else Ok no);
         Ok (no, ws)) st.

  (** l.152-196: [backpropagate]; [i] counts the turns, [layer_idx] goes down from
      [layer_count - 2] to 0. *)
  Definition backpropagate (m : mlp) (expected : list (num O)) : res (mlp * num O) :=
    do output_base <- get_output_base m (layer_count - 1);
    do weight_base <- get_weight_base m (layer_count - 1);
    do last <- rd (layer_size m) (layer_count - 1);
    do (no, sum) <- output_errors m last output_base expected;
    do (no, ws, _, _) <- forZ (Z.to_nat (layer_count - 1)) 0
      (fun i '(no, ws, output_base, weight_base) =>
         let layer_idx := layer_count - 2 - i in
         do s <- rd (layer_size m) layer_idx;
         do p <- size_at m (layer_idx - 1);
         do nx <- rd (layer_size m) (layer_idx + 1);
         let ob := output_base - s in
         let wb := weight_base - (p + 1) * s in
         do (no, ws) <- backward_layer (learning_rate m) s nx ob (wb + (p + 1) * s) (no, ws);
         Ok (no, ws, ob, wb)) (no, weights m, output_base, weight_base);
    Ok (mkMlp (learning_rate m) ws no (layer_size m), ndiv O sum (nofZ O last)).
End Perceptron.
