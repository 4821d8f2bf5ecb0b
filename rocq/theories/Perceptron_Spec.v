(** * A multi-layer perceptron as mathematics

    Layers, neurons and inputs are numbered from 0; layer 0 is the input. [size l]
    is the number of neurons of layer [l]; [w l i j] is the weight of input [j]
    into neuron [i] of layer [l >= 1], and [w l i (size (l-1))] its bias. *)
From Coq Require Import ZArith List Bool Reals.
From Verif Require Import CppBase NumOps.
Import ListNotations.

Section Network.
  Variable O : ops.
  Variable size : nat -> nat.
  Variable act deriv : num O -> num O.

  (** [f 0 + ... + f (n-1)], from the left. *)
  Fixpoint total (f : nat -> num O) (n : nat) : num O :=
    match n with
    | Datatypes.O => nofZ O 0
    | S n' => nadd O (total f n') (f n')
    end.

  Variable w : nat -> nat -> nat -> num O.
  Variable x : nat -> num O.

  (** Output of neuron [i] of layer [l]. *)
  Fixpoint output (l i : nat) : num O :=
    match l with
    | Datatypes.O => x i
    | S l' => act (nadd O (total (fun j => nmul O (w l i j) (output l' j)) (size l')) (w l i (size l')))
    end.

  (** The input that weight [j] of a neuron of layer [S l] multiplies. *)
  Definition input_of (l j : nat) : num O := if Nat.ltb j (size l) then output l j else nofZ O 1.

  (** Chain rule: the error of neuron [i] in layer [last - k]; [e] is the target. *)
  Variable last : nat.
  Variable e : nat -> num O.
  Fixpoint delta (k i : nat) : num O :=
    match k with
    | Datatypes.O => nmul O (deriv (output last i)) (nsub O (output last i) (e i))
    | S k' => nmul O (total (fun j => nmul O (delta k' j) (w (last - k') j i)) (size (last - k')))
                     (deriv (output (last - k) i))
    end.

  (** One step of gradient descent with the given rate. *)
  Definition descended (rate : num O) (l i j : nat) : num O :=
    nadd O (w l i j) (nmul O (nmul O (nopp O rate) (input_of (pred l) j)) (delta (last - l) i)).
End Network.

(** Half the sum of squared errors. *)
Definition loss (size : nat -> nat) (act : R -> R) (w : nat -> nat -> nat -> R) (x : nat -> R)
    (last : nat) (e : nat -> R) : R :=
  (/ 2 * total rops (fun i => (output rops size act w x last i - e i) ^ 2) (size last))%R.

(** Number of neurons before layer [l], and number of weights before layer [l]. *)
Fixpoint neurons_before (size : nat -> nat) (l : nat) : nat :=
  match l with
  | O => 0
  | S l' => neurons_before size l' + size l'
  end.
Fixpoint weights_before (size : nat -> nat) (l : nat) : nat :=
  match l with
  | O => 0
  | S l' => match l' with
            | O => 0
            | S l'' => weights_before size l' + size l' * (size l'' + 1)
            end
  end.
(** Place of a weight in the flat array. *)
Definition place (size : nat -> nat) (l i j : nat) : nat :=
  weights_before size l + i * (size (pred l) + 1) + j.
