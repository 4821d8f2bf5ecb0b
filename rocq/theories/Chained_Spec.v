(** * Specification of the chained reservoir *)
From Coq Require Import ZArith List Bool.
From Verif Require Import CppBase Dbl Chained_Model.
Import ListNotations.
Local Open Scope Z_scope.

Section Spec.
  Context {A : Type}.

  (** A chain as the list of its elements with their timestamps, head first.  A
      timestamp 0 marks a cell as available. *)
  Local Notation cell := (option A * Z)%type.

  (** The chain stored at pointer [p]. *)
  Fixpoint linked (h : list (@node A)) (p : option nat) (l : list cell) : Prop :=
    match l with
    | [] => p = None
    | (e, t) :: l' =>
        exists a n, p = Some a /\ nth_error h a = Some (mkNode n e t) /\ linked h n l'
    end.

  (** The elements and timestamps added by a history. *)
  Fixpoint added (l : list (@call A)) : list (A * Z) :=
    match l with
    | [] => []
    | Add e t :: l' => (e, t) :: added l'
    | Obsolete _ :: l' => added l'
    end.

  (** What pushing on a chain should do: the first available cell takes the element,
      or else a new last cell. *)
  Fixpoint pushed (l : list cell) (e : A) (t : Z) : list cell :=
    match l with
    | [] => [(Some e, t)]
    | (x, s) :: l' => if s =? 0 then (Some e, t) :: l' else (x, s) :: pushed l' e t
    end.

  (** Index of the first cell of timestamp at least [t]. *)
  Fixpoint first_from (t : Z) (l : list cell) : option nat :=
    match l with
    | [] => None
    | (_, s) :: l' => if s <? t then option_map S (first_from t l') else Some O
    end.

  (** What [obsolete] really does to a chain. *)
  Definition obsoleted (t : Z) (l : list cell) : list cell :=
    match first_from t l with
    | None | Some O => l
    | Some k =>
        let last := List.last l (None, 0) in
        [(fst last, if Nat.ltb (length l) (2 * k + 1) then 0 else snd last)]
    end.

  (** What [obsolete] is documented to do: drop the obsolete elements, promote the
      oldest valid successor and keep the later ones. *)
  Definition promoted (t : Z) (l : list cell) : list cell :=
    match first_from t l with
    | None => l
    | Some k => skipn k l
    end.
End Spec.

(** Draws in [0,1], and in [0,1). *)
Definition all_closed (rnd : nat -> dbl) : Prop := forall k, unit_closed (rnd k).
Definition all_open (rnd : nat -> dbl) : Prop := forall k, unit_open (rnd k).

(** The timestamps are positive (0 marks an available cell). *)
Definition stamps_ok {A} (l : list (A * Z)) : Prop := forall e t, In (e, t) l -> 0 < t < 4294967296.

(** The last [n] elements of a stream of at least [n] have timestamps from [t] on. *)
Definition last_from {A} (l : list (A * Z)) (n t : Z) : Prop :=
  n <= Z.of_nat (length l) /\ forall j e u, Z.of_nat (length l) - n <= Z.of_nat j -> nth_error l j = Some (e, u) -> t <= u.

Section History.
  Context {A : Type}.
  Variable (size : Z) (rnd : nat -> dbl).

  (** The slot whose visible element an [add] in state [s] replaces, if any: the next
      free one while the sample is not full; afterwards with probability
      size/counter a random one. *)
  Definition target (s : @chained A) : option nat :=
    if counter s <? size then Some (Z.to_nat (counter s))
    else if dlt (rnd (calls s)) (ddiv (dofZ size) (dofZ (counter s)))
    then match offset size rnd (S (calls s)) with Ok i => Some (Z.to_nat i) | _ => None end
    else None.

  (** No add of the history replaces an element that has successors in its chain. *)
  Fixpoint clean (s : @chained A) (l : list (@call A)) : Prop :=
    match l with
    | [] => True
    | c :: l' =>
        (match c with
         | Add _ _ => forall i n, target s = Some i -> nth_error (nodes s) i = Some n -> nxt n = None
         | Obsolete _ => True
         end) /\
        forall s1, do_call size rnd s c = Ok s1 -> clean s1 l'
    end.
End History.
