(** * Specification of a Bloom filter, independent of the byte array *)
From Coq Require Import ZArith List Bool.
From Verif Require Import CppBase Bloom_Model.
Import ListNotations.
Local Open Scope Z_scope.

Section Spec.
  Context {E : Type}.
  Variable bit_size : Z.
  Variable hashs : list (E -> Z).

  (** The contract of the hash functions: an index of the filter. *)
  Definition hashes_in_range : Prop :=
    forall h e, In h hashs -> 0 <= h e < bit_size.

  (** The caller's arrays are bytes, one per bit. *)
  Definition set_arrays_ok (ops : list (@op E)) : Prop :=
    forall l, In (OpSet l) ops ->
      Z.of_nat (length l) = bit_size /\ Forall (fun b => 0 <= b < 256) l.

  (** Slot [i] is covered by a list of calls, latest call first. *)
  Fixpoint covered (latest_first : list (@op E)) (i : Z) : Prop :=
    match latest_first with
    | [] => False
    | OpAdd e :: r => (exists h, In h hashs /\ h e = i) \/ covered r i
    | OpLookup _ :: r => covered r i
    | OpClear :: _ => False
    | OpSet l :: _ => Z.odd (nth (Z.to_nat i) l 0) = true
    end.

  (** The calls are only adds and lookups. *)
  Definition no_reset (ops : list (@op E)) : Prop :=
    Forall (fun o => match o with OpAdd _ | OpLookup _ => True | _ => False end) ops.

  (** The elements added by a list of calls. *)
  Fixpoint added (ops : list (@op E)) : list E :=
    match ops with
    | [] => []
    | OpAdd e :: r => e :: added r
    | _ :: r => added r
    end.
End Spec.
