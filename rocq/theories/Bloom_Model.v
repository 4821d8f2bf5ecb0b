(** * Model of src/bloom_filter.hpp *)
From Coq Require Import ZArith List Bool.
From Verif Require Import CppBase.
Import ListNotations.
Local Open Scope Z_scope.

(** bloom_filter.hpp l.4: [#define BYTE_SIZE (sizeof(unsigned char))], which is 1
    (not 8): each "bit" of the filter occupies a whole byte. *)
Definition BYTE_SIZE : Z := 1.

Section Bloom.
  Context {E : Type}.

  (** Template parameter [bit_size] and the array of hash functions given to the
      constructor (l.12, l.16); [hash_count] is its length. A hash function returns
      an [unsigned int]; the model takes any integer modulo 2^32.
      Simplification: hash functions are pure. *)
  Variable bit_size : Z.
  Variable hashs : list (E -> Z).

  (** l.17: [real_size]. *)
  Definition real_size : Z :=
    (bit_size - bit_size mod BYTE_SIZE) / BYTE_SIZE
    + (if 0 <? bit_size mod BYTE_SIZE then 1 else 0).

  (** State: the array [bits] (l.15), [bit_size] bytes; [None] is a byte that was
      never written. *)
  Definition bloom := list (option Z).

  (** l.98-103: [set_bit_to_one(int const index)]. *)
  Definition set_bit_to_one (bits : bloom) (index : Z) : res bloom :=
    do _ <- assertb ((0 <=? index) && (index <? bit_size));
    let m := index mod BYTE_SIZE in
    let real_index := (index - m) / BYTE_SIZE in
    do b <- rdi bits real_index;
    wr bits real_index (Some (u8 (Z.lor b (Z.shiftl 1 m)))).

  (** l.108-113: [get_bit(int const index)]. *)
  Definition get_bit (bits : bloom) (index : Z) : res bool :=
    do _ <- assertb ((0 <=? index) && (index <? bit_size));
    let m := index mod BYTE_SIZE in
    let real_index := (index - m) / BYTE_SIZE in
    do b <- rdi bits real_index;
    Ok (negb (Z.land b (Z.shiftl 1 m) =? 0)).

  (** l.39-43: [add]: one call per hash function; the [unsigned int] hash is
      converted to [int] when passed to [set_bit_to_one]. Not modelled: the null
      pointer assert (l.40), elements are values here. *)
  Definition add (bits : bloom) (e : E) : res bloom :=
    forZ (length hashs) 0
      (fun i bits => do h <- rd hashs i; set_bit_to_one bits (to_int (h e))) bits.

  (** l.58-64: [lookup]: returns false on the first zero bit. *)
  Definition lookup (bits : bloom) (e : E) : res bool :=
    do r <- findZ (length hashs) 0
      (fun i => do h <- rd hashs i; do b <- get_bit bits (to_int (h e));
                if b then Ok None else Ok (Some false));
    match r with Some b => Ok b | None => Ok true end.

  (** l.78-81: [clear]. *)
  Definition clear (bits : bloom) : res bloom :=
    forZ (Z.to_nat real_size) 0 (fun i bits => wr bits i (Some 0)) bits.

  (** l.87-91: [set(unsigned char* new_bits)]; the caller's array is a list with
      checked reads. *)
  Definition set (bits : bloom) (new_bits : list Z) : res bloom :=
    forZ (Z.to_nat real_size) 0
      (fun i bits => do b <- rd new_bits i; wr bits i (Some (u8 b))) bits.

  (** l.24-33: the constructor. Not modelled: null function pointers (l.25, l.30). *)
  Definition construct : res bloom :=
    do _ <- assertb (1 <=? bit_size);
    do _ <- assertb (1 <=? Z.of_nat (length hashs));
    clear (repeat None (Z.to_nat bit_size)).

  (** The calls of the public interface. *)
  Inductive op : Type :=
  | OpAdd (e : E)
  | OpLookup (e : E)
  | OpClear
  | OpSet (new_bits : list Z).

  (** One call: new state and, for a lookup, its answer. *)
  Definition step (bits : bloom) (o : op) : res (bloom * option bool) :=
    match o with
    | OpAdd e => do b <- add bits e; Ok (b, None)
    | OpLookup e => do r <- lookup bits e; Ok (bits, Some r)
    | OpClear => do b <- clear bits; Ok (b, None)
    | OpSet l => do b <- set bits l; Ok (b, None)
    end.

  (** A sequence of calls; the answers in order. *)
  Fixpoint run_from (bits : bloom) (ops : list op) : res (bloom * list (option bool)) :=
    match ops with
    | [] => Ok (bits, [])
    | o :: r =>
        do (b, out) <- step bits o;
        do (b', outs) <- run_from b r;
        Ok (b', out :: outs)
    end.

  (** A history: construction followed by a sequence of calls. *)
  Definition run (ops : list op) : res (bloom * list (option bool)) :=
    do b <- construct; run_from b ops.
End Bloom.
