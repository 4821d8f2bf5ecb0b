(** * Model of src/cuckoo_filter.hpp *)
From Coq Require Import ZArith List Bool.
From Verif Require Import CppBase Dbl.
Import ListNotations.
Local Open Scope Z_scope.

Section Cuckoo.
  Context {E : Type}.

  (** Template parameters (l.22). The callbacks of [funct] are pure functions:
      [fingerprint] returns [unsigned char], both hashes [unsigned int] (any integer
      here, reduced on use). *)
  Variables bucket_count bucket_size entry_size : Z.
  Variable empty_value : Z.
  Variable funct_fingerprint : E -> Z.
  Variable funct_hash : E -> Z.
  Variable funct_hash_fp : Z -> Z.

  (** l.7: [#define BYTE_SIZE (sizeof(unsigned char))], i.e. 1. *)
  Definition CBYTE_SIZE : Z := 1.

  (** l.27, l.28. *)
  Definition cbit_size : Z := bucket_count * bucket_size * entry_size.
  Definition total_size : Z :=
    (cbit_size + (CBYTE_SIZE - cbit_size mod CBYTE_SIZE)) / CBYTE_SIZE.

  (** l.29: [unsigned char filter[total_size] = {0}]; constructor l.150-151. *)
  Definition cinit : list Z := repeat 0 (Z.to_nat total_size).

  (** l.35-39: [get_bit]. *)
  Definition cget_bit (f : list Z) (bit_index : Z) : res Z :=
    let m := bit_index mod CBYTE_SIZE in
    let byte_index := (bit_index - m) / CBYTE_SIZE in
    do b <- rd f byte_index;
    Ok (if Z.land b (Z.shiftl 1 m) =? 0 then 0 else 1).

  (** l.45-52: [set_bit]. *)
  Definition cset_bit (f : list Z) (bit_index value : Z) : res (list Z) :=
    let m := bit_index mod CBYTE_SIZE in
    let byte_index := (bit_index - m) / CBYTE_SIZE in
    do b <- rd f byte_index;
    if value =? 0
    then wr f byte_index (u8 (Z.land b (Z.lnot (Z.shiftl 1 m))))
    else wr f byte_index (u8 (Z.lor b (Z.shiftl 1 m))).

  (** The asserts l.59-60, 71-74 (and l.92-93, 100-102); the bit index is computed
      in [unsigned int]. The [>= 0] parts are trivial on unsigned values. *)
  Definition entry_range (bucket_index entry_index : Z) : res (Z * Z) :=
    do _ <- assertb (bucket_index <? bucket_count);
    do _ <- assertb ((0 <=? bucket_size) && (entry_index <? bucket_size));
    let bit_index := u32 (bucket_index * bucket_size * entry_size + entry_index * entry_size) in
    let last_bit_index := u32 (bit_index + entry_size) in
    do _ <- assertb (bit_index <? bucket_count * bucket_size * entry_size);
    do _ <- assertb (last_bit_index <=? bucket_count * bucket_size * entry_size);
    do _ <- assertb (bit_index <=? last_bit_index);
    Ok (bit_index, last_bit_index).

  (** [x << count] on [int]: undefined from 31 on (here the shifted value is 0 or 1). *)
  Definition shl_int (x count : Z) : res Z :=
    if (0 <=? count) && (count <? 31) then Ok (Z.shiftl x count) else Undef SignedOverflow.

  (** l.58-84: [get_entry]; [count] is [bi - bit_index]. *)
  Definition get_entry (f : list Z) (bucket_index entry_index : Z) : res Z :=
    do (bit_index, last_bit_index) <- entry_range bucket_index entry_index;
    forZ (Z.to_nat (last_bit_index - bit_index)) 0
      (fun count tmp =>
         do value <- cget_bit f (bit_index + count);
         do s <- shl_int value count;
         Ok (u8 (Z.lor tmp s))) 0.

  (** l.91-108: [set_entry]; the fingerprint is an [unsigned char]. *)
  Definition set_entry (f : list Z) (bucket_index entry_index fp : Z) : res (list Z) :=
    do (bit_index, last_bit_index) <- entry_range bucket_index entry_index;
    forZ (Z.to_nat (last_bit_index - bit_index)) 0
      (fun count f =>
         do s <- shl_int 1 count;
         let value := if Z.land (u8 fp) s =? 0 then 0 else 1 in
         cset_bit f (bit_index + count) value) f.

  (** l.113-121: [space_in_bucket]. *)
  Definition space_in_bucket (f : list Z) (bucket_index : Z) : res Z :=
    do r <- findZ (Z.to_nat bucket_size) 0
      (fun i => do tmp <- get_entry f bucket_index i;
                Ok (if tmp =? empty_value then Some i else None));
    Ok (match r with Some i => i | None => -1 end).

  (** l.129-145: [search]; the position found, if any. *)
  Definition search (f : list Z) (e : E) : res (option (Z * Z)) :=
    let fp := u8 (funct_fingerprint e) in
    let h0 := u32 (funct_hash e) in
    let h1 := Z.lxor h0 (u32 (funct_hash_fp fp)) in
    let in_bucket h :=
      findZ (Z.to_nat bucket_size) 0
        (fun j => do tmp <- get_entry f h j;
                  Ok (if tmp =? fp then Some (h, j) else None)) in
    do r0 <- in_bucket h0;
    match r0 with
    | Some p => Ok (Some p)
    | None => in_bucket h1
    end.

  (** l.170-202: the relocation loop of [add]; [fuel] counts the iterations left of
      the 500, [k] the random draws used so far. Result: filter and [inserted]. *)
  Fixpoint add_loop (fuel : nat) (k : nat) (rnd : nat -> dbl)
      (f : list Z) (fp h1 h2 : Z) : res (list Z * bool) :=
    match fuel with
    | O => Ok (f, false)
    | S fuel' =>
        do space_h1 <- space_in_bucket f h1;
        do space_h2 <- space_in_bucket f h2;
        if (space_h1 <? 0) && (0 <=? space_h2) then
          do f' <- set_entry f h2 space_h2 fp; Ok (f', true)
        else if (0 <=? space_h1) && (space_h2 <? 0) then
          do f' <- set_entry f h1 space_h1 fp; Ok (f', true)
        else if (0 <=? space_h1) && (0 <=? space_h2) then
          let a := rnd k in
          let h := if dgt a dhalf then h1 else h2 in
          let space_h := if dgt a dhalf then space_h1 else space_h2 in
          do f' <- set_entry f h space_h fp; Ok (f', true)
        else
          let a := rnd k in
          let h := if dgt a dhalf then h1 else h2 in
          do space_h <- d2uint (dfloor (dmul (rnd (S k)) (dofZ (bucket_size - 1))));
          do tmp <- get_entry f h space_h;
          do f' <- set_entry f h space_h fp;
          add_loop fuel' (S (S k)) rnd f' tmp h (Z.lxor h (u32 (funct_hash_fp tmp)))
    end.

  (** l.163-205: [add]; 500 iterations at most. [rnd] gives the values returned by
      [random_function] during this call. *)
  Definition cadd (f : list Z) (rnd : nat -> dbl) (e : E) : res (list Z * bool) :=
    let fp := u8 (funct_fingerprint e) in
    let h1 := u32 (funct_hash e) in
    let h2 := Z.lxor h1 (u32 (funct_hash_fp fp)) in
    add_loop 500 0 rnd f fp h1 h2.

  (** l.217-220: [lookup]. *)
  Definition clookup (f : list Z) (e : E) : res bool :=
    do r <- search f e;
    Ok (match r with Some _ => true | None => false end).

  (** l.232-238: [remove]. *)
  Definition cremove (f : list Z) (e : E) : res (list Z) :=
    do r <- search f e;
    match r with
    | Some (b, j) => set_entry f b j (u8 empty_value)
    | None => Ok f
    end.

  (** l.242-245: [clear]. *)
  Definition cclear (f : list Z) : list Z := map (fun _ => 0) f.

  Inductive cop : Type :=
  | CAdd (e : E) (rnd : nat -> dbl)
  | CLookup (e : E)
  | CRemove (e : E)
  | CClear.

  (** One public call; the answer of add and lookup. *)
  Definition cstep (f : list Z) (o : cop) : res (list Z * option bool) :=
    match o with
    | CAdd e rnd => do (f', b) <- cadd f rnd e; Ok (f', Some b)
    | CLookup e => do b <- clookup f e; Ok (f, Some b)
    | CRemove e => do f' <- cremove f e; Ok (f', None)
    | CClear => Ok (cclear f, None)
    end.

  Fixpoint crun_from (f : list Z) (ops : list cop) : res (list Z * list (option bool)) :=
    match ops with
    | [] => Ok (f, [])
    | o :: r =>
        do (f1, out) <- cstep f o;
        do (f2, outs) <- crun_from f1 r;
        Ok (f2, out :: outs)
    end.

  Definition crun (ops : list cop) : res (list Z * list (option bool)) := crun_from cinit ops.
End Cuckoo.
