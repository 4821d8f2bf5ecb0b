(** * Properties of the Bloom filter (C01-C05) *)
From Coq Require Import ZArith List Bool Lia.
From Verif Require Import CppBase Bloom_Model Bloom_Spec Bloom_Proofs.
Import ListNotations.
Local Open Scope Z_scope.

(** Two hash functions over a filter of 16 slots, used by the examples. *)
Definition ex_h1 (e : Z) : Z := e mod 16.
Definition ex_h2 (e : Z) : Z := (3 * e + 1) mod 16.
Definition ex_hs : list (Z -> Z) := [ex_h1; ex_h2].

Lemma ex_range : hashes_in_range 16 ex_hs.
Proof.
  intros h e [<-|[<-|[]]]; unfold ex_h1, ex_h2; apply Z.mod_pos_bound; lia.
Qed.

(** C01. After any history in which [e] was added after the last clear/set, the
    run is free of undefined behaviour and aborts and [lookup e] is true. *)
Theorem bloom_no_false_negatives :
  forall (E : Type) (bit_size : Z) (hashs : list (E -> Z)),
    1 <= bit_size < 2147483648 -> (1 <= length hashs)%nat ->
    hashes_in_range bit_size hashs ->
    forall (pre mid : list op) (e : E),
      set_arrays_ok bit_size (pre ++ OpAdd e :: mid) -> no_reset mid ->
      exists bits outs,
        run bit_size hashs (pre ++ OpAdd e :: mid) = Ok (bits, outs) /\
        lookup bit_size hashs bits e = Ok true.
Proof. exact @no_false_negative. Qed.
Print Assumptions bloom_no_false_negatives.

Example bloom_no_false_negatives_ex :
  set_arrays_ok 16 ([OpAdd 3; OpClear; OpAdd 9] ++ OpAdd 5 :: [OpAdd 7; OpLookup 1]) /\
  no_reset (E:=Z) [OpAdd 7; OpLookup 1] /\
  exists bits, run 16 ex_hs [OpAdd 3; OpClear; OpAdd 9; OpAdd 5; OpAdd 7; OpLookup 1]
    = Ok (bits, [None; None; None; None; None; Some false]) /\
  lookup 16 ex_hs bits 5 = Ok true /\ lookup 16 ex_hs bits 3 = Ok false.
Proof.
  split. { intros l H. repeat (destruct H as [H|H]; try discriminate). destruct H. }
  split. { repeat constructor. }
  eexists. split; [vm_compute; reflexivity|]. split; vm_compute; reflexivity.
Qed.

(** C02. The answer of every lookup of every history is true exactly when each
    hash slot of the element is covered by the calls made before it. *)
Theorem bloom_lookup_exact :
  forall (E : Type) (bit_size : Z) (hashs : list (E -> Z)),
    1 <= bit_size < 2147483648 -> (1 <= length hashs)%nat ->
    hashes_in_range bit_size hashs ->
    forall (ops : list op) (n : nat) (e : E),
      set_arrays_ok bit_size ops -> nth_error ops n = Some (OpLookup e) ->
      exists bits outs b,
        run bit_size hashs ops = Ok (bits, outs) /\
        nth_error outs n = Some (Some b) /\
        (b = true <-> forall h, In h hashs -> covered hashs (rev (firstn n ops)) (h e)).
Proof. exact @run_exact. Qed.
Print Assumptions bloom_lookup_exact.

(** A false positive: 21 was not added but collides with 5. *)
Example bloom_lookup_exact_ex :
  exists bits, run 16 ex_hs [OpAdd 5; OpLookup 21; OpLookup 6] = Ok (bits, [None; Some true; Some false])
  /\ nth_error [OpAdd 5; OpLookup 21; OpLookup 6] 1 = Some (OpLookup 21).
Proof. eexists. split; vm_compute; reflexivity. Qed.

(** C02/C12-style: clear forgets everything. *)
Theorem bloom_clear_forgets :
  forall (E : Type) (bit_size : Z) (hashs : list (E -> Z)),
    1 <= bit_size < 2147483648 -> (1 <= length hashs)%nat ->
    hashes_in_range bit_size hashs ->
    forall (ops : list op) (e : E), set_arrays_ok bit_size ops ->
      exists bits outs, run bit_size hashs (ops ++ [OpClear]) = Ok (bits, outs) /\
        lookup bit_size hashs bits e = Ok false.
Proof. exact @clear_forgets. Qed.
Print Assumptions bloom_clear_forgets.

Example bloom_clear_forgets_ex :
  exists bits, run 16 ex_hs ([OpAdd 5; OpAdd 6] ++ [OpClear]) = Ok (bits, [None; None; None])
  /\ lookup 16 ex_hs bits 5 = Ok false.
Proof. eexists. split; vm_compute; reflexivity. Qed.

(** C03. Only the set of elements added since the last clear/set matters. *)
Theorem bloom_order_irrelevant :
  forall (E : Type) (bit_size : Z) (hashs : list (E -> Z)),
    1 <= bit_size < 2147483648 -> (1 <= length hashs)%nat ->
    hashes_in_range bit_size hashs ->
    forall (pre mid1 mid2 : list op) (e : E),
      set_arrays_ok bit_size (pre ++ mid1) -> no_reset mid1 -> no_reset mid2 ->
      (forall x, In x (added mid1) <-> In x (added mid2)) ->
      exists bits1 outs1 bits2 outs2 b,
        run bit_size hashs (pre ++ mid1) = Ok (bits1, outs1) /\
        run bit_size hashs (pre ++ mid2) = Ok (bits2, outs2) /\
        lookup bit_size hashs bits1 e = Ok b /\ lookup bit_size hashs bits2 e = Ok b.
Proof. exact @same_adds_same_answer. Qed.
Print Assumptions bloom_order_irrelevant.

Theorem bloom_monotone :
  forall (E : Type) (bit_size : Z) (hashs : list (E -> Z)),
    1 <= bit_size < 2147483648 -> (1 <= length hashs)%nat ->
    hashes_in_range bit_size hashs ->
    forall (pre mid : list op) (e : E) bits outs,
      set_arrays_ok bit_size pre -> no_reset mid ->
      run bit_size hashs pre = Ok (bits, outs) -> lookup bit_size hashs bits e = Ok true ->
      exists bits' outs', run bit_size hashs (pre ++ mid) = Ok (bits', outs') /\
        lookup bit_size hashs bits' e = Ok true.
Proof. exact @monotone. Qed.
Print Assumptions bloom_monotone.

Example bloom_order_irrelevant_ex :
  (forall x, In x (added (E:=Z) [OpAdd 5; OpLookup 2; OpAdd 8; OpAdd 5]) <->
             In x (added (E:=Z) [OpAdd 8; OpAdd 5])) /\
  exists b1 b2, run 16 ex_hs [OpAdd 5; OpLookup 2; OpAdd 8; OpAdd 5] = Ok b1 /\
    run 16 ex_hs [OpAdd 8; OpAdd 5] = Ok b2 /\ lookup 16 ex_hs (fst b1) 8 = Ok true /\
    lookup 16 ex_hs (fst b2) 8 = Ok true.
Proof.
  split. { cbn. tauto. }
  do 2 eexists. repeat split; vm_compute; reflexivity.
Qed.

(** C04. For arbitrary hash functions no history has undefined behaviour. *)
Theorem bloom_memory_safe :
  forall (E : Type) (bit_size : Z) (hashs : list (E -> Z)),
    1 <= bit_size < 2147483648 -> (1 <= length hashs)%nat ->
    forall ops : list op, set_arrays_ok bit_size ops ->
      (exists bits outs, run bit_size hashs ops = Ok (bits, outs)) \/
      run bit_size hashs ops = Abort.
Proof.
  intros E bs hs H1 H2 ops H3.
  destruct (run_safe bs hs H1 H2 ops H3) as [[b [o [H _]]]|H]; eauto.
Qed.
Print Assumptions bloom_memory_safe.

(** C04. [add] aborts exactly when some hash of the element, as an [int], is not
    an index of the filter. *)
Theorem bloom_add_aborts_iff :
  forall (E : Type) (bit_size : Z) (hashs : list (E -> Z)),
    1 <= bit_size < 2147483648 -> (1 <= length hashs)%nat ->
    forall (ops : list op) bits outs (e : E), set_arrays_ok bit_size ops ->
      run bit_size hashs ops = Ok (bits, outs) ->
      (add bit_size hashs bits e = Abort <->
       exists h, In h hashs /\ ~ 0 <= to_int (h e) < bit_size).
Proof. exact @add_abort_iff. Qed.
Print Assumptions bloom_add_aborts_iff.

Example bloom_add_aborts_ex :
  exists bits, run 16 [fun e : Z => e; ex_h1] [OpAdd 3; OpAdd 15] = Ok (bits, [None; None]) /\
  add 16 [fun e : Z => e; ex_h1] bits 16 = Abort /\
  add 16 [fun e : Z => e; ex_h1] bits 4294967295 = Abort.
Proof. eexists. split; [vm_compute; reflexivity|]. split; vm_compute; reflexivity. Qed.

(** C05. With one byte per bit, [set] followed by lookups answers from the array
    (this is [bloom_lookup_exact] with a set call); a caller passing a bit array
    packed in bytes, as the documentation says, gets an out-of-bounds read. *)
Theorem bloom_set_short_array_ub :
  forall (bit_size : Z), 1 <= bit_size < 2147483648 ->
  forall (bits : bloom) (new_bits : list Z),
    Z.of_nat (length bits) = bit_size -> Z.of_nat (length new_bits) < bit_size ->
    set bit_size bits new_bits = Undef OutOfBounds.
Proof. exact set_short_ub. Qed.
Print Assumptions bloom_set_short_array_ub.

(** Refutes "set reads no more than ceil(bit_size/8) bytes". *)
Theorem bloom_set_packed_refuted :
  exists (bit_size : Z) (hashs : list (Z -> Z)) (packed : list Z),
    Z.of_nat (length packed) = (bit_size + 7) / 8 /\
    hashes_in_range bit_size hashs /\
    run bit_size hashs [OpSet packed] = Undef OutOfBounds.
Proof.
  exists 16, ex_hs, [255; 1]. split; [reflexivity|]. split; [exact ex_range|].
  vm_compute. reflexivity.
Qed.
Print Assumptions bloom_set_packed_refuted.

Example bloom_set_ex :
  exists bits outs, run 4 [fun e : Z => e mod 4] [OpSet [0; 1; 2; 3]; OpLookup 1; OpLookup 2; OpLookup 3]
    = Ok (bits, outs) /\ outs = [None; Some true; Some false; Some true].
Proof. do 2 eexists. split; vm_compute; reflexivity. Qed.
