(** * Properties of the cuckoo filter (C06-C12, C59) *)
From Coq Require Import ZArith List Bool Lia Reals.
From Verif Require Import CppBase Dbl DblFacts Cuckoo_Model Cuckoo_Spec Cuckoo_Proofs Cuckoo_Proofs2 Cuckoo_Proofs3.
Import ListNotations.
Local Open Scope Z_scope.

(** Callbacks used by the examples: 4 buckets, fingerprints 1..15. *)
Definition ex_fp (e : Z) : Z := e mod 15 + 1.
Definition ex_hash (e : Z) : Z := e mod 4.
Definition ex_hash_fp (f : Z) : Z := (3 * f + 1) mod 4.
Definition ex_rnd : nat -> dbl := fun n => if Nat.even n then dhalf else dzero.

Lemma ex_contract : forall bs, 1 <= bs <= 1000 -> contract 4 bs 4 ex_fp ex_hash ex_hash_fp.
Proof.
  intros bs Hbs. constructor; unfold ex_fp, ex_hash, ex_hash_fp; intros; try lia;
    try (apply Z.mod_pos_bound; lia).
  - exists 2. lia.
  - pose proof (Z.mod_pos_bound e 15). change (2 ^ 4) with 16. lia.
Qed.

Lemma ex_rnd_ok : forall n, unit_closed (ex_rnd n).
Proof.
  intros n. unfold ex_rnd. destruct (Nat.even n); (split; [reflexivity|]);
    vm_compute; Lra.lra.
Qed.

(** C06. While every add succeeds and only present elements are removed, every
    present element is found. *)
Theorem cuckoo_no_false_negatives :
  forall (E : Type) (bc bs es : Z) (fp he : E -> Z) (hf : Z -> Z),
    contract bc bs es fp he hf ->
    forall eqb : E -> E -> bool, (forall a b, eqb a b = true <-> a = b) ->
    forall ops f outs e, draws_ok ops ->
      crun bc bs es 0 fp he hf ops = Ok (f, outs) ->
      adds_succeed ops outs -> removes_present eqb ops ->
      In e (present eqb (rev ops)) ->
      clookup bc bs es fp he hf f e = Ok true.
Proof. intros E bc bs es fp he hf C. exact (cuckoo_nfn bc bs es fp he hf C). Qed.
Print Assumptions cuckoo_no_false_negatives.

(** C07. Exact answer of every lookup: positive net count of its class. *)
Theorem cuckoo_lookup_exact :
  forall (E : Type) (bc bs es : Z) (fp he : E -> Z) (hf : Z -> Z),
    contract bc bs es fp he hf ->
    forall ops f outs, draws_ok ops ->
      crun bc bs es 0 fp he hf ops = Ok (f, outs) -> adds_succeed ops outs ->
      (forall n e, nth_error ops n = Some (CLookup e) ->
         nth_error outs n = Some (Some (0 <? net fp he hf (rev (firstn n ops)) (class_of fp he hf e)))) /\
      (forall e, clookup bc bs es fp he hf f e =
         Ok (0 <? net fp he hf (rev ops) (class_of fp he hf e))).
Proof. intros E bc bs es fp he hf C. exact (cuckoo_exact bc bs es fp he hf C). Qed.
Print Assumptions cuckoo_lookup_exact.

(** C07. Effect of a remove on any filter content. *)
Theorem cuckoo_remove_effect :
  forall (E : Type) (bc bs es : Z) (fp he : E -> Z) (hf : Z -> Z),
    contract bc bs es fp he hf ->
    forall f e, wf bc bs es f ->
    exists f', cremove bc bs es 0 fp he hf f e = Ok f' /\ wf bc bs es f' /\
      clookup bc bs es fp he hf f e = Ok (0 <? stored bc bs es hf f (class_of fp he hf e)) /\
      forall c, stored bc bs es hf f' c = stored bc bs es hf f c
        - (if class_eqb (class_of fp he hf e) c && (0 <? stored bc bs es hf f c) then 1 else 0).
Proof. intros E bc bs es fp he hf C. exact (remove_effect bc bs es fp he hf C). Qed.
Print Assumptions cuckoo_remove_effect.

(** A history in which the third add relocates an entry, with a remove, and a false
    positive (0 and 120 have the class of 60). *)
Definition ex_ops : list (@cop Z) :=
  [CAdd 2 ex_rnd; CAdd 0 ex_rnd; CAdd 60 ex_rnd; CAdd 1 ex_rnd; CAdd 3 ex_rnd;
   CRemove 0; CRemove 3; CLookup 3; CLookup 2; CLookup 120].

Example cuckoo_exact_ex :
  draws_ok ex_ops /\
  exists f outs, crun 4 2 4 0 ex_fp ex_hash ex_hash_fp ex_ops = Ok (f, outs) /\
    adds_succeed ex_ops outs /\ removes_present Z.eqb ex_ops /\
    present Z.eqb (rev ex_ops) = [1; 60; 2] /\
    skipn 7 outs = [Some false; Some true; Some true].
Proof.
  split.
  { intros e rnd k H. repeat (destruct H as [H|H]; [try discriminate; injection H as <- <-; apply ex_rnd_ok|]).
    destruct H. }
  do 2 eexists. split; [vm_compute; reflexivity|]. split.
  { intros n e rnd H. do 10 (destruct n as [|n]; [cbn in *; congruence|]). destruct n; discriminate. }
  split.
  { intros n e H. do 10 (destruct n as [|n]; [cbn in *; try discriminate; injection H as <-; tauto|]).
    destruct n; discriminate. }
  split; reflexivity.
Qed.

(** C06-C08, C11. Under the contract every history with draws in [0,1] runs without
    abort or undefined behaviour and follows the counting-set specification. *)
Theorem cuckoo_refines :
  forall (E : Type) (bc bs es : Z) (fp he : E -> Z) (hf : Z -> Z),
    contract bc bs es fp he hf ->
    forall ops, draws_ok ops ->
    exists f outs m, crun bc bs es 0 fp he hf ops = Ok (f, outs) /\
      spec_run fp he hf (fun _ => 0) ops outs m.
Proof. intros E bc bs es fp he hf C. exact (crun_refines bc bs es fp he hf C). Qed.
Print Assumptions cuckoo_refines.

(** C08. The exact effect of add on any filter content; when it fails both candidate
    buckets were full, the number of occupied slots is unchanged and exactly one
    entry (of class [v]) is lost. *)
Theorem cuckoo_add_effect :
  forall (E : Type) (bc bs es : Z) (fp he : E -> Z) (hf : Z -> Z),
    contract bc bs es fp he hf ->
    forall f rnd e, wf bc bs es f -> (forall n, unit_closed (rnd n)) ->
    exists f' r, cadd bc bs es 0 fp he hf f rnd e = Ok (f', r) /\ wf bc bs es f' /\
      (r = true -> occupied bc bs es f' = occupied bc bs es f + 1 /\
         forall c, stored bc bs es hf f' c =
           stored bc bs es hf f c + (if class_eqb (class_of fp he hf e) c then 1 else 0)) /\
      (r = false -> occupied bc bs es f' = occupied bc bs es f /\
         (forall b j, candidate fp he hf e b -> 0 <= j < bs -> get_entry bc bs es f b j <> Ok 0) /\
         exists v, 0 < stored bc bs es hf f v + (if class_eqb (class_of fp he hf e) v then 1 else 0) /\
           forall c, stored bc bs es hf f' c =
             stored bc bs es hf f c + (if class_eqb (class_of fp he hf e) c then 1 else 0)
             - (if class_eqb v c then 1 else 0)).
Proof. intros E bc bs es fp he hf C. exact (add_effect bc bs es fp he hf C). Qed.
Print Assumptions cuckoo_add_effect.

(** C08. "A failed add leaves the elements added before findable" is false, with
    draws in [0,1) and all earlier adds successful. *)
Definition lose_rnd : nat -> dbl := fun n => if Nat.eqb n 1 then dzero else dhalf.

Theorem cuckoo_failed_add_keeps_refuted :
  exists (bc bs es : Z) (fp he : Z -> Z) (hf : Z -> Z) (rnd : nat -> dbl) f f',
    contract bc bs es fp he hf /\ (forall n, unit_open (rnd n)) /\
    crun bc bs es 0 fp he hf [CAdd 1 rnd; CAdd 2 rnd; CAdd 3 rnd] = Ok (f, [Some true; Some true; Some true]) /\
    cadd bc bs es 0 fp he hf f rnd 4 = Ok (f', false) /\
    clookup bc bs es fp he hf f 2 = Ok true /\
    clookup bc bs es fp he hf f' 2 = Ok false /\
    clookup bc bs es fp he hf f' 4 = Ok true.
Proof.
  exists 1, 3, 4, (fun e => e mod 15 + 1), (fun _ => 0), (fun _ => 0), lose_rnd.
  do 2 eexists. split.
  { constructor; intros; try lia. { exists 0. lia. }
    pose proof (Z.mod_pos_bound e 15). change (2 ^ 4) with 16. lia. }
  split.
  { intros n. unfold lose_rnd. destruct (Nat.eqb n 1); (split; [reflexivity|]); vm_compute; Lra.lra. }
  split; [vm_compute; reflexivity|].
  split; [vm_compute; reflexivity|].
  split; [vm_compute; reflexivity|]. split; vm_compute; reflexivity.
Qed.
Print Assumptions cuckoo_failed_add_keeps_refuted.

(** C09. Writing an entry and reading it back; all other entries are unchanged. *)
Theorem cuckoo_entry_round_trip :
  forall bc bs es, 1 <= bc -> 1 <= bs -> 1 <= es <= 31 -> bc * bs * es < 2147483648 ->
  forall f b j v, wf bc bs es f -> 0 <= b < bc -> 0 <= j < bs -> 0 <= v < 256 -> v < 2 ^ es ->
  exists f', set_entry bc bs es f b j v = Ok f' /\ wf bc bs es f' /\
    forall b' j', 0 <= b' < bc -> 0 <= j' < bs ->
      get_entry bc bs es f' b' j' =
      if (b =? b') && (j =? j') then Ok v else get_entry bc bs es f b' j'.
Proof.
  intros bc bs es H1 H2 H3 H4 f b j v Hwf Hb Hj Hv Hp.
  destruct (set_entry_ok bc bs es H1 H2 H3 H4 f b j v) as [f' [S1 [S2 S3]]]; auto.
  exists f'. split; auto. split; auto. intros b' j' Hb' Hj'.
  rewrite !(ent_ok bc bs es H1 H2 H3 H4) by auto. rewrite S3 by auto.
  destruct ((b =? b') && (j =? j')); reflexivity.
Qed.
Print Assumptions cuckoo_entry_round_trip.

Example cuckoo_entry_round_trip_ex :
  exists f, set_entry 4 2 5 (cinit 4 2 5) 2 1 21 = Ok f /\
    get_entry 4 2 5 f 2 1 = Ok 21 /\ get_entry 4 2 5 f 2 0 = Ok 0 /\ get_entry 4 2 5 f 3 0 = Ok 0.
Proof. eexists. split; [vm_compute; reflexivity|]. repeat split; vm_compute; reflexivity. Qed.

(** C10 is false for every non-zero empty value: no add on a fresh filter ever succeeds,
    whatever the (contract-abiding) callbacks, elements and draws ... *)
Theorem cuckoo_empty_value_adds_fail :
  forall (E : Type) (bc bs es ev : Z) (fp he : E -> Z) (hf : Z -> Z),
    (exists k, 0 <= k /\ bc = 2 ^ k) -> 1 <= bs -> 1 <= es <= 31 -> bc * bs * es < 2147483648 ->
    0 < ev ->
    (forall e, 0 <= fp e < 256 /\ fp e < 2 ^ es /\ fp e <> ev) ->
    (forall e, 0 <= he e < bc) -> (forall x, 0 <= hf x < bc) ->
    forall l : list (E * (nat -> dbl)),
      (forall e rnd k, In (e, rnd) l -> unit_closed (rnd k)) ->
      exists f, crun bc bs es ev fp he hf (map (fun p => CAdd (fst p) (snd p)) l)
                = Ok (f, map (fun _ => Some false) l).
Proof. exact @ev_adds_fail. Qed.
Print Assumptions cuckoo_empty_value_adds_fail.

(** ... and a fresh filter reports every element with fingerprint 0 as present. *)
Theorem cuckoo_empty_value_refuted :
  exists (bc bs es ev : Z) (fp he : Z -> Z) (hf : Z -> Z) (rnd : nat -> dbl) f,
    0 < ev < 2 ^ es /\ (forall e, 0 <= fp e < 256 /\ fp e < 2 ^ es /\ fp e <> ev) /\
    (forall e, 0 <= he e < bc) /\ (forall x, 0 <= hf x < bc) /\ (forall n, unit_open (rnd n)) /\
    clookup bc bs es fp he hf (cinit bc bs es) 0 = Ok true /\
    crun bc bs es ev fp he hf [CAdd 1 rnd] = Ok (f, [Some false]).
Proof.
  exists 4, 2, 4, 15, (fun e => e mod 15), ex_hash, ex_hash_fp, (fun _ => dzero). eexists.
  split; [change (2 ^ 4) with 16; lia|]. split.
  { intros e. pose proof (Z.mod_pos_bound e 15). change (2 ^ 4) with 16. lia. }
  split. { intros e. apply Z.mod_pos_bound. lia. }
  split. { intros e. apply Z.mod_pos_bound. lia. }
  split. { intros n. split; [reflexivity|]. vm_compute. Lra.lra. }
  split; vm_compute; reflexivity.
Qed.
Print Assumptions cuckoo_empty_value_refuted.

(** C11. Without a power of two: for every other bucket count there are callbacks
    within the documented ranges for which the first add aborts. *)
Theorem cuckoo_bucket_count_refuted :
  forall bc bs es, 1 <= bc -> 1 <= bs -> 1 <= es <= 31 -> bc * bs * es < 2147483648 ->
  (forall k, 0 <= k -> bc <> 2 ^ k) ->
  exists (fp : Z -> Z) (he : Z -> Z) (hf : Z -> Z),
    (forall e, 0 < fp e < 256 /\ fp e < 2 ^ es) /\ (forall e, 0 <= he e < bc) /\
    (forall f, 0 <= hf f < bc) /\
    forall rnd, crun bc bs es 0 fp he hf [CAdd 0 rnd] = Abort.
Proof. exact not_pow2_abort. Qed.
Print Assumptions cuckoo_bucket_count_refuted.

Example cuckoo_bucket_count_ex : forall k, 0 <= k -> 6 <> 2 ^ k.
Proof.
  intros k Hk H. assert (k < 3). { apply Z.nle_gt. intros C. apply (Z.pow_le_mono_r 2) in C; lia. }
  assert (k = 0 \/ k = 1 \/ k = 2) as [-> |[-> | ->]] by lia; discriminate.
Qed.

(** C12. Room in a candidate bucket: add succeeds, fills one free slot of a candidate
    bucket and moves nothing. *)
Theorem cuckoo_add_with_room :
  forall (E : Type) (bc bs es : Z) (fp he : E -> Z) (hf : Z -> Z),
    contract bc bs es fp he hf ->
    forall f rnd e b j, wf bc bs es f -> candidate fp he hf e b -> 0 <= j < bs ->
    get_entry bc bs es f b j = Ok 0 ->
    exists f' b' j', cadd bc bs es 0 fp he hf f rnd e = Ok (f', true) /\ wf bc bs es f' /\
      candidate fp he hf e b' /\ 0 <= b' < bc /\ 0 <= j' < bs /\ get_entry bc bs es f b' j' = Ok 0 /\
      forall b'' j'', 0 <= b'' < bc -> 0 <= j'' < bs ->
        get_entry bc bs es f' b'' j'' =
        if (b' =? b'') && (j' =? j'') then Ok (fp e) else get_entry bc bs es f b'' j''.
Proof. intros E bc bs es fp he hf C. exact (add_room bc bs es fp he hf C). Qed.
Print Assumptions cuckoo_add_with_room.

Theorem cuckoo_clear_empties :
  forall (E : Type) (bc bs es : Z) (fp he : E -> Z) (hf : Z -> Z),
    contract bc bs es fp he hf ->
    forall f e, wf bc bs es f ->
      clookup bc bs es fp he hf (cclear f) e = Ok false /\ occupied bc bs es (cclear f) = 0.
Proof. intros E bc bs es fp he hf C. exact (clear_effect bc bs es fp he hf C). Qed.
Print Assumptions cuckoo_clear_empties.

(** C59. With at least two slots per bucket and draws in [0,1), the entry in the last
    slot of a bucket is never relocated by an add. *)
Theorem cuckoo_last_slot_never_moved :
  forall (E : Type) (bc bs es : Z) (fp he : E -> Z) (hf : Z -> Z),
    contract bc bs es fp he hf ->
    forall f rnd e, (forall n, unit_open (rnd n)) -> 2 <= bs -> wf bc bs es f ->
    exists f' r, cadd bc bs es 0 fp he hf f rnd e = Ok (f', r) /\
      forall b v, 0 <= b < bc -> v <> 0 -> get_entry bc bs es f b (bs - 1) = Ok v ->
        get_entry bc bs es f' b (bs - 1) = Ok v.
Proof. intros E bc bs es fp he hf C. exact (add_last bc bs es fp he hf C). Qed.
Print Assumptions cuckoo_last_slot_never_moved.

(** A reachable content with two entries in one bucket, a free slot in another. *)
Example cuckoo_state_ex :
  exists f outs, crun 4 2 4 0 ex_fp ex_hash ex_hash_fp ex_ops = Ok (f, outs) /\
    occupied 4 2 4 f = 3 /\ (exists b j, get_entry 4 2 4 f b j = Ok 0) /\
    stored 4 2 4 ex_hash_fp f (class_of ex_fp ex_hash ex_hash_fp 60) = 1.
Proof.
  do 2 eexists. split; [vm_compute; reflexivity|]. split; [vm_compute; reflexivity|].
  split; [exists 3, 1; vm_compute; reflexivity | vm_compute; reflexivity].
Qed.
