(** * Specification of a cuckoo filter: a counting multiset of classes *)
From Coq Require Import ZArith List Bool Reals.
From Verif Require Import CppBase Dbl Cuckoo_Model.
Import ListNotations.
Local Open Scope Z_scope.

Section Spec.
  Context {E : Type}.
  Variables bucket_count bucket_size entry_size : Z.
  Variable fingerprint : E -> Z.
  Variable hash : E -> Z.
  Variable hash_fp : Z -> Z.

  (** The documented contract of the parameters and callbacks; the bucket count is
      a power of two (not documented, see [cuckoo_bucket_count_refuted]). *)
  Record contract : Prop := {
    c_pow : exists k, 0 <= k /\ bucket_count = 2 ^ k;
    c_bs : 1 <= bucket_size;
    c_es : 1 <= entry_size <= 31;
    c_size : bucket_count * bucket_size * entry_size < 2147483648;
    c_fp : forall e, 0 < fingerprint e < 256 /\ fingerprint e < 2 ^ entry_size;
    c_hash : forall e, 0 <= hash e < bucket_count;
    c_hash_fp : forall f, 0 <= hash_fp f < bucket_count
  }.

  (** A filter array: the right number of bytes, any content. *)
  Definition wf (f : list Z) : Prop :=
    Z.of_nat (length f) = bucket_count * bucket_size * entry_size + 1 /\
    Forall (fun b => 0 <= b < 256) f.

  (** The two candidate buckets of an element. *)
  Definition candidate (e : E) (b : Z) : Prop :=
    b = hash e \/ b = Z.lxor (hash e) (hash_fp (fingerprint e)).

  (** The class of an element: its fingerprint and its unordered pair of candidate
      buckets (named by the smaller one). *)
  Definition class_of (e : E) : Z * Z :=
    (fingerprint e, Z.min (hash e) (Z.lxor (hash e) (hash_fp (fingerprint e)))).

  Definition class_eqb (a b : Z * Z) : bool := (fst a =? fst b) && (snd a =? snd b).

  (** All (bucket, slot) pairs, the number of slots of a filter array that hold an
      entry of a class, and the number of slots that hold any entry. *)
  Definition all_slots : list (Z * Z) :=
    list_prod (map Z.of_nat (seq 0 (Z.to_nat bucket_count)))
              (map Z.of_nat (seq 0 (Z.to_nat bucket_size))).
  Definition count_slots (p : Z -> Z -> bool) (f : list Z) : Z :=
    Z.of_nat (length (filter (fun s =>
      match get_entry bucket_count bucket_size entry_size f (fst s) (snd s) with
      | Ok v => negb (v =? 0) && p v (fst s)
      | _ => false
      end) all_slots)).
  Definition stored (f : list Z) (c : Z * Z) : Z :=
    count_slots (fun v b => class_eqb (v, Z.min b (Z.lxor b (hash_fp v))) c) f.
  Definition occupied (f : list Z) : Z := count_slots (fun _ _ => true) f.

  (** How often a class is stored. *)
  Definition multiset := Z * Z -> Z.

  Definition m_add (m : multiset) (c : Z * Z) : multiset :=
    fun d => m d + (if class_eqb c d then 1 else 0).
  Definition m_sub (m : multiset) (c : Z * Z) : multiset :=
    fun d => m d - (if class_eqb c d then 1 else 0).

  Definition m_eq (m1 m2 : multiset) : Prop := forall d, m1 d = m2 d.

  (** Allowed behaviour of a call on the abstract multiset: a failed add stores the
      new class and drops one occurrence of some stored class (possibly the same). *)
  Definition spec_step (m : multiset) (o : @cop E) (out : option bool) (m' : multiset) : Prop :=
    match o with
    | CAdd e _ =>
        (out = Some true /\ m_eq m' (m_add m (class_of e))) \/
        (out = Some false /\ exists v, 0 < m_add m (class_of e) v /\
           m_eq m' (m_sub (m_add m (class_of e)) v))
    | CLookup e => out = Some (0 <? m (class_of e)) /\ m_eq m' m
    | CRemove e => out = None /\
        m_eq m' (if 0 <? m (class_of e) then m_sub m (class_of e) else m)
    | CClear => out = None /\ m_eq m' (fun _ => 0)
    end.

  Inductive spec_run : multiset -> list (@cop E) -> list (option bool) -> multiset -> Prop :=
  | spec_nil : forall m m', m_eq m' m -> spec_run m [] [] m'
  | spec_cons : forall m o out m1 ops outs m2,
      spec_step m o out m1 -> spec_run m1 ops outs m2 ->
      spec_run m (o :: ops) (out :: outs) m2.

  (** Random draws of all adds lie in [0,1]. *)
  Definition draws_ok (ops : list (@cop E)) : Prop :=
    forall e rnd k, In (CAdd e rnd) ops -> unit_closed (rnd k).

  (** Net number of times the class of [e] was added, over the calls latest first;
      adds are counted as successful. *)
  Fixpoint net (latest_first : list (@cop E)) (c : Z * Z) : Z :=
    match latest_first with
    | [] => 0
    | CAdd e _ :: r => net r c + (if class_eqb (class_of e) c then 1 else 0)
    | CLookup _ :: r => net r c
    | CRemove e :: r =>
        if class_eqb (class_of e) c && (0 <? net r c) then net r c - 1 else net r c
    | CClear :: _ => 0
    end.

  (** No add of the history failed. *)
  Definition adds_succeed (ops : list (@cop E)) (outs : list (option bool)) : Prop :=
    forall n e rnd, nth_error ops n = Some (CAdd e rnd) -> nth_error outs n = Some (Some true).

  (** The elements present after a history (latest call first) when every add
      succeeded: remove takes out one occurrence. *)
  Variable eqb : E -> E -> bool.
  Fixpoint take_out (e : E) (l : list E) : list E :=
    match l with
    | [] => []
    | x :: r => if eqb x e then r else x :: take_out e r
    end.
  Fixpoint present (latest_first : list (@cop E)) : list E :=
    match latest_first with
    | [] => []
    | CAdd e _ :: r => e :: present r
    | CLookup _ :: r => present r
    | CRemove e :: r => take_out e (present r)
    | CClear :: _ => []
    end.

  (** Only elements that are present are removed. *)
  Definition removes_present (ops : list (@cop E)) : Prop :=
    forall n e, nth_error ops n = Some (CRemove e) -> In e (present (rev (firstn n ops))).
End Spec.
