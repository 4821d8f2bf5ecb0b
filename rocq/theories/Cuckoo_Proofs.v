From Coq Require Import ZArith List Bool Lia.
From Verif Require Import CppBase CppFacts Dbl DblFacts Cuckoo_Model Cuckoo_Spec.
Import ListNotations.
Local Open Scope Z_scope.

(** ** Bits *)

Definition bitf (f : list Z) (i : Z) : bool :=
  match rd f i with Ok b => Z.odd b | _ => false end.

Lemma land1 : forall b, (Z.land b 1 =? 0) = negb (Z.odd b).
Proof.
  intros b. change 1 with (Z.ones 1). rewrite Z.land_ones by lia.
  change (2 ^ 1) with 2. rewrite Zmod_odd. destruct (Z.odd b); reflexivity.
Qed.

Lemma land_pow2 : forall b n, 0 <= n -> (Z.land b (Z.shiftl 1 n) =? 0) = negb (Z.testbit b n).
Proof.
  intros b n Hn. destruct (Z.testbit b n) eqn:E.
  - apply Z.eqb_neq. intros C.
    assert (H : Z.testbit (Z.land b (Z.shiftl 1 n)) n = true).
    { rewrite Z.land_spec, E, Z.shiftl_spec by lia. rewrite Z.sub_diag. reflexivity. }
    rewrite C, Z.bits_0 in H. discriminate.
  - apply Z.eqb_eq. apply Z.bits_inj'. intros m Hm.
    rewrite Z.land_spec, Z.bits_0. destruct (Z.eq_dec m n).
    + subst. now rewrite E.
    + rewrite Z.shiftl_spec by lia.
      destruct (Z.ltb_spec (m - n) 0).
      * rewrite (Z.testbit_neg_r 1) by lia. apply andb_false_r.
      * change 1 with (2 ^ 0). rewrite Z.pow2_bits_false by lia. apply andb_false_r.
Qed.

Lemma get_bit_val : forall f i b, rd f i = Ok b -> cget_bit f i = Ok (if Z.odd b then 1 else 0).
Proof.
  intros f i b H. unfold cget_bit, CBYTE_SIZE.
  rewrite Z.mod_1_r, Z.sub_0_r, Z.div_1_r, H. cbn [bind]. change (Z.shiftl 1 0) with 1.
  rewrite land1. destruct (Z.odd b); reflexivity.
Qed.

Lemma byte_land_m2 : forall b, 0 <= b < 256 ->
  0 <= Z.land b (Z.lnot 1) < 256 /\ Z.odd (Z.land b (Z.lnot 1)) = false.
Proof.
  intros b Hb. split.
  - split; [apply Z.land_nonneg; lia|].
    destruct (Z.eq_dec (Z.land b (Z.lnot 1)) 0); [lia|].
    assert (0 <= Z.land b (Z.lnot 1)) by (apply Z.land_nonneg; lia).
    change 256 with (2 ^ 8). apply Z.log2_lt_pow2; [lia|].
    assert (Z.land b (Z.lnot 1) <= b).
    { assert (b = Z.land b (Z.lnot 1) + Z.land b 1).
      { rewrite Z.add_nocarry_lxor.
        - apply Z.bits_inj'. intros m Hm. rewrite Z.lxor_spec, !Z.land_spec, Z.lnot_spec by lia.
          destruct (Z.testbit b m), (Z.testbit 1 m); reflexivity.
        - apply Z.bits_inj'. intros m Hm. rewrite !Z.land_spec, Z.lnot_spec, Z.bits_0 by lia.
          destruct (Z.testbit b m), (Z.testbit 1 m); reflexivity. }
      assert (0 <= Z.land b 1) by (apply Z.land_nonneg; lia). lia. }
    apply Z.log2_lt_pow2; lia.
  - rewrite <- Z.bit0_odd, Z.land_spec, Z.lnot_spec by lia. cbn. apply andb_false_r.
Qed.

Lemma byte_lor_1 : forall b, 0 <= b < 256 -> 0 <= Z.lor b 1 < 256 /\ Z.odd (Z.lor b 1) = true.
Proof.
  intros b Hb. split.
  - split; [apply Z.lor_nonneg; lia|].
    assert (0 <= Z.lor b 1) by (apply Z.lor_nonneg; lia).
    destruct (Z.eq_dec (Z.lor b 1) 0); [lia|].
    change 256 with (2 ^ 8). apply Z.log2_lt_pow2; [lia|].
    rewrite Z.log2_lor by lia. apply Z.max_lub_lt; [|cbn; lia].
    destruct (Z.eq_dec b 0); [subst; cbn; lia|]. apply Z.log2_lt_pow2; lia.
  - rewrite <- Z.bit0_odd, Z.lor_spec. cbn. apply orb_true_r.
Qed.

Section P.
  Variables bc bs es : Z.
  Hypothesis Hbc : 1 <= bc.
  Hypothesis Hbs : 1 <= bs.
  Hypothesis Hes : 1 <= es <= 31.
  Hypothesis Hsz : bc * bs * es < 2147483648.

  Notation get_entry := (get_entry bc bs es).
  Notation set_entry := (set_entry bc bs es).

  Notation wf := (wf bc bs es).

  Lemma total_size_eq : total_size bc bs es = bc * bs * es + 1.
  Proof. unfold total_size, cbit_size, CBYTE_SIZE. rewrite Z.mod_1_r, Z.div_1_r. lia. Qed.

  Lemma wf_init : wf (cinit bc bs es).
  Proof.
    unfold wf, cinit. rewrite repeat_length, total_size_eq. split; [nia|].
    apply Forall_forall. intros x Hx. apply repeat_spec in Hx. lia.
  Qed.

  Lemma wf_rd : forall f i, wf f -> 0 <= i <= bc * bs * es ->
    exists b, rd f i = Ok b /\ 0 <= b < 256.
  Proof.
    intros f i [Hl Hf] Hi. destruct (rd_in_bounds _ f i) as [b Hb]; [lia|].
    exists b. split; auto. rewrite Forall_forall in Hf. apply Hf.
    apply rd_ok_iff in Hb. destruct Hb as [_ Hb]. eapply nth_error_In; eauto.
  Qed.

  Lemma Forall_upd : forall A (P : A -> Prop) l n v, Forall P l -> P v -> Forall P (upd l n v).
  Proof.
    induction l as [|x l IH]; intros [|n] v H Hv; cbn; auto; inversion H; subst; constructor; auto.
  Qed.

  Lemma set_bit_spec : forall f i v, wf f -> 0 <= i <= bc * bs * es -> v = 0 \/ v = 1 ->
    exists f', cset_bit f i v = Ok f' /\ wf f' /\
      (forall k, 0 <= k -> bitf f' k = if i =? k then v =? 1 else bitf f k).
  Proof.
    intros f i v Hwf Hi Hv. destruct (wf_rd f i Hwf Hi) as [b [Hb Hr]].
    destruct Hwf as [Hl Hf].
    unfold cset_bit, CBYTE_SIZE. rewrite Z.mod_1_r, Z.sub_0_r, Z.div_1_r, Hb. cbn [bind].
    change (Z.shiftl 1 0) with 1.
    destruct (byte_land_m2 b Hr) as [L1 L2]. destruct (byte_lor_1 b Hr) as [O1 O2].
    assert (G : exists nv, (if v =? 0 then wr f i (u8 (Z.land b (Z.lnot 1)))
                 else wr f i (u8 (Z.lor b 1))) = Ok (upd f (Z.to_nat i) nv) /\
                 0 <= nv < 256 /\ Z.odd nv = (v =? 1)).
    { destruct Hv as [-> | ->].
      - change (0 =? 0) with true. cbv iota. rewrite wr_ok by lia. rewrite u8_small by auto.
        eexists; repeat split; try eassumption; tauto.
      - change (1 =? 0) with false. cbv iota. rewrite wr_ok by lia. rewrite u8_small by auto.
        eexists; repeat split; try eassumption; tauto. }
    destruct G as [nv [G1 [G2 G3]]]. exists (upd f (Z.to_nat i) nv). split; auto.
    split; [split; [now rewrite upd_length | now apply Forall_upd]|].
    intros k Hk. unfold bitf. rewrite rd_upd by lia.
    destruct (Z.eqb_spec i k); auto.
  Qed.

  (** ** Entries *)

  Definition base (b j : Z) : Z := (b * bs + j) * es.

  Lemma base_bounds : forall b j, 0 <= b < bc -> 0 <= j < bs ->
    0 <= base b j /\ base b j + es <= bc * bs * es.
  Proof.
    intros b j Hb Hj. unfold base.
    assert (0 <= b * bs + j) by nia. assert (b * bs + j + 1 <= bc * bs) by nia. nia.
  Qed.

  Lemma entry_range_ok : forall b j, 0 <= b < bc -> 0 <= j < bs ->
    entry_range bc bs es b j = Ok (base b j, base b j + es).
  Proof.
    intros b j Hb Hj. destruct (base_bounds b j Hb Hj) as [B1 B2]. unfold entry_range.
    destruct (Z.ltb_spec b bc); [|lia]. cbn [assertb bind].
    destruct (Z.leb_spec 0 bs); [|lia]. destruct (Z.ltb_spec j bs); [|lia]. cbn [andb assertb bind].
    replace (b * bs * es + j * es) with (base b j) by (unfold base; ring).
    rewrite (u32_small (base b j)) by lia. rewrite u32_small by lia.
    destruct (Z.ltb_spec (base b j) (bc * bs * es)); [|lia]. cbn [assertb bind].
    destruct (Z.leb_spec (base b j + es) (bc * bs * es)); [|lia]. cbn [assertb bind].
    destruct (Z.leb_spec (base b j) (base b j + es)); [|lia]. reflexivity.
  Qed.

  Lemma entry_range_abort : forall b j, bc <= b -> entry_range bc bs es b j = Abort.
  Proof.
    intros b j Hb. unfold entry_range. destruct (Z.ltb_spec b bc); [lia|]. reflexivity.
  Qed.

  Lemma shl_int_ok : forall x c, 0 <= c < 31 -> shl_int x c = Ok (Z.shiftl x c).
  Proof.
    intros x c H. unfold shl_int. destruct (Z.leb_spec 0 c); [|lia].
    destruct (Z.ltb_spec c 31); [|lia]. reflexivity.
  Qed.

  Lemma get_entry_ok : forall f b j, wf f -> 0 <= b < bc -> 0 <= j < bs ->
    exists v, get_entry f b j = Ok v /\ 0 <= v < 256 /\
      forall c, 0 <= c < 8 -> Z.testbit v c = (c <? es) && bitf f (base b j + c).
  Proof.
    intros f b j Hwf Hb Hj. destruct (base_bounds b j Hb Hj) as [B1 B2].
    unfold Cuckoo_Model.get_entry. rewrite entry_range_ok by auto. cbn [bind].
    replace (base b j + es - base b j) with es by lia.
    destruct (forZ_inv Z
      (fun k tmp => 0 <= tmp < 256 /\ forall c, 0 <= c < 8 ->
         Z.testbit tmp c = (c <? k) && bitf f (base b j + c))
      (fun count tmp => do value <- cget_bit f (base b j + count);
                        do s <- shl_int value count; Ok (u8 (Z.lor tmp s)))
      (Z.to_nat es) 0 0) as [v [E1 [E2 E3]]].
    - split; [lia|]. intros c Hc. rewrite Z.bits_0.
      destruct (Z.ltb_spec c 0); [lia|]. reflexivity.
    - intros k tmp Hk [T1 T2].
      destruct (wf_rd f (base b j + k) Hwf) as [w [Hw Hr]]; [lia|].
      rewrite (get_bit_val _ _ _ Hw). cbn [bind]. rewrite shl_int_ok by lia. cbn [bind].
      eexists; split; [reflexivity|]. split; [apply u8_range|].
      intros c Hc. unfold u8. change 256 with (2 ^ 8). rewrite Z.mod_pow2_bits_low by lia.
      rewrite Z.lor_spec, T2 by lia. rewrite Z.shiftl_spec by lia.
      destruct (Z.eq_dec c k).
      + subst. rewrite Z.sub_diag. unfold bitf. rewrite Hw.
        destruct (Z.ltb_spec k k); [lia|]. destruct (Z.ltb_spec k (k + 1)); [|lia].
        destruct (Z.odd w); reflexivity.
      + assert (Z.testbit (if Z.odd w then 1 else 0) (c - k) = false) as ->.
        { destruct (Z.ltb_spec (c - k) 0).
          - apply Z.testbit_neg_r. lia.
          - destruct (Z.odd w); [|apply Z.bits_0].
            change 1 with (2 ^ 0). apply Z.pow2_bits_false. lia. }
        rewrite orb_false_r. f_equal.
        destruct (Z.ltb_spec c k), (Z.ltb_spec c (k + 1)); auto; lia.
    - exists v. split; auto. split; auto. intros c Hc. rewrite E3 by auto.
      replace (0 + Z.of_nat (Z.to_nat es)) with es by lia. reflexivity.
  Qed.

  (** The value stored in slot [j] of bucket [b]. *)
  Definition ent (f : list Z) (b j : Z) : Z :=
    match get_entry f b j with Ok v => v | _ => 0 end.

  Lemma ent_ok : forall f b j, wf f -> 0 <= b < bc -> 0 <= j < bs ->
    get_entry f b j = Ok (ent f b j).
  Proof.
    intros. destruct (get_entry_ok f b j) as [v [E1 _]]; auto. unfold ent. now rewrite E1.
  Qed.

  Lemma ent_bits : forall f b j c, wf f -> 0 <= b < bc -> 0 <= j < bs -> 0 <= c < 8 ->
    Z.testbit (ent f b j) c = (c <? es) && bitf f (base b j + c).
  Proof.
    intros. destruct (get_entry_ok f b j) as [v [E1 [_ E3]]]; auto. unfold ent. rewrite E1. auto.
  Qed.

  Lemma ent_range : forall f b j, wf f -> 0 <= b < bc -> 0 <= j < bs -> 0 <= ent f b j < 256.
  Proof.
    intros. destruct (get_entry_ok f b j) as [v [E1 [E2 _]]]; auto. unfold ent. now rewrite E1.
  Qed.

  Lemma byte_bits_inj : forall x y, 0 <= x < 256 -> 0 <= y < 256 ->
    (forall c, 0 <= c < 8 -> Z.testbit x c = Z.testbit y c) -> x = y.
  Proof.
    intros x y Hx Hy H. rewrite <- (Z.mod_small x (2 ^ 8)), <- (Z.mod_small y (2 ^ 8)) by lia.
    apply Z.bits_inj'. intros n Hn. destruct (Z.ltb_spec n 8).
    - rewrite !Z.mod_pow2_bits_low by lia. apply H. lia.
    - rewrite !Z.mod_pow2_bits_high by lia. reflexivity.
  Qed.

  Lemma ent_lt_pow : forall f b j, wf f -> 0 <= b < bc -> 0 <= j < bs -> ent f b j < 2 ^ es.
  Proof.
    intros f b j Hwf Hb Hj. pose proof (ent_range f b j Hwf Hb Hj) as R.
    destruct (Z.ltb_spec es 8).
    - assert (E : ent f b j = ent f b j mod 2 ^ es).
      { apply Z.bits_inj'. intros n Hn. destruct (Z.ltb_spec n es).
        - rewrite Z.mod_pow2_bits_low by lia. reflexivity.
        - rewrite Z.mod_pow2_bits_high by lia. destruct (Z.ltb_spec n 8).
          + rewrite ent_bits by auto. destruct (Z.ltb_spec n es); [lia|reflexivity].
          + destruct (Z.eq_dec (ent f b j) 0) as [->|]; [apply Z.bits_0|].
            apply Z.bits_above_log2; [lia|]. apply Z.lt_le_trans with 8; [|lia].
            apply Z.log2_lt_pow2; lia. }
      rewrite E. apply Z.mod_pos_bound. apply Z.pow_pos_nonneg; lia.
    - assert (2 ^ 8 <= 2 ^ es) by (apply Z.pow_le_mono_r; lia). lia.
  Qed.

  Lemma base_disjoint : forall b j b' j' c c',
    0 <= b < bc -> 0 <= j < bs -> 0 <= b' < bc -> 0 <= j' < bs -> (b, j) <> (b', j') ->
    0 <= c < es -> 0 <= c' < es -> base b j + c <> base b' j' + c'.
  Proof.
    intros b j b' j' c c' Hb Hj Hb' Hj' Hne Hc Hc'. unfold base.
    assert (b * bs + j <> b' * bs + j').
    { intros E. apply Hne. assert (b = b') by nia. subst. f_equal. lia. }
    nia.
  Qed.

  Lemma set_entry_ok : forall f b j v, wf f -> 0 <= b < bc -> 0 <= j < bs ->
    0 <= v < 256 -> v < 2 ^ es ->
    exists f', set_entry f b j v = Ok f' /\ wf f' /\
      forall b' j', 0 <= b' < bc -> 0 <= j' < bs ->
        ent f' b' j' = if (b =? b') && (j =? j') then v else ent f b' j'.
  Proof.
    intros f b j v Hwf Hb Hj Hv Hvp. destruct (base_bounds b j Hb Hj) as [B1 B2].
    unfold Cuckoo_Model.set_entry. rewrite entry_range_ok by auto. cbn [bind].
    replace (base b j + es - base b j) with es by lia. rewrite u8_small by auto.
    destruct (forZ_inv (list Z)
      (fun k g => wf g /\ forall i, 0 <= i ->
         bitf g i = if (base b j <=? i) && (i <? base b j + k) then Z.testbit v (i - base b j) else bitf f i)
      (fun count f => do s <- shl_int 1 count;
         cset_bit f (base b j + count) (if Z.land v s =? 0 then 0 else 1))
      (Z.to_nat es) 0 f) as [f' [E1 [E2 E3]]].
    - split; auto. intros i Hi.
      destruct (Z.leb_spec (base b j) i), (Z.ltb_spec i (base b j + 0)); auto; lia.
    - intros k g Hk [G1 G2]. rewrite shl_int_ok by lia. cbn [bind].
      destruct (set_bit_spec g (base b j + k) (if Z.land v (Z.shiftl 1 k) =? 0 then 0 else 1) G1)
        as [g' [S1 [S2 S3]]]; [lia | destruct (_ =? 0); auto |].
      exists g'. split; auto. split; auto. intros i Hi. rewrite S3 by auto.
      destruct (Z.eqb_spec (base b j + k) i).
      + subst i. destruct (Z.leb_spec (base b j) (base b j + k)); [|lia].
        destruct (Z.ltb_spec (base b j + k) (base b j + (k + 1))); [|lia]. cbn [andb].
        replace (base b j + k - base b j) with k by lia.
        rewrite land_pow2 by lia. destruct (Z.testbit v k); reflexivity.
      + rewrite G2 by auto.
        destruct (Z.leb_spec (base b j) i), (Z.ltb_spec i (base b j + k)),
          (Z.ltb_spec i (base b j + (k + 1))); auto; lia.
    - exists f'. split; auto. split; auto. intros b' j' Hb' Hj'.
      replace (0 + Z.of_nat (Z.to_nat es)) with es in E3 by lia.
      destruct (base_bounds b' j' Hb' Hj') as [B1' B2'].
      destruct ((b =? b') && (j =? j')) eqn:Eq.
      + apply andb_prop in Eq. destruct Eq as [Eb Ej]. apply Z.eqb_eq in Eb, Ej. subst b' j'.
        apply byte_bits_inj; auto. { now apply ent_range. }
        intros c Hc. rewrite ent_bits by auto. destruct (Z.ltb_spec c es).
        * rewrite E3 by lia. destruct (Z.leb_spec (base b j) (base b j + c)); [|lia].
          destruct (Z.ltb_spec (base b j + c) (base b j + es)); [|lia]. cbn [andb]. f_equal. lia.
        * cbn [andb]. symmetry. destruct (Z.eq_dec v 0) as [->|]; [apply Z.bits_0|].
          apply Z.bits_above_log2; [lia|]. apply Z.lt_le_trans with es; [|lia].
          apply Z.log2_lt_pow2; lia.
      + assert (Hne : (b, j) <> (b', j')).
        { intros C. injection C as -> ->. rewrite !Z.eqb_refl in Eq. discriminate. }
        apply byte_bits_inj; [now apply ent_range | now apply ent_range |].
        intros c Hc. rewrite !ent_bits by auto. destruct (Z.ltb_spec c es); auto. cbn [andb].
        rewrite E3 by lia.
        destruct (Z.leb_spec (base b j) (base b' j' + c)); auto.
        destruct (Z.ltb_spec (base b' j' + c) (base b j + es)); auto. exfalso.
        apply (base_disjoint b j b' j' (base b' j' + c - base b j) c); auto; lia.
  Qed.
End P.
