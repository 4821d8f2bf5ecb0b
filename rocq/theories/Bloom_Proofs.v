From Coq Require Import ZArith List Bool Lia.
From Verif Require Import CppBase CppFacts Bloom_Model Bloom_Spec.
Import ListNotations.
Local Open Scope Z_scope.

Section P.
  Context {E : Type}.
  Variable bit_size : Z.
  Variable hashs : list (E -> Z).
  Hypothesis Hsize : 1 <= bit_size < 2147483648.

  Lemma real_size_eq : real_size bit_size = bit_size.
  Proof. unfold real_size, BYTE_SIZE. rewrite Z.mod_1_r, Z.div_1_r. cbn. lia. Qed.

  Lemma odd_land : forall b, negb (Z.land b (Z.shiftl 1 (0)) =? 0) = Z.odd b.
  Proof.
    intros b. change (Z.shiftl 1 0) with (Z.ones 1). rewrite Z.land_ones by lia.
    change (2 ^ 1) with 2. rewrite Zmod_odd. destruct (Z.odd b); reflexivity.
  Qed.

  Lemma lor_byte : forall b, 0 <= b < 256 -> 0 <= Z.lor b 1 < 256.
  Proof.
    intros b Hb. split. { apply Z.lor_nonneg. lia. }
    destruct (Z.eq_dec (Z.lor b 1) 0) as [E0|N0]; [lia|].
    assert (0 <= Z.lor b 1) by (apply Z.lor_nonneg; lia).
    change 256 with (2 ^ 8). apply Z.log2_lt_pow2; [lia|].
    rewrite Z.log2_lor by lia. cbn [Z.log2].
    destruct (Z.eq_dec b 0); [subst; cbn; lia|].
    apply Z.max_lub_lt; [|cbn; lia]. apply Z.log2_lt_pow2; lia.
  Qed.

  Lemma lor_odd : forall b, Z.odd (Z.lor b 1) = true.
  Proof. intros. rewrite <- Z.bit0_odd, Z.lor_spec. cbn. apply orb_true_r. Qed.

  (** Representation: all bytes are initialised, and their low bit says whether
      the slot is on. *)
  Definition rep (bits : bloom) (on : Z -> Prop) : Prop :=
    Z.of_nat (length bits) = bit_size /\
    forall i, 0 <= i < bit_size ->
      exists b, rd bits i = Ok (Some b) /\ 0 <= b < 256 /\ (Z.odd b = true <-> on i).

  Lemma rep_ext : forall bits on on', rep bits on ->
    (forall i, 0 <= i < bit_size -> (on i <-> on' i)) -> rep bits on'.
  Proof.
    intros bits on on' [Hl H] He. split; auto. intros i Hi.
    destruct (H i Hi) as [b [H1 [H2 H3]]]. exists b. rewrite <- He by auto. auto.
  Qed.

  Lemma set_bit_ok : forall bits on k, rep bits on -> 0 <= k < bit_size ->
    exists bits', set_bit_to_one bit_size bits k = Ok bits' /\
      rep bits' (fun i => i = k \/ on i).
  Proof.
    intros bits on k [Hl H] Hk. destruct (H k Hk) as [b [Hb [Hr Ho]]].
    unfold set_bit_to_one.
    destruct (Z.leb_spec 0 k); [|lia]. destruct (Z.ltb_spec k bit_size); [|lia].
    cbn [andb assertb bind]. unfold BYTE_SIZE. rewrite Z.mod_1_r, Z.div_1_r, Z.sub_0_r.
    unfold rdi. rewrite Hb. cbn [bind]. rewrite wr_ok by lia.
    eexists; split; [reflexivity|]. split. { now rewrite upd_length. }
    intros i Hi. rewrite rd_upd by lia. change (Z.shiftl 1 0) with 1.
    destruct (Z.eqb_spec k i).
    - eexists; split; [reflexivity|]. split. { apply u8_range. }
      pose proof (lor_byte b Hr). rewrite u8_small by auto. rewrite lor_odd.
      split; auto.
    - destruct (H i Hi) as [b2 [G1 [G2 G3]]]. exists b2. split; auto. split; auto.
      rewrite G3. split; auto. intros [->|?]; auto. lia.
  Qed.

  Lemma set_bit_abort : forall bits k, ~ 0 <= k < bit_size ->
    set_bit_to_one bit_size bits k = Abort.
  Proof.
    intros bits k Hk. unfold set_bit_to_one.
    destruct (Z.leb_spec 0 k); cbn; auto. destruct (Z.ltb_spec k bit_size); cbn; auto. lia.
  Qed.

  Lemma get_bit_ok : forall bits on k, rep bits on -> 0 <= k < bit_size ->
    exists b, get_bit bit_size bits k = Ok b /\ (b = true <-> on k).
  Proof.
    intros bits on k [Hl H] Hk. destruct (H k Hk) as [b [Hb [Hr Ho]]].
    unfold get_bit.
    destruct (Z.leb_spec 0 k); [|lia]. destruct (Z.ltb_spec k bit_size); [|lia].
    cbn [andb assertb bind]. unfold BYTE_SIZE. rewrite Z.mod_1_r, Z.div_1_r, Z.sub_0_r.
    unfold rdi. rewrite Hb. cbn [bind]. rewrite odd_land. eauto.
  Qed.

  Lemma get_bit_abort : forall bits k, ~ 0 <= k < bit_size ->
    get_bit bit_size bits k = Abort.
  Proof.
    intros bits k Hk. unfold get_bit.
    destruct (Z.leb_spec 0 k); cbn; auto. destruct (Z.ltb_spec k bit_size); cbn; auto. lia.
  Qed.

  Lemma rd_nth : forall A (l : list A) j, 0 <= j < Z.of_nat (length l) ->
    exists a, rd l j = Ok a /\ nth_error l (Z.to_nat j) = Some a.
  Proof.
    intros. destruct (rd_in_bounds _ _ _ H) as [a Ha]. exists a. split; auto.
    now apply rd_ok_iff in Ha.
  Qed.

  Lemma add_ok : forall bits on e, rep bits on ->
    (forall h, In h hashs -> 0 <= to_int (h e) < bit_size) ->
    exists bits', add bit_size hashs bits e = Ok bits' /\
      rep bits' (fun i => (exists h, In h hashs /\ to_int (h e) = i) \/ on i).
  Proof.
    intros bits on e Hrep Hh. unfold add.
    destruct (forZ_inv _
      (fun k b => rep b (fun i => (exists j h, (j < Z.to_nat k)%nat /\
                     nth_error hashs j = Some h /\ to_int (h e) = i) \/ on i))
      (fun i bits => do h <- rd hashs i; set_bit_to_one bit_size bits (to_int (h e)))
      (length hashs) 0 bits) as [b' [Hb' Hr']].
    - eapply rep_ext; [exact Hrep|]. intros i Hi. split; auto.
      intros [[j [h [Hj _]]]|]; auto. cbn in Hj; lia.
    - intros j b Hj Hb. destruct (rd_nth _ hashs j) as [h [Hrd Hn]]; [lia|].
      rewrite Hrd. cbn [bind].
      destruct (set_bit_ok b _ (to_int (h e)) Hb) as [b'' [E1 E2]].
      { apply Hh. eapply nth_error_In; eauto. }
      exists b''. split; auto. eapply rep_ext; [exact E2|]. intros i Hi. cbn.
      split.
      + intros [->|[[j' [h' [A1 [A2 A3]]]]|]]; auto.
        * left. exists (Z.to_nat j), h. repeat split; auto. lia.
        * left. exists j', h'. repeat split; auto. lia.
      + intros [[j' [h' [A1 [A2 A3]]]]|]; auto.
        destruct (Nat.eq_dec j' (Z.to_nat j)).
        * subst j'. left. congruence.
        * right. left. exists j', h'. repeat split; auto. lia.
    - exists b'. split; auto. eapply rep_ext; [exact Hr'|]. intros i Hi. cbn. split.
      + intros [[j [h [A1 [A2 A3]]]]|]; auto. left. exists h. split; auto.
        eapply nth_error_In; eauto.
      + intros [[h [A1 A2]]|]; auto. left.
        apply In_nth_error in A1. destruct A1 as [j A1].
        exists j, h. repeat split; auto.
        assert (nth_error hashs j <> None) by congruence.
        apply nth_error_Some in H. lia.
  Qed.

  (** A hash outside the filter stops [add] with a failed assertion. *)
  Lemma add_from_abort : forall e n k bits on,
    rep bits on -> (Z.to_nat k + n = length hashs)%nat -> 0 <= k ->
    (exists j h, (Z.to_nat k <= j)%nat /\ nth_error hashs j = Some h /\
       ~ 0 <= to_int (h e) < bit_size) ->
    forZ n k (fun i bits => do h <- rd hashs i; set_bit_to_one bit_size bits (to_int (h e))) bits = Abort.
  Proof.
    intros e. induction n as [|n IH]; intros k bits on Hrep Hk Hk0 [j [h [Hj [Hn Hbad]]]].
    - assert (nth_error hashs j <> None) by congruence. apply nth_error_Some in H. lia.
    - cbn [forZ]. destruct (rd_nth _ hashs k) as [h' [Hrd Hn']]; [lia|].
      rewrite Hrd. cbn [bind].
      assert (D : 0 <= to_int (h' e) < bit_size \/ ~ 0 <= to_int (h' e) < bit_size) by lia.
      destruct D as [D|D].
      + destruct (set_bit_ok bits on (to_int (h' e)) Hrep D) as [b'' [E1 E2]].
        rewrite E1. cbn [bind]. eapply IH; [exact E2|lia|lia|].
        exists j, h. split; auto.
        destruct (Nat.eq_dec j (Z.to_nat k)); [|lia]. subst. congruence.
      + rewrite set_bit_abort by auto. reflexivity.
  Qed.

  Lemma add_abort : forall bits on e, rep bits on ->
    (exists h, In h hashs /\ ~ 0 <= to_int (h e) < bit_size) ->
    add bit_size hashs bits e = Abort.
  Proof.
    intros bits on e Hrep [h [Hin Hbad]]. unfold add.
    apply In_nth_error in Hin. destruct Hin as [j Hj].
    eapply add_from_abort; eauto; try lia.
    exists j, h. repeat split; auto. lia.
  Qed.

  Lemma lookup_ok : forall bits on e, rep bits on ->
    (forall h, In h hashs -> 0 <= to_int (h e) < bit_size) ->
    exists b, lookup bit_size hashs bits e = Ok b /\
      (b = true <-> forall h, In h hashs -> on (to_int (h e))).
  Proof.
    intros bits on e Hrep Hh. unfold lookup.
    set (body := fun i => do h <- rd hashs i; do b <- get_bit bit_size bits (to_int (h e));
                if b then Ok None else Ok (Some false)).
    assert (Hbody : forall j, 0 <= j < 0 + Z.of_nat (length hashs) ->
      exists h, nth_error hashs (Z.to_nat j) = Some h /\
        ((body j = Ok None /\ on (to_int (h e))) \/ (body j = Ok (Some false) /\ ~ on (to_int (h e))))).
    { intros j Hj. destruct (rd_nth _ hashs j) as [h [Hrd Hn]]; [lia|].
      exists h. split; auto. unfold body. rewrite Hrd. cbn [bind].
      destruct (get_bit_ok bits on (to_int (h e)) Hrep) as [b [Hg Hb]].
      { apply Hh. eapply nth_error_In; eauto. }
      rewrite Hg. cbn [bind]. destruct b.
      - left. split; auto. now apply Hb.
      - right. split; auto. intros C. apply Hb in C. discriminate. }
    destruct (findZ_total _ body (length hashs) 0) as [[Ef Hn]|[k [r [Hk [Hb [Hn Ef]]]]]].
    { intros j Hj. destruct (Hbody j Hj) as [h [_ [[? _]|[? _]]]]; eauto. }
    - rewrite Ef. cbn [bind]. exists true. split; auto. split; auto.
      intros _ h Hin. apply In_nth_error in Hin. destruct Hin as [j Hj].
      assert (nth_error hashs j <> None) by congruence. apply nth_error_Some in H.
      destruct (Hbody (Z.of_nat j)) as [h' [Hn' [[_ Hon]|[Hbad _]]]]; [lia| |].
      + rewrite Nat2Z.id in Hn'. congruence.
      + rewrite Hn in Hbad by lia. discriminate.
    - rewrite Ef. cbn [bind]. destruct (Hbody k Hk) as [h [Hh' [[Hc _]|[Hc Hoff]]]].
      { rewrite Hb in Hc. discriminate. }
      rewrite Hb in Hc. injection Hc as ->. exists false. split; auto. split; [discriminate|].
      intros C. exfalso. apply Hoff, C. eapply nth_error_In; eauto.
  Qed.

  Lemma fill_ok : forall (f : Z -> res Z) (g : Z -> Z) bits,
    Z.of_nat (length bits) = bit_size ->
    (forall i, 0 <= i < bit_size -> f i = Ok (g i) /\ 0 <= g i < 256) ->
    exists bits', forZ (Z.to_nat bit_size) 0
        (fun i bits => do b <- f i; wr bits i (Some b)) bits = Ok bits' /\
      rep bits' (fun i => Z.odd (g i) = true).
  Proof.
    intros f g bits Hl Hf.
    destruct (forZ_inv _
      (fun k b => Z.of_nat (length b) = bit_size /\
          forall i, 0 <= i < k -> rd b i = Ok (Some (g i)))
      (fun i bits => do b <- f i; wr bits i (Some b)) (Z.to_nat bit_size) 0 bits)
      as [b' [Eb [Hlen Hc]]].
    - split; auto. intros. lia.
    - intros j b Hj [Hlb Hcb]. destruct (Hf j) as [Hfj Hg]; [lia|]. rewrite Hfj. cbn [bind].
      rewrite wr_ok by lia. eexists; split; [reflexivity|]. split.
      { now rewrite upd_length. }
      intros i Hi. rewrite rd_upd by lia. destruct (Z.eqb_spec j i); [subst; auto|].
      apply Hcb. lia.
    - exists b'. split; auto. split; auto. intros i Hi. exists (g i).
      split. { apply Hc. lia. }
      split. { apply Hf. lia. } tauto.
  Qed.

  Lemma clear_ok : forall bits, Z.of_nat (length bits) = bit_size ->
    exists bits', clear bit_size bits = Ok bits' /\ rep bits' (fun _ => False).
  Proof.
    intros bits Hl. unfold clear. rewrite real_size_eq.
    destruct (fill_ok (fun _ => Ok 0) (fun _ => 0) bits Hl) as [b' [E1 E2]].
    { intros. split; auto. lia. }
    exists b'. split; auto. eapply rep_ext; [exact E2|]. cbn. intuition congruence.
  Qed.

  Lemma set_ok : forall bits l, Z.of_nat (length bits) = bit_size ->
    Z.of_nat (length l) = bit_size -> Forall (fun b => 0 <= b < 256) l ->
    exists bits', set bit_size bits l = Ok bits' /\
      rep bits' (fun i => Z.odd (nth (Z.to_nat i) l 0) = true).
  Proof.
    intros bits l Hl Hll Hb. unfold set. rewrite real_size_eq.
    destruct (fill_ok (fun i => do b <- rd l i; Ok (u8 b)) (fun i => nth (Z.to_nat i) l 0) bits Hl)
      as [b' [E1 E2]].
    { intros i Hi. destruct (rd_nth _ l i) as [a [Ha Hn]]; [lia|].
      rewrite Ha. cbn [bind]. rewrite (nth_error_nth _ _ 0 Hn).
      assert (0 <= a < 256).
      { rewrite Forall_forall in Hb. apply Hb. eapply nth_error_In; eauto. }
      rewrite u8_small by auto. auto. }
    exists b'. split; auto. etransitivity; [|exact E1]. apply forZ_ext. intros.
    rewrite bind_assoc. reflexivity.
  Qed.

  Hypothesis Hcount : (1 <= length hashs)%nat.

  Lemma construct_ok :
    exists bits, construct bit_size hashs = Ok bits /\ rep bits (fun _ => False).
  Proof.
    unfold construct. destruct (Z.leb_spec 1 bit_size); [|lia].
    destruct (Z.leb_spec 1 (Z.of_nat (length hashs))); [|lia]. cbn [assertb bind].
    apply clear_ok. rewrite repeat_length. lia.
  Qed.

  Hypothesis Hrange : hashes_in_range bit_size hashs.

  Lemma range_int : forall h e, In h hashs -> to_int (h e) = h e /\ 0 <= h e < bit_size.
  Proof. clear Hcount.
    intros h e Hin. pose proof (Hrange h e Hin). split; auto. apply to_int_small. lia.
  Qed.

  Lemma step_ok : forall bits past o,
    rep bits (covered hashs past) ->
    (forall l, o = OpSet l -> Z.of_nat (length l) = bit_size /\ Forall (fun b => 0 <= b < 256) l) ->
    exists bits' out, step bit_size hashs bits o = Ok (bits', out) /\
      rep bits' (covered hashs (o :: past)) /\
      (forall e, o = OpLookup e ->
         exists b, out = Some b /\ (b = true <-> forall h, In h hashs -> covered hashs past (h e))).
  Proof.
    intros bits past o Hrep Hset. destruct o as [e|e| |l]; cbn [step].
    - destruct (add_ok bits _ e Hrep) as [b' [E1 E2]].
      { intros. destruct (range_int h e H) as [-> ?]; auto. }
      rewrite E1. cbn [bind]. exists b', None. split; auto. split; [|discriminate].
      eapply rep_ext; [exact E2|]. intros i Hi. cbn. split; (intros [[h [A1 A2]]|]; [left|auto]).
      + exists h. split; auto. destruct (range_int h e A1). congruence.
      + exists h. split; auto. destruct (range_int h e A1). congruence.
    - destruct (lookup_ok bits _ e Hrep) as [b [E1 E2]].
      { intros. destruct (range_int h e H) as [-> ?]; auto. }
      rewrite E1. cbn [bind]. exists bits, (Some b). split; auto. split; [exact Hrep|].
      intros e' [= <-]. exists b. split; auto. rewrite E2.
      split; intros A h Hin; specialize (A h Hin); destruct (range_int h e Hin); congruence.
    - destruct (clear_ok bits) as [b' [E1 E2]]; [apply Hrep|].
      rewrite E1. cbn [bind]. exists b', None. split; auto. split; [exact E2|discriminate].
    - destruct (Hset l eq_refl) as [H1 H2].
      destruct (set_ok bits l) as [b' [E1 E2]]; auto; [apply Hrep|].
      rewrite E1. cbn [bind]. exists b', None. split; auto. split; [exact E2|discriminate].
  Qed.

  (** Answers of a run against the specification. *)
  Definition answers_ok (past ops : list (@op E)) (outs : list (option bool)) : Prop :=
    length outs = length ops /\
    forall n e, nth_error ops n = Some (OpLookup e) ->
      exists b, nth_error outs n = Some (Some b) /\
        (b = true <-> forall h, In h hashs -> covered hashs (rev (firstn n ops) ++ past) (h e)).

  Lemma run_from_ok : forall ops bits past,
    rep bits (covered hashs past) -> set_arrays_ok bit_size ops ->
    exists bits' outs, run_from bit_size hashs bits ops = Ok (bits', outs) /\
      rep bits' (covered hashs (rev ops ++ past)) /\ answers_ok past ops outs.
  Proof.
    induction ops as [|o ops IH]; intros bits past Hrep Hset.
    - exists bits, []. split; auto. split; auto. split; auto. intros [|n] e H; discriminate.
    - destruct (step_ok bits past o Hrep) as [b1 [out [E1 [R1 A1]]]].
      { intros l ->. apply Hset. now left. }
      destruct (IH b1 (o :: past) R1) as [b2 [outs [E2 [R2 A2]]]].
      { intros l Hl. apply Hset. now right. }
      cbn [run_from]. rewrite E1. cbn [bind]. rewrite E2. cbn [bind].
      exists b2, (out :: outs). split; auto. split.
      { cbn [rev]. rewrite <- app_assoc. exact R2. }
      destruct A2 as [L2 A2]. split; [cbn; lia|].
      intros [|n] e Hn; cbn in Hn.
      + injection Hn as ->. destruct (A1 e eq_refl) as [b [-> Hb]]. exists b.
        split; auto.
      + destruct (A2 n e Hn) as [b [Hb1 Hb2]]. exists b. split; auto.
        cbn [firstn rev]. rewrite <- app_assoc. exact Hb2.
  Qed.

  Lemma run_ok : forall ops, set_arrays_ok bit_size ops ->
    exists bits outs, run bit_size hashs ops = Ok (bits, outs) /\
      rep bits (covered hashs (rev ops)) /\ answers_ok [] ops outs.
  Proof.
    intros ops Hset. destruct construct_ok as [b [EC R]].
    destruct (run_from_ok ops b [] R Hset) as [b' [outs [E' [R' A]]]].
    exists b', outs. unfold run. rewrite EC. cbn [bind]. rewrite app_nil_r in R'. auto.
  Qed.

  Lemma run_exact : forall ops n e, set_arrays_ok bit_size ops ->
    nth_error ops n = Some (OpLookup e) ->
    exists bits outs b, run bit_size hashs ops = Ok (bits, outs) /\
      nth_error outs n = Some (Some b) /\
      (b = true <-> forall h, In h hashs -> covered hashs (rev (firstn n ops)) (h e)).
  Proof.
    intros ops n e Hset Hn. destruct (run_ok ops Hset) as [bits [outs [E1 [_ [_ A]]]]].
    destruct (A n e Hn) as [b [Hb1 Hb2]]. rewrite app_nil_r in Hb2. eauto 6.
  Qed.

  Lemma covered_no_reset : forall mid past i, no_reset mid ->
    covered hashs (rev mid ++ past) i <->
    (exists e h, In e (added mid) /\ In h hashs /\ h e = i) \/ covered hashs past i.
  Proof.
    induction mid as [|o mid IH]; intros past i Hn; cbn [rev app].
    - split; auto. intros [[e [h [[] _]]]|]; auto.
    - inversion Hn as [|? ? Ho Hm]; subst. rewrite <- app_assoc. rewrite IH by auto.
      destruct o as [e'|e'| |l]; try contradiction; cbn [app covered added].
      + split.
        * intros [[e [h [A [B C]]]]|[[h [A B]]|]]; auto.
          -- left. exists e, h. cbn. auto.
          -- left. exists e', h. cbn. auto.
        * intros [[e [h [[->|A] [B C]]]]|]; auto.
          -- right. left. eauto.
          -- left. eauto 6.
      + reflexivity.
  Qed.

  Lemma lookup_since_clear : forall pre mid e n ops b bits outs,
    ops = pre ++ mid ++ [OpLookup e] -> no_reset mid -> set_arrays_ok bit_size ops ->
    n = length (pre ++ mid) ->
    run bit_size hashs ops = Ok (bits, outs) -> nth_error outs n = Some (Some b) ->
    (b = true <-> forall h, In h hashs ->
       (exists e' h', In e' (added mid) /\ In h' hashs /\ h' e' = h e) \/
       covered hashs (rev pre) (h e)).
  Proof.
    intros pre mid e n ops b bits outs Hops Hm Hset Hn Hrun Hout.
    destruct (run_exact ops n e Hset) as [bits' [outs' [b' [E1 [E2 E3]]]]].
    { subst. rewrite app_assoc. rewrite nth_error_app2 by lia.
      now rewrite Nat.sub_diag. }
    rewrite Hrun in E1. injection E1 as <- <-. rewrite Hout in E2. injection E2 as <-.
    rewrite E3. subst. rewrite app_assoc, firstn_app, firstn_all, Nat.sub_diag.
    cbn [firstn]. rewrite app_nil_r, rev_app_distr.
    split; intros A h Hin; specialize (A h Hin).
    - now apply covered_no_reset in A.
    - now apply covered_no_reset.
  Qed.
End P.

(** Memory safety for arbitrary hash functions. *)
Section Safe.
  Context {E : Type}.
  Variable bit_size : Z.
  Variable hashs : list (E -> Z).
  Hypothesis Hsize : 1 <= bit_size < 2147483648.
  Hypothesis Hcount : (1 <= length hashs)%nat.

  Definition good (bits : bloom) : Prop := exists on, rep bit_size bits on.

  Lemma range_dec : forall e : E,
    (forall h, In h hashs -> 0 <= to_int (h e) < bit_size) \/
    (exists h, In h hashs /\ ~ 0 <= to_int (h e) < bit_size).
  Proof.
    intros e. clear Hcount. induction hashs as [|h l IH].
    - left. intros h [].
    - destruct IH as [IH|[h' [A B]]].
      { assert (D : 0 <= to_int (h e) < bit_size \/ ~ 0 <= to_int (h e) < bit_size) by lia.
        destruct D; [left | right; exists h; cbn; auto].
        intros h' [->|?]; auto. }
      right. exists h'. cbn. auto.
  Qed.

  Lemma lookup_safe : forall bits e, good bits ->
    (exists b, lookup bit_size hashs bits e = Ok b) \/ lookup bit_size hashs bits e = Abort.
  Proof.
    intros bits e [on Hrep]. unfold lookup.
    set (body := fun i => do h <- rd hashs i; do b <- get_bit bit_size bits (to_int (h e));
                if b then Ok None else Ok (Some false)).
    assert (Hb : forall j, 0 <= j < Z.of_nat (length hashs) ->
              (exists o, body j = Ok o) \/ body j = Abort).
    { intros j Hj. unfold body. destruct (rd_in_bounds _ hashs j Hj) as [h ->]. cbn [bind].
      assert (D : 0 <= to_int (h e) < bit_size \/ ~ 0 <= to_int (h e) < bit_size) by lia.
      destruct D as [D|D].
      - destruct (get_bit_ok bit_size bits on _ Hrep D) as [b [-> _]]. cbn [bind].
        destruct b; eauto.
      - rewrite get_bit_abort by auto. auto. }
    assert (G : forall n i, 0 <= i -> i + Z.of_nat n <= Z.of_nat (length hashs) ->
              (exists o, findZ n i body = Ok o) \/ findZ n i body = Abort).
    { induction n as [|n IH]; intros i Hi Hn; cbn [findZ]; eauto.
      destruct (Hb i) as [[o ->]| ->]; [lia| |auto]. cbn [bind].
      destruct o; eauto. apply IH; lia. }
    destruct (G (length hashs) 0) as [[o ->]| ->]; [lia|lia| |auto].
    cbn [bind]. destruct o; eauto.
  Qed.

  Lemma step_safe : forall bits o, good bits ->
    (forall l, o = OpSet l -> Z.of_nat (length l) = bit_size /\ Forall (fun b => 0 <= b < 256) l) ->
    (exists bits' out, step bit_size hashs bits o = Ok (bits', out) /\ good bits') \/
    step bit_size hashs bits o = Abort.
  Proof.
    intros bits o [on Hrep] Hset. destruct o as [e|e| |l]; cbn [step].
    - destruct (range_dec e) as [D|D].
      + destruct (add_ok bit_size hashs Hsize bits on e Hrep D) as [b' [-> R]].
        left. cbn. exists b', None. split; auto. eexists; eauto.
      + rewrite (add_abort bit_size hashs Hsize bits on e Hrep D). auto.
    - destruct (lookup_safe bits e) as [[b ->]| ->]; [eexists; eauto| |auto].
      left. cbn. exists bits, (Some b). split; auto. eexists; eauto.
    - destruct (clear_ok bit_size Hsize bits) as [b' [-> R]]; [apply Hrep|].
      left. cbn. exists b', None. split; auto. eexists; eauto.
    - destruct (Hset l eq_refl) as [A B].
      destruct (set_ok bit_size Hsize bits l) as [b' [-> R]]; auto; [apply Hrep|].
      left. cbn. exists b', None. split; auto. eexists; eauto.
  Qed.

  Lemma run_safe : forall ops, set_arrays_ok bit_size ops ->
    (exists bits outs, run bit_size hashs ops = Ok (bits, outs) /\ good bits) \/
    run bit_size hashs ops = Abort.
  Proof.
    intros ops Hset. unfold run.
    destruct (construct_ok bit_size hashs Hsize Hcount) as [b0 [-> R]]. cbn [bind].
    assert (G0 : good b0) by (eexists; eauto). clear R. revert b0 G0 Hset.
    induction ops as [|o ops IH]; intros b0 G0 Hset; cbn [run_from].
    - left. eauto.
    - destruct (step_safe b0 o G0) as [[b1 [out [-> G1]]]| ->]; [| |auto].
      { intros l ->. apply Hset. now left. }
      cbn [bind]. destruct (IH b1 G1) as [[b2 [outs [-> G2]]]| ->].
      { intros l Hl. apply Hset. now right. }
      + left. cbn. eauto.
      + right. reflexivity.
  Qed.

  Lemma add_abort_iff : forall ops bits outs e, set_arrays_ok bit_size ops ->
    run bit_size hashs ops = Ok (bits, outs) ->
    (add bit_size hashs bits e = Abort <->
     exists h, In h hashs /\ ~ 0 <= to_int (h e) < bit_size).
  Proof.
    intros ops bits outs e Hset Hrun. destruct (run_safe ops Hset) as [[b [o [H [on R]]]]|H].
    - rewrite Hrun in H. injection H as <- <-.
      destruct (range_dec e) as [D|D].
      + destruct (add_ok bit_size hashs Hsize bits on e R D) as [b' [-> _]].
        split; [discriminate|]. intros [h [A B]]. exfalso. apply B, D, A.
      + split; auto. intros _. eapply add_abort; eauto.
    - congruence.
  Qed.
End Safe.

Lemma run_from_app : forall E bit_size (hashs : list (E -> Z)) o1 o2 b,
  run_from bit_size hashs b (o1 ++ o2) =
  (do (b1, r1) <- run_from bit_size hashs b o1;
   do (b2, r2) <- run_from bit_size hashs b1 o2; Ok (b2, r1 ++ r2)).
Proof.
  intros E bit_size hashs. induction o1 as [|o o1 IH]; intros o2 b.
  - cbn. destruct (run_from bit_size hashs b o2) as [[? ?]| | |]; reflexivity.
  - cbn [run_from app]. destruct (step bit_size hashs b o) as [[b1 out]| | |]; auto. cbn [bind].
    rewrite IH. destruct (run_from bit_size hashs b1 o1) as [[b2 r1]| | |]; auto. cbn [bind].
    destruct (run_from bit_size hashs b2 o2) as [[b3 r2]| | |]; reflexivity.
Qed.

Section Final.
  Context {E : Type}.
  Variable bit_size : Z.
  Variable hashs : list (E -> Z).
  Hypothesis Hsize : 1 <= bit_size < 2147483648.
  Hypothesis Hcount : (1 <= length hashs)%nat.
  Hypothesis Hrange : hashes_in_range bit_size hashs.

  (** The final lookup after a history. *)
  Lemma final_lookup : forall ops e, set_arrays_ok bit_size ops ->
    exists bits outs b, run bit_size hashs ops = Ok (bits, outs) /\
      lookup bit_size hashs bits e = Ok b /\
      (b = true <-> forall h, In h hashs -> covered hashs (rev ops) (h e)).
  Proof.
    intros ops e Hset.
    destruct (run_ok bit_size hashs Hsize Hcount Hrange ops Hset) as [bits [outs [E1 [R _]]]].
    destruct (lookup_ok bit_size hashs Hsize bits _ e R) as [b [E2 E3]].
    { intros h Hin. destruct (range_int bit_size hashs Hsize Hrange h e Hin) as [-> ?]; auto. }
    exists bits, outs, b. split; auto. split; auto. rewrite E3.
    split; intros A h Hin; specialize (A h Hin);
      destruct (range_int bit_size hashs Hsize Hrange h e Hin); congruence.
  Qed.

  Lemma no_false_negative : forall pre mid e,
    set_arrays_ok bit_size (pre ++ OpAdd e :: mid) -> no_reset mid ->
    exists bits outs, run bit_size hashs (pre ++ OpAdd e :: mid) = Ok (bits, outs) /\
      lookup bit_size hashs bits e = Ok true.
  Proof.
    intros pre mid e Hset Hm.
    destruct (final_lookup _ e Hset) as [bits [outs [b [E1 [E2 E3]]]]].
    exists bits, outs. split; auto. rewrite E2. f_equal. apply E3.
    intros h Hin. rewrite rev_app_distr. cbn [rev]. rewrite <- app_assoc.
    apply covered_no_reset; auto. right. cbn. left. eauto.
  Qed.

  Lemma same_adds_same_answer : forall pre mid1 mid2 e,
    set_arrays_ok bit_size (pre ++ mid1) -> no_reset mid1 -> no_reset mid2 ->
    (forall x, In x (added mid1) <-> In x (added mid2)) ->
    exists bits1 outs1 bits2 outs2 b,
      run bit_size hashs (pre ++ mid1) = Ok (bits1, outs1) /\
      run bit_size hashs (pre ++ mid2) = Ok (bits2, outs2) /\
      lookup bit_size hashs bits1 e = Ok b /\ lookup bit_size hashs bits2 e = Ok b.
  Proof.
    intros pre mid1 mid2 e Hset H1 H2 Hx.
    assert (Hset2 : set_arrays_ok bit_size (pre ++ mid2)).
    { intros l Hl. apply in_app_or in Hl. destruct Hl as [Hl|Hl].
      - apply Hset, in_or_app. auto.
      - unfold no_reset in H2. rewrite Forall_forall in H2. destruct (H2 _ Hl). }
    destruct (final_lookup _ e Hset) as [bits1 [outs1 [b1 [A1 [A2 A3]]]]].
    destruct (final_lookup _ e Hset2) as [bits2 [outs2 [b2 [B1 [B2 B3]]]]].
    assert (b1 = b2).
    { apply eq_true_iff_eq. rewrite A3, B3. rewrite !rev_app_distr.
      split; intros A h Hin; specialize (A h Hin); apply covered_no_reset in A; auto;
        apply covered_no_reset; auto;
        (destruct A as [[e' [h' [I1 [I2 I3]]]]|]; [left; exists e', h'; split; [now apply Hx | auto] | auto]). }
    subst b2. exists bits1, outs1, bits2, outs2, b1. auto.
  Qed.

  Lemma monotone : forall pre mid e bits outs,
    set_arrays_ok bit_size pre -> no_reset mid ->
    run bit_size hashs pre = Ok (bits, outs) -> lookup bit_size hashs bits e = Ok true ->
    exists bits' outs', run bit_size hashs (pre ++ mid) = Ok (bits', outs') /\
      lookup bit_size hashs bits' e = Ok true.
  Proof.
    intros pre mid e bits outs Hset Hm Hrun Hl.
    assert (Hset2 : set_arrays_ok bit_size (pre ++ mid)).
    { intros l Hi. apply in_app_or in Hi. destruct Hi as [Hi|Hi].
      - now apply Hset.
      - unfold no_reset in Hm. rewrite Forall_forall in Hm. destruct (Hm _ Hi). }
    destruct (final_lookup _ e Hset) as [bits1 [outs1 [b1 [A1 [A2 A3]]]]].
    destruct (final_lookup _ e Hset2) as [bits2 [outs2 [b2 [B1 [B2 B3]]]]].
    rewrite Hrun in A1. injection A1 as <- <-. rewrite Hl in A2. injection A2 as <-.
    exists bits2, outs2. split; auto. rewrite B2. f_equal. apply B3.
    rewrite rev_app_distr. intros h Hin. apply covered_no_reset; auto. right.
    apply A3; auto.
  Qed.

  Lemma clear_forgets : forall ops e, set_arrays_ok bit_size ops ->
    exists bits outs, run bit_size hashs (ops ++ [OpClear]) = Ok (bits, outs) /\
      lookup bit_size hashs bits e = Ok false.
  Proof.
    intros ops e Hset.
    assert (Hset2 : set_arrays_ok bit_size (ops ++ [OpClear])).
    { intros l Hi. apply in_app_or in Hi. destruct Hi as [Hi|[Hi|[]]]; [|discriminate].
      now apply Hset. }
    destruct (final_lookup _ e Hset2) as [bits2 [outs2 [b2 [B1 [B2 B3]]]]].
    exists bits2, outs2. split; auto. rewrite B2. f_equal.
    rewrite rev_app_distr in B3. cbn in B3. destruct b2; auto.
    destruct hashs as [|h l]; [cbn in Hcount; lia|].
    exfalso. apply (proj1 B3 eq_refl h). now left.
  Qed.
End Final.

  (** [set] reads [bit_size] bytes whatever the caller passed. *)
  Lemma set_short_ub : forall bit_size, 1 <= bit_size < 2147483648 -> forall bits l,
    Z.of_nat (length bits) = bit_size -> Z.of_nat (length l) < bit_size ->
    set bit_size bits l = Undef OutOfBounds.
  Proof.
    intros bit_size Hsize bits l Hb Hl. unfold set. rewrite real_size_eq.
    replace (Z.to_nat bit_size) with (length l + (Z.to_nat bit_size - length l))%nat by lia.
    rewrite forZ_app.
    match goal with |- context [forZ (length l) 0 ?f bits] => set (body := f) end.
    destruct (forZ_inv (list (option Z)) (fun _ (b : list (option Z)) => Z.of_nat (length b) = bit_size)
                body (length l) 0 bits Hb) as [b' [-> _]].
    { intros j s Hj Hs. unfold body. destruct (rd_in_bounds _ l j) as [a ->]; [lia|].
      cbn [bind]. rewrite wr_ok by lia. eexists; split; [reflexivity|]. now rewrite upd_length. }
    cbn [bind]. destruct (Z.to_nat bit_size - length l)%nat as [|m] eqn:Em; [lia|].
    cbn [forZ]. unfold body at 1. rewrite rd_oob by lia. reflexivity.
  Qed.
