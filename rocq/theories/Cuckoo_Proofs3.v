From Coq Require Import ZArith List Bool Lia Reals Lra.
From Verif Require Import CppBase CppFacts Dbl DblFacts Cuckoo_Model Cuckoo_Spec Cuckoo_Proofs Cuckoo_Proofs2.
Import ListNotations.
Local Open Scope Z_scope.

Section Abs.
  Context {E : Type}.
  Variable fp : E -> Z.
  Variable he : E -> Z.
  Variable hf : Z -> Z.
  Notation cls := (class_of fp he hf).
  Notation spec_run := (spec_run fp he hf).
  Notation net := (net fp he hf).

  Lemma ceqb_eq : forall a b, class_eqb a b = true <-> a = b.
  Proof.
    intros [a1 a2] [b1 b2]. unfold class_eqb. cbn. rewrite andb_true_iff, !Z.eqb_eq.
    split; [intros []; congruence | intros H; injection H; auto].
  Qed.

  Lemma spec_run_net : forall m ops outs m', spec_run m ops outs m' ->
    forall past, m_eq m (net past) -> adds_succeed ops outs ->
    m_eq m' (net (rev ops ++ past)) /\
    forall n e, nth_error ops n = Some (CLookup e) ->
      nth_error outs n = Some (Some (0 <? net (rev (firstn n ops) ++ past) (cls e))).
  Proof.
    induction 1 as [m m' Hm|m o out m1 ops outs m2 Hs Hr IH]; intros past Hp Ha.
    - split. { intros d. rewrite Hm. apply Hp. } intros [|n] e Hn; discriminate.
    - assert (H1 : m_eq m1 (net (o :: past))).
      { destruct o as [e rnd|e|e|]; cbn [spec_step Cuckoo_Spec.net] in *.
        - destruct Hs as [[Ho Hs]|[Ho _]].
          + intros d. rewrite Hs. unfold m_add. cbn. now rewrite Hp.
          + specialize (Ha 0%nat e rnd eq_refl). cbn in Ha. congruence.
        - destruct Hs as [_ Hs]. intros d. rewrite Hs. apply Hp.
        - destruct Hs as [_ Hs]. intros d. rewrite Hs. cbn.
          destruct (class_eqb (cls e) d) eqn:Eq.
          + apply ceqb_eq in Eq. subst d. cbn [andb]. rewrite <- Hp.
            destruct (0 <? m (cls e)); [|reflexivity]. unfold m_sub.
            assert (class_eqb (cls e) (cls e) = true) as -> by now apply ceqb_eq. reflexivity.
          + cbn [andb]. rewrite <- Hp. destruct (0 <? m (cls e)); [|reflexivity].
            unfold m_sub. rewrite Eq. lia.
        - destruct Hs as [_ Hs]. intros d. rewrite Hs. reflexivity. }
      assert (Ha' : adds_succeed ops outs).
      { intros n e rnd Hn. exact (Ha (S n) e rnd Hn). }
      destruct (IH (o :: past) H1 Ha') as [I1 I2]. split.
      { cbn [rev]. rewrite <- app_assoc. exact I1. }
      intros [|n] e Hn; cbn in Hn.
      + injection Hn as ->. cbn [spec_step] in Hs. destruct Hs as [-> _]. cbn.
        now rewrite Hp.
      + cbn [nth_error firstn rev]. rewrite <- app_assoc. now apply I2.
  Qed.

  (** Element-level counting. *)
  Variable eqb : E -> E -> bool.
  Hypothesis eqb_spec : forall a b, eqb a b = true <-> a = b.
  Notation present := (present eqb).

  Definition ccount (c : Z * Z) (l : list E) : Z :=
    fold_right (fun e acc => (if class_eqb (cls e) c then 1 else 0) + acc) 0 l.

  Lemma ccount_nonneg : forall c l, 0 <= ccount c l.
  Proof.
    induction l as [|x l IH]; unfold ccount in *; cbn [fold_right]; [lia|].
    destruct (class_eqb (cls x) c); lia.
  Qed.

  Lemma ccount_take : forall c e l, In e l ->
    ccount c (take_out eqb e l) = ccount c l - (if class_eqb (cls e) c then 1 else 0).
  Proof.
    induction l as [|x l IH]; intros Hin; [destruct Hin|]. cbn [take_out].
    destruct (eqb x e) eqn:Ex.
    - apply eqb_spec in Ex. subst x. unfold ccount. cbn [fold_right]. lia.
    - destruct Hin as [->|Hin].
      { assert (eqb e e = true) by now apply eqb_spec. congruence. }
      unfold ccount in *. cbn [fold_right]. rewrite IH by auto. lia.
  Qed.

  Lemma ccount_in : forall e l, In e l -> 0 < ccount (cls e) l.
  Proof.
    induction l as [|x l IH]; intros Hin; [destruct Hin|].
    destruct Hin as [->|Hin]; unfold ccount in *; cbn [fold_right].
    - assert (class_eqb (cls e) (cls e) = true) as -> by now apply ceqb_eq.
      pose proof (ccount_nonneg (cls e) l). unfold ccount in H. lia.
    - specialize (IH Hin). destruct (class_eqb (cls x) (cls e)); lia.
  Qed.

  Definition valid_hist (past : list (@cop E)) : Prop :=
    forall a e b, past = a ++ CRemove e :: b -> In e (present b).

  Lemma net_present : forall past, valid_hist past -> forall c, net past c = ccount c (present past).
  Proof.
    induction past as [|o past IH]; intros Hv c; [reflexivity|].
    assert (Hv' : valid_hist past).
    { intros a e b ->. apply (Hv (o :: a) e b). reflexivity. }
    specialize (IH Hv').
    destruct o as [e rnd|e|e|]; cbn [Cuckoo_Spec.net Cuckoo_Spec.present].
    - rewrite IH. unfold ccount at 2. cbn [fold_right]. fold (ccount c (present past)). lia.
    - apply IH.
    - assert (Hin : In e (present past)) by (apply (Hv [] e past); reflexivity).
      rewrite ccount_take by auto. rewrite IH.
      destruct (class_eqb (cls e) c) eqn:Eq; cbn [andb]; [|lia].
      apply ceqb_eq in Eq. subst c. pose proof (ccount_in e _ Hin).
      destruct (Z.ltb_spec 0 (ccount (cls e) (present past))); lia.
    - reflexivity.
  Qed.

  Lemma removes_valid : forall ops, removes_present eqb ops -> valid_hist (rev ops).
  Proof.
    intros ops H a e b Hr.
    assert (Ho : ops = rev b ++ CRemove e :: rev a).
    { rewrite <- (rev_involutive ops), Hr, rev_app_distr. cbn [rev]. now rewrite <- app_assoc. }
    specialize (H (length (rev b)) e). rewrite Ho in H.
    rewrite nth_error_app2 in H by lia. rewrite Nat.sub_diag in H.
    rewrite firstn_app, Nat.sub_diag, firstn_all in H. cbn [firstn] in H.
    rewrite app_nil_r, rev_involutive in H. now apply H.
  Qed.
End Abs.

Section P.
  Context {E : Type}.
  Variables bc bs es : Z.
  Variable fp : E -> Z.
  Variable he : E -> Z.
  Variable hf : Z -> Z.
  Hypothesis C : contract bc bs es fp he hf.
  Notation cls := (class_of fp he hf).
  Notation crun := (crun bc bs es 0 fp he hf).
  Notation cadd := (cadd bc bs es 0 fp he hf).
  Notation clookup := (clookup bc bs es fp he hf).
  Notation get_entry := (get_entry bc bs es).
  Notation wf := (wf bc bs es).
  Notation ent := (ent bc bs es).

  Lemma Hbc' : 1 <= bc.
  Proof. destruct (c_pow _ _ _ _ _ _ C) as [k [H ->]]. pose proof (Z.pow_pos_nonneg 2 k). lia. Qed.
  Let Hbs : 1 <= bs := c_bs _ _ _ _ _ _ C.
  Let Hes : 1 <= es <= 31 := c_es _ _ _ _ _ _ C.
  Let Hsz : bc * bs * es < 2147483648 := c_size _ _ _ _ _ _ C.

  Lemma cuckoo_exact : forall ops f outs, draws_ok ops ->
    crun ops = Ok (f, outs) -> adds_succeed ops outs ->
    (forall n e, nth_error ops n = Some (CLookup e) ->
      nth_error outs n = Some (Some (0 <? net fp he hf (rev (firstn n ops)) (cls e)))) /\
    (forall e, clookup f e = Ok (0 <? net fp he hf (rev ops) (cls e))).
  Proof.
    intros ops f outs Hd Hrun Ha.
    destruct (run_refines bc bs es fp he hf C ops _ _ (ref_init bc bs es fp he hf C) Hd)
      as [f' [outs' [m [R1 [R2 R3]]]]].
    unfold Cuckoo_Model.crun in Hrun. rewrite Hrun in R1. injection R1 as <- <-.
    destruct (spec_run_net fp he hf _ _ _ _ R2 []) as [S1 S2]; auto.
    { intros d. reflexivity. }
    rewrite app_nil_r in S1. split.
    - intros n e Hn. rewrite (S2 n e Hn), app_nil_r. reflexivity.
    - intros e. destruct (step_refines bc bs es fp he hf C f m (CLookup e)) as [f2 [out [m2 [T1 [T2 _]]]]]; auto.
      { discriminate. }
      cbn [cstep] in T1. inv_bind T1. injection T1 as <- <-. cbn [spec_step] in T2.
      destruct T2 as [T2 _]. injection T2 as ->. rewrite E0. now rewrite S1.
  Qed.

  Lemma cuckoo_nfn : forall (eqb : E -> E -> bool), (forall a b, eqb a b = true <-> a = b) ->
    forall ops f outs e, draws_ok ops -> crun ops = Ok (f, outs) ->
    adds_succeed ops outs -> removes_present eqb ops -> In e (present eqb (rev ops)) ->
    clookup f e = Ok true.
  Proof.
    intros eqb Heq ops f outs e Hd Hrun Ha Hrm Hin.
    destruct (cuckoo_exact ops f outs Hd Hrun Ha) as [_ H]. rewrite H. do 2 f_equal.
    apply Z.ltb_lt. rewrite (net_present fp he hf eqb Heq) by now apply removes_valid.
    now apply ccount_in.
  Qed.

  (** ** A single add *)
  Lemma add_room : forall f rnd e b j, wf f -> candidate fp he hf e b -> 0 <= j < bs ->
    get_entry f b j = Ok 0 ->
    exists f' b' j', cadd f rnd e = Ok (f', true) /\ wf f' /\
      candidate fp he hf e b' /\ 0 <= b' < bc /\ 0 <= j' < bs /\ get_entry f b' j' = Ok 0 /\
      forall b'' j'', 0 <= b'' < bc -> 0 <= j'' < bs ->
        get_entry f' b'' j'' = if (b' =? b'') && (j' =? j'') then Ok (fp e) else get_entry f b'' j''.
  Proof.
    intros f rnd e b j Hwf Hc Hj H0. pose proof Hbc' as Hbc.
    destruct (norm bc bs es fp he hf C e) as [N1 [N2 N3]].
    pose proof (c_fp _ _ _ _ _ _ C e) as Hfp. pose proof (c_hash _ _ _ _ _ _ C e) as Hhe.
    pose proof (alt_range bc bs es fp he hf C (fp e) (he e) Hhe) as Halt. unfold alt in Halt.
    unfold Cuckoo_Model.cadd. rewrite N1, N2, N3. change 500%nat with (S 499). generalize 499%nat as fuel. intros fuel. cbn [add_loop].
    set (h2 := Z.lxor (he e) (hf (fp e))) in *.
    assert (Put : forall b' j', candidate fp he hf e b' -> 0 <= b' < bc -> 0 <= j' < bs -> ent f b' j' = 0 ->
      exists f' b'0 j'0, (do f' <- set_entry bc bs es f b' j' (fp e); Ok (f', true)) = Ok (f', true) /\
      wf f' /\ candidate fp he hf e b'0 /\ 0 <= b'0 < bc /\ 0 <= j'0 < bs /\ get_entry f b'0 j'0 = Ok 0 /\
      forall b'' j'', 0 <= b'' < bc -> 0 <= j'' < bs ->
        get_entry f' b'' j'' = if (b'0 =? b'') && (j'0 =? j'') then Ok (fp e) else get_entry f b'' j'').
    { intros b' j' Hcb Hb' Hj' Z0.
      destruct (set_entry_ok bc bs es Hbc Hbs Hes Hsz f b' j' (fp e)) as [f' [S1 [S2 S3]]]; auto; try lia.
      exists f', b', j'. rewrite S1. cbn [bind]. repeat split; auto; try lia; try apply S2.
      - rewrite ent_ok by auto. now rewrite Z0.
      - intros b'' j'' Hb'' Hj''. rewrite !ent_ok by auto. rewrite S3 by auto.
        destruct ((b' =? b'') && (j' =? j'')); reflexivity. }
    assert (Hb : 0 <= b < bc) by (destruct Hc as [->| ->]; auto).
    assert (Z0 : ent f b j = 0) by (unfold Cuckoo_Proofs.ent; now rewrite H0).
    destruct (space_ok bc bs es fp he hf C f (he e) Hwf Hhe) as [[S1 F1]|[j1 [S1 [R1 [Z1 _]]]]];
      rewrite S1; cbn [bind];
      destruct (space_ok bc bs es fp he hf C f h2 Hwf Halt) as [[S2 F2]|[j2 [S2 [R2 [Z2 _]]]]];
      rewrite S2; cbn [bind].
    - exfalso. destruct Hc as [->|Hc2]; [now apply (F1 j)|]. subst b. now apply (F2 j).
    - destruct (Z.ltb_spec (-1) 0); [|lia]. destruct (Z.leb_spec 0 j2); [|lia]. cbn [andb].
      apply Put; auto. now right.
    - destruct (Z.ltb_spec j1 0); [lia|]. change (0 <=? -1) with false. change (-1 <? 0) with true.
      destruct (Z.leb_spec 0 j1); [|lia]. cbn [andb]. apply Put; auto. now left.
    - destruct (Z.ltb_spec j1 0); [lia|]. destruct (Z.ltb_spec j2 0); [lia|].
      destruct (Z.leb_spec 0 j1); [|lia]. destruct (Z.leb_spec 0 j2); [|lia]. cbn [andb].
      destruct (dgt (rnd 0%nat) dhalf); apply Put; auto; [now left | now right].
  Qed.

  (** Number of occupied slots, by reading every entry. *)
  Lemma add_occ : forall f rnd e, wf f -> (forall n, unit_closed (rnd n)) ->
    exists f' b, cadd f rnd e = Ok (f', b) /\ wf f' /\
      occ bc bs (ent f') = occ bc bs (ent f) + (if b then 1 else 0).
  Proof.
    intros f rnd e Hwf Hr. unfold Cuckoo_Model.cadd.
    destruct (norm bc bs es fp he hf C e) as [-> [-> ->]].
    fold (alt hf (fp e) (he e)).
    pose proof (c_fp _ _ _ _ _ _ C e) as Hfp. pose proof (c_hash _ _ _ _ _ _ C e) as Hhe.
    destruct (add_loop_ok bc bs es fp he hf C 500 0 rnd f (fp e) (he e)) as [f' [b [L1 [L2 [L3 L4]]]]]; auto; try lia.
    exists f', b. split; auto. split; auto. unfold occ. destruct b.
    - rewrite (L3 eq_refl) by apply good_occ. destruct (Z.eqb_spec (fp e) 0); lia.
    - destruct (L4 eq_refl) as [v' [h' [N1 N2]]]. rewrite N2 by apply good_occ.
      destruct (Z.eqb_spec (fp e) 0); [lia|]. destruct (Z.eqb_spec v' 0); lia.
  Qed.

  Lemma filter_sumz : forall A (q : A -> bool) l,
    Z.of_nat (length (filter q l)) = sumz (fun x => if q x then 1 else 0) l.
  Proof.
    intros A q. induction l as [|x l IH]; [reflexivity|]. rewrite sumz_cons. cbn [filter].
    destruct (q x); cbn [length]; lia.
  Qed.

  Lemma stored_cnt : forall f c, wf f -> stored bc bs es hf f c = cnt bc bs hf (ent f) c.
  Proof.
    intros f c Hwf. pose proof Hbc' as Hbc. unfold stored, count_slots. rewrite filter_sumz. unfold cnt.
    apply sumz_ext. intros [b j] Hin. apply (in_slots bc bs es fp he hf C) in Hin. cbn [fst snd].
    rewrite (ent_ok bc bs es Hbc Hbs Hes Hsz) by (tauto). unfold hit. cbn [fst snd].
    unfold key, alt. destruct (ent f b j =? 0); cbn [negb andb]; auto.
  Qed.

  Lemma occupied_occ : forall f, wf f -> occupied bc bs es f = occ bc bs (ent f).
  Proof.
    intros f Hwf. pose proof Hbc' as Hbc. unfold occupied, count_slots. rewrite filter_sumz. unfold occ, tot.
    apply sumz_ext. intros [b j] Hin. apply (in_slots bc bs es fp he hf C) in Hin. cbn [fst snd].
    rewrite (ent_ok bc bs es Hbc Hbs Hes Hsz) by (tauto).
    destruct (ent f b j =? 0); cbn [negb andb]; auto.
  Qed.

  Notation stored := (stored bc bs es hf).
  Notation occupied := (occupied bc bs es).

  Lemma cstep_add : forall f e rnd f' r, cadd f rnd e = Ok (f', r) ->
    cstep bc bs es 0 fp he hf f (CAdd e rnd) = Ok (f', Some r).
  Proof. intros f e rnd f' r H. unfold cstep. rewrite H. reflexivity. Qed.

  Lemma add_effect : forall f rnd e, wf f -> (forall n, unit_closed (rnd n)) ->
    exists f' r, cadd f rnd e = Ok (f', r) /\ wf f' /\
      (r = true -> occupied f' = occupied f + 1 /\
         forall c, stored f' c = stored f c + (if class_eqb (cls e) c then 1 else 0)) /\
      (r = false -> occupied f' = occupied f /\
         (forall b j, candidate fp he hf e b -> 0 <= j < bs -> get_entry f b j <> Ok 0) /\
         exists v, 0 < stored f v + (if class_eqb (cls e) v then 1 else 0) /\
           forall c, stored f' c = stored f c + (if class_eqb (cls e) c then 1 else 0)
                                   - (if class_eqb v c then 1 else 0)).
  Proof.
    intros f rnd e Hwf Hr. destruct (add_occ f rnd e Hwf Hr) as [f' [r [A1 [A2 A3]]]].
    exists f', r. split; auto. split; auto.
    assert (HR : ref bc bs es hf f (cnt bc bs hf (ent f))) by (split; auto).
    destruct (step_refines bc bs es fp he hf C f (cnt bc bs hf (ent f)) (CAdd e rnd)) with (2 := HR) as [f2 [out [m2 [T1 [T2 T3]]]]].
    { intros e' rnd' k He. injection He as <- <-. auto. }
    rewrite (cstep_add _ _ _ _ _ A1) in T1. injection T1 as <- <-.
    cbn [spec_step] in T2. destruct T3 as [_ T3].
    split; intros ->; (split; [rewrite !occupied_occ by auto; lia|]).
    - destruct T2 as [[_ T2]|[T2 _]]; [|discriminate]. intros c. rewrite !stored_cnt by auto.
      rewrite <- T3, T2. reflexivity.
    - split.
      + intros b j Hc Hj H0. destruct (add_room f rnd e b j Hwf Hc Hj H0) as [f3 [? [? [B _]]]].
        congruence.
      + destruct T2 as [[T2 _]|[_ [v [V1 V2]]]]; [discriminate|]. exists v. split.
        * rewrite stored_cnt by auto. exact V1.
        * intros c. rewrite !stored_cnt by auto. rewrite <- T3, V2. reflexivity.
  Qed.

  Lemma remove_effect : forall f e, wf f ->
    exists f', cremove bc bs es 0 fp he hf f e = Ok f' /\ wf f' /\
      clookup f e = Ok (0 <? stored f (cls e)) /\
      forall c, stored f' c = stored f c - (if class_eqb (cls e) c && (0 <? stored f c) then 1 else 0).
  Proof.
    intros f e Hwf.
    assert (HR : ref bc bs es hf f (cnt bc bs hf (ent f))) by (split; auto).
    destruct (step_refines bc bs es fp he hf C f (cnt bc bs hf (ent f)) (CRemove e)) with (2 := HR) as [f2 [out [m2 [T1 [T2 T3]]]]].
    { discriminate. }
    destruct (step_refines bc bs es fp he hf C f (cnt bc bs hf (ent f)) (CLookup e)) with (2 := HR) as [f3 [out3 [m3 [U1 [U2 U3]]]]].
    { discriminate. }
    cbn [cstep] in T1, U1. inv_bind T1. inv_bind U1. injection T1 as <- <-. injection U1 as <- <-.
    cbn [spec_step] in T2, U2. destruct T3 as [W T3]. destruct T2 as [_ T2]. destruct U2 as [U2 _].
    eexists. split; [eassumption|]. repeat split; auto; try apply W.
    - rewrite stored_cnt by auto. injection U2 as <-. eassumption.
    - intros c. rewrite !stored_cnt by auto. rewrite <- T3, T2.
      destruct (class_eqb (cls e) c) eqn:Eq; cbn [andb].
      + apply ceqb_eq in Eq. subst c. destruct (0 <? _); [|lia]. unfold m_sub.
        assert (class_eqb (cls e) (cls e) = true) as -> by now apply ceqb_eq. lia.
      + destruct (0 <? _); [|lia]. unfold m_sub. rewrite Eq. lia.
  Qed.

  Lemma clear_effect : forall f e, wf f -> clookup (cclear f) e = Ok false /\ occupied (cclear f) = 0.
  Proof.
    intros f e Hwf. pose proof (wf_clear bc bs es f Hwf) as W.
    assert (Z0 : forall b j, 0 <= b < bc -> 0 <= j < bs -> ent (cclear f) b j = 0).
    { intros b j Hb Hj. apply (zero_bits bc bs es fp he hf C); auto. intros x Hx. unfold cclear in Hx.
      apply in_map_iff in Hx. destruct Hx as [? [<- _]]. reflexivity. }
    destruct (remove_effect _ e W) as [_ [_ [_ [-> _]]]]. rewrite stored_cnt by auto.
    rewrite (cnt_zero bc bs es fp he hf C) by auto. split; auto. rewrite occupied_occ by auto. unfold occ, tot.
    rewrite (sumz_ext _ _ (fun _ => 0)).
    - induction (slots bc bs) as [|x l IH]; cbn; auto.
    - intros [b j] Hin. apply (in_slots bc bs es fp he hf C) in Hin. cbn [fst snd]. rewrite Z0 by tauto. reflexivity.
  Qed.

  (** The last slot of a bucket is never relocated when draws are below 1. *)
  Lemma add_loop_last : forall fuel k rnd f v h,
    (forall n, unit_open (rnd n)) -> 2 <= bs ->
    wf f -> 0 < v < 256 -> v < 2 ^ es -> 0 <= h < bc ->
    exists f' b, add_loop bc bs es 0 hf fuel k rnd f v h (alt hf v h) = Ok (f', b) /\ wf f' /\
      forall b', 0 <= b' < bc -> ent f b' (bs - 1) <> 0 -> ent f' b' (bs - 1) = ent f b' (bs - 1).
  Proof.
    pose proof Hbc' as Hbc.
    induction fuel as [|fuel IH]; intros k rnd f v h Hr Hb2 Hwf Hv Hvp Hh.
    { exists f, false. cbn. auto. }
    pose proof (alt_range bc bs es fp he hf C v h Hh) as Ha. cbn [add_loop].
    assert (Put : forall b j, 0 <= b < bc -> 0 <= j < bs -> ent f b j = 0 \/ j < bs - 1 ->
      exists f', set_entry bc bs es f b j v = Ok f' /\ wf f' /\
        (forall b', 0 <= b' < bc -> ent f b' (bs - 1) <> 0 -> ent f' b' (bs - 1) = ent f b' (bs - 1))).
    { intros b j Hb Hj Hor. destruct (set_entry_ok bc bs es Hbc Hbs Hes Hsz f b j v) as [f' [S1 [S2 S3]]]; auto; [lia|].
      exists f'. split; auto. split; auto. intros b' Hb' Hne. rewrite S3 by (auto; lia).
      destruct (Z.eqb_spec b b'); auto. destruct (Z.eqb_spec j (bs - 1)); auto. subst. cbn.
      destruct Hor; [congruence|lia]. }
    assert (Done : forall b j, 0 <= b < bc -> 0 <= j < bs -> ent f b j = 0 ->
      exists f' r, (do f' <- set_entry bc bs es f b j v; Ok (f', true)) = Ok (f', r) /\ wf f' /\
        forall b', 0 <= b' < bc -> ent f b' (bs - 1) <> 0 -> ent f' b' (bs - 1) = ent f b' (bs - 1)).
    { intros b j Hb Hj H0. destruct (Put b j Hb Hj (or_introl H0)) as [f' [P1 [P2 P3]]].
      exists f', true. rewrite P1. auto. }
    destruct (space_ok bc bs es fp he hf C f h Hwf Hh) as [[S1 F1]|[j1 [S1 [R1 [Z1 _]]]]]; rewrite S1; cbn [bind];
    destruct (space_ok bc bs es fp he hf C f (alt hf v h) Hwf Ha) as [[S2 F2]|[j2 [S2 [R2 [Z2 _]]]]]; rewrite S2; cbn [bind].
    - change (-1 <? 0) with true. change (0 <=? -1) with false. cbn [andb].
      set (b := if dgt (rnd k) dhalf then h else alt hf v h).
      assert (Hb : 0 <= b < bc) by (unfold b; destruct (dgt _ _); auto).
      pose proof (bs_small bc bs es fp he hf C) as Hbsm.
      destruct (floor_unit_open (rnd (S k)) (bs - 1) (Hr _)) as [s [_ [-> Hs]]]; [lia|].
      cbn [bind]. rewrite ent_ok by (auto; lia). cbn [bind].
      destruct (Put b s Hb) as [f1 [P1 [P2 P3]]]; [lia|right; lia|]. rewrite P1. cbn [bind].
      assert (Hne : ent f b s <> 0) by (unfold b; destruct (dgt _ _); [apply F1|apply F2]; lia).
      pose proof (ent_range bc bs es Hbc Hbs Hes Hsz f b s Hwf Hb ltac:(lia)) as Rg.
      pose proof (ent_lt_pow bc bs es Hbc Hbs Hes Hsz f b s Hwf Hb ltac:(lia)) as Rp.
      pose proof (c_hash_fp _ _ _ _ _ _ C (ent f b s)) as Hhf.
      pose proof (bc_small bc bs es fp he hf C) as Hbcs.
      rewrite u32_small by lia.
      destruct (IH (S (S k)) rnd f1 (ent f b s) b Hr Hb2 P2 ltac:(lia) Rp Hb) as [f2 [r [L1 [L2 L3]]]].
      exists f2, r. split; [exact L1|]. split; auto.
      intros b' Hb' Hn. rewrite L3; auto. rewrite P3; auto.
    - destruct (Z.ltb_spec (-1) 0); [|lia]. destruct (Z.leb_spec 0 j2); [|lia]. cbn [andb].
      apply Done; auto.
    - destruct (Z.ltb_spec j1 0); [lia|]. change (0 <=? -1) with false. change (-1 <? 0) with true.
      destruct (Z.leb_spec 0 j1); [|lia]. cbn [andb]. apply Done; auto.
    - destruct (Z.ltb_spec j1 0); [lia|]. destruct (Z.ltb_spec j2 0); [lia|].
      destruct (Z.leb_spec 0 j1); [|lia]. destruct (Z.leb_spec 0 j2); [|lia]. cbn [andb].
      destruct (dgt (rnd k) dhalf); apply Done; auto.
  Qed.

  Lemma add_last : forall f rnd e, (forall n, unit_open (rnd n)) -> 2 <= bs -> wf f ->
    exists f' r, cadd f rnd e = Ok (f', r) /\
      forall b v, 0 <= b < bc -> v <> 0 -> get_entry f b (bs - 1) = Ok v ->
        get_entry f' b (bs - 1) = Ok v.
  Proof.
    intros f rnd e Hr Hb2 Hwf. unfold Cuckoo_Model.cadd. pose proof Hbc' as Hbc.
    destruct (norm bc bs es fp he hf C e) as [-> [-> ->]].
    fold (alt hf (fp e) (he e)).
    pose proof (c_fp _ _ _ _ _ _ C e) as Hfp. pose proof (c_hash _ _ _ _ _ _ C e) as Hhe.
    destruct (add_loop_last 500 0 rnd f (fp e) (he e)) as [f' [r [L1 [L2 L3]]]]; auto; try lia.
    exists f', r. split; auto. intros b v Hb Hv Hg.
    rewrite ent_ok in Hg by (auto; lia). rewrite ent_ok by (auto; lia).
    injection Hg as Hg. rewrite L3 by (auto; congruence). now rewrite Hg.
  Qed.
End P.

(** ** A bucket count that is not a power of two *)
Lemma xor_top : forall k, 0 <= k -> Z.lxor (2 ^ k) (2 ^ k - 1) = 2 ^ (k + 1) - 1.
Proof.
  intros k Hk. rewrite <- Z.add_nocarry_lxor.
  - rewrite Z.pow_add_r by lia. lia.
  - replace (2 ^ k - 1) with (Z.ones k) by (rewrite Z.ones_equiv; lia).
    rewrite Z.land_ones by lia. apply Z.mod_same. apply Z.pow_nonzero; lia.
Qed.

Lemma not_pow2_abort : forall bc bs es, 1 <= bc -> 1 <= bs -> 1 <= es <= 31 ->
  bc * bs * es < 2147483648 -> (forall k, 0 <= k -> bc <> 2 ^ k) ->
  exists (fp : Z -> Z) (he : Z -> Z) (hf : Z -> Z),
    (forall e, 0 < fp e < 256 /\ fp e < 2 ^ es) /\ (forall e, 0 <= he e < bc) /\
    (forall f, 0 <= hf f < bc) /\
    forall rnd, crun bc bs es 0 fp he hf [CAdd 0 rnd] = Abort.
Proof.
  intros bc bs es Hbc Hbs Hes Hsz Hnp.
  set (k := Z.log2 bc). assert (Hk : 0 <= k) by apply Z.log2_nonneg.
  assert (Hlk : 2 ^ k <= bc < 2 ^ Z.succ k) by (apply Z.log2_spec; lia).
  assert (Hp : 0 < 2 ^ k) by (apply Z.pow_pos_nonneg; lia).
  specialize (Hnp k Hk).
  assert (H2e : 2 <= 2 ^ es).
  { change 2 with (2 ^ 1) at 1. apply Z.pow_le_mono_r; lia. }
  exists (fun _ => 1), (fun _ => 2 ^ k), (fun _ => 2 ^ k - 1).
  split; [intros; lia|]. split; [intros; lia|]. split; [intros; lia|].
  intros rnd. unfold crun. cbn [crun_from cstep]. unfold cadd.
  assert (bc < 2147483648) by nia.
  rewrite u8_small, !u32_small by lia. rewrite xor_top by auto.
  change 500%nat with (S 499). generalize 499%nat as fuel. intros fuel. cbn [add_loop].
  assert (S1 : exists z, space_in_bucket bc bs es 0 (cinit bc bs es) (2 ^ k) = Ok z).
  { unfold space_in_bucket.
    destruct (findZ_total _ (fun i => do tmp <- get_entry bc bs es (cinit bc bs es) (2 ^ k) i;
                Ok (if tmp =? 0 then Some i else None)) (Z.to_nat bs) 0)
      as [[-> _]|[i [r [_ [_ [_ ->]]]]]]; [|cbn; eauto|cbn; eauto].
    intros j Hj. rewrite ent_ok; auto; try lia. { cbn. eauto. } now apply wf_init. }
  destruct S1 as [z ->]. cbn [bind].
  assert (S2 : space_in_bucket bc bs es 0 (cinit bc bs es) (2 ^ (k + 1) - 1) = Abort).
  { unfold space_in_bucket. destruct (Z.to_nat bs) as [|n] eqn:En; [lia|]. cbn [findZ].
    unfold get_entry. rewrite entry_range_abort; [reflexivity|].
    unfold Z.succ in Hlk. lia. }
  rewrite S2. reflexivity.
Qed.

(** ** A non-zero empty value *)
Section EV.
  Context {E : Type}.
  Variables bc bs es ev : Z.
  Variable fp : E -> Z.
  Variable he : E -> Z.
  Variable hf : Z -> Z.
  Hypothesis Hpow : exists k, 0 <= k /\ bc = 2 ^ k.
  Hypothesis Hbs : 1 <= bs.
  Hypothesis Hes : 1 <= es <= 31.
  Hypothesis Hsz : bc * bs * es < 2147483648.
  Hypothesis Hev : 0 < ev.
  Hypothesis Hfp : forall e, 0 <= fp e < 256 /\ fp e < 2 ^ es /\ fp e <> ev.
  Hypothesis Hhe : forall e, 0 <= he e < bc.
  Hypothesis Hhf : forall f, 0 <= hf f < bc.

  Lemma Hbc'' : 1 <= bc.
  Proof. destruct Hpow as [k [H ->]]. pose proof (Z.pow_pos_nonneg 2 k). lia. Qed.

  Lemma lxor_rng : forall a b, 0 <= a < bc -> 0 <= b < bc -> 0 <= Z.lxor a b < bc.
  Proof.
    intros a b Ha Hb.
    assert (Cc : contract bc bs es (fun _ : unit => 1) (fun _ => 0) (fun _ => b)).
    { constructor; auto; intros; try lia.
      assert (2 <= 2 ^ es). { change 2 with (2 ^ 1) at 1. apply Z.pow_le_mono_r; lia. } lia. }
    exact (alt_range bc bs es _ _ _ Cc 1 a Ha).
  Qed.

  Definition full (f : list Z) : Prop :=
    wf bc bs es f /\ forall b j, 0 <= b < bc -> 0 <= j < bs -> ent bc bs es f b j <> ev.

  Lemma full_space : forall f b, full f -> 0 <= b < bc -> space_in_bucket bc bs es ev f b = Ok (-1).
  Proof.
    intros f b [Hwf Hf] Hb. pose proof Hbc'' as Hbc. unfold space_in_bucket.
    rewrite findZ_none; [reflexivity|]. intros j Hj.
    rewrite (ent_ok bc bs es Hbc Hbs Hes Hsz) by (auto; lia). cbn [bind].
    destruct (Z.eqb_spec (ent bc bs es f b j) ev); auto. exfalso. apply (Hf b j); auto. lia.
  Qed.

  Lemma full_add_loop : forall fuel k rnd f v h1 h2,
    (forall n, unit_closed (rnd n)) -> full f -> 0 <= v < 256 -> v < 2 ^ es -> v <> ev ->
    0 <= h1 < bc -> 0 <= h2 < bc ->
    exists f', add_loop bc bs es ev hf fuel k rnd f v h1 h2 = Ok (f', false) /\ full f'.
  Proof.
    pose proof Hbc'' as Hbc.
    induction fuel as [|fuel IH]; intros k rnd f v h1 h2 Hr Hf Hv Hvp Hve H1 H2.
    { exists f. auto. }
    cbn [add_loop]. rewrite !full_space by auto. cbn [bind].
    change (-1 <? 0) with true. change (0 <=? -1) with false. cbn [andb].
    set (b := if dgt (rnd k) dhalf then h1 else h2).
    assert (Hb : 0 <= b < bc) by (unfold b; destruct (dgt _ _); auto).
    assert (bs < 2147483648) by nia. assert (bc < 2147483648) by nia.
    destruct (floor_unit_closed (rnd (S k)) (bs - 1) (Hr _)) as [s [_ [-> Hs]]]; [lia|].
    destruct Hf as [Hwf Hf]. cbn [bind].
    rewrite (ent_ok bc bs es Hbc Hbs Hes Hsz) by (auto; lia). cbn [bind].
    destruct (set_entry_ok bc bs es Hbc Hbs Hes Hsz f b s v) as [f' [S1 [S2 S3]]]; auto; [lia|].
    rewrite S1. cbn [bind].
    assert (Hs' : 0 <= s < bs) by lia.
    apply IH; auto.
    - split; auto. intros b' j' Hb' Hj'. rewrite S3 by auto. destruct (_ && _); auto.
    - now apply ent_range.
    - now apply ent_lt_pow.
    - apply lxor_rng; auto. rewrite u32_small; auto. pose proof (Hhf (ent bc bs es f b s)). lia.
  Qed.

  Lemma full_init : full (cinit bc bs es).
  Proof.
    pose proof Hbc'' as Hbc. split; [now apply wf_init|].
    intros b j Hb Hj C0.
    assert (Cc : contract bc bs es (fun _ : unit => 1) (fun _ => 0) (fun _ => 0)).
    { constructor; auto; intros; try lia.
      assert (2 <= 2 ^ es). { change 2 with (2 ^ 1) at 1. apply Z.pow_le_mono_r; lia. } lia. }
    rewrite (zero_bits bc bs es _ _ _ Cc) in C0; auto; [lia|now apply wf_init|].
    intros x Hx. unfold cinit in Hx. now apply repeat_spec in Hx.
  Qed.

  Lemma ev_adds_fail : forall (l : list (E * (nat -> dbl))),
    (forall e rnd k, In (e, rnd) l -> unit_closed (rnd k)) ->
    exists f, crun bc bs es ev fp he hf (map (fun p => CAdd (fst p) (snd p)) l)
              = Ok (f, map (fun _ => Some false) l).
  Proof.
    intros l Hl. unfold crun. generalize full_init. generalize (cinit bc bs es).
    pose proof Hbc'' as Hbc.
    induction l as [|[e rnd] l IH]; intros f Hf; cbn [map crun_from]; [eauto|].
    cbn [cstep fst snd]. unfold cadd. destruct (Hfp e) as [F1 [F2 F3]].
    assert (bc < 2147483648) by nia.
    pose proof (Hhe e). pose proof (Hhf (fp e)).
    rewrite u8_small, !u32_small by lia.
    destruct (full_add_loop 500 0 rnd f (fp e) (he e) (Z.lxor (he e) (hf (fp e)))) as [f' [-> Hf']]; auto.
    { intros n. eapply Hl. left. reflexivity. }
    { now apply lxor_rng. }
    cbn [bind]. destruct (IH) with (l := f') as [f2 E2]; auto.
    { intros e' rnd' k Hin. eapply Hl. right. exact Hin. }
    rewrite E2. cbn [bind]. eauto.
  Qed.

  Lemma ev_fresh_lookup : forall e, fp e = 0 ->
    clookup bc bs es fp he hf (cinit bc bs es) e = Ok true.
  Proof.
    intros e He. pose proof Hbc'' as Hbc. unfold clookup, search. rewrite He. change (u8 0) with 0.
    assert (bc < 2147483648) by nia. pose proof (Hhe e).
    rewrite (u32_small (he e)) by lia.
    assert (Cc : contract bc bs es (fun _ : unit => 1) (fun _ => 0) (fun _ => 0)).
    { constructor; auto; intros; try lia.
      assert (2 <= 2 ^ es). { change 2 with (2 ^ 1) at 1. apply Z.pow_le_mono_r; lia. } lia. }
    rewrite (findZ_some _ _ (Z.to_nat bs) 0 0 (he e, 0)); [reflexivity|lia| |intros; lia].
    rewrite (ent_ok bc bs es Hbc Hbs Hes Hsz); [|now apply wf_init|auto|lia]. cbn [bind].
    rewrite (zero_bits bc bs es _ _ _ Cc); auto; [now apply wf_init| |lia].
    intros x Hx. unfold cinit in Hx. now apply repeat_spec in Hx.
  Qed.
End EV.
