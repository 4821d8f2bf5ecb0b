From Coq Require Import ZArith List Bool Lia FinFun.
From Verif Require Import CppBase CppFacts Dbl DblFacts Cuckoo_Model Cuckoo_Spec Cuckoo_Proofs.
Import ListNotations.
Local Open Scope Z_scope.

(** ** Sums over slots *)

Definition zseq (n : Z) : list Z := map Z.of_nat (seq 0 (Z.to_nat n)).

Lemma in_zseq : forall n x, In x (zseq n) <-> 0 <= x < n.
Proof.
  intros n x. unfold zseq. rewrite in_map_iff. split.
  - intros [k [<- H]]. apply in_seq in H. lia.
  - intros H. exists (Z.to_nat x). split; [lia|]. apply in_seq. lia.
Qed.

Lemma nodup_zseq : forall n, NoDup (zseq n).
Proof.
  intros. unfold zseq. apply FinFun.Injective_map_NoDup; [|apply seq_NoDup].
  intros a b H. lia.
Qed.

Definition sumz {A} (g : A -> Z) (l : list A) : Z := fold_right (fun x acc => g x + acc) 0 l.

Lemma sumz_cons : forall A (g : A -> Z) x l, sumz g (x :: l) = g x + sumz g l.
Proof. reflexivity. Qed.

Lemma sumz_ext : forall A (g h : A -> Z) l, (forall x, In x l -> g x = h x) -> sumz g l = sumz h l.
Proof.
  induction l as [|x l IH]; intros H; auto. rewrite !sumz_cons, (H x) by now left.
  rewrite IH; auto. intros. apply H. now right.
Qed.

Lemma sumz_update : forall A (g h : A -> Z) l p, NoDup l -> In p l ->
  (forall q, In q l -> q <> p -> h q = g q) -> sumz h l = sumz g l - g p + h p.
Proof.
  induction l as [|x l IH]; intros p Hnd Hin H; [destruct Hin|].
  inversion Hnd as [|? ? Hx Hl]; subst. rewrite !sumz_cons. destruct Hin as [->|Hin].
  - rewrite (sumz_ext _ h g l); [lia|]. intros y Hy. apply H; [now right|]. congruence.
  - rewrite (H x); [|now left|congruence]. rewrite (IH p); auto; [lia|].
    intros q Hq. apply H. now right.
Qed.

Lemma sumz_nonneg : forall A (g : A -> Z) l, (forall x, In x l -> 0 <= g x) -> 0 <= sumz g l.
Proof.
  induction l as [|x l IH]; intros H; [cbn; lia|]. rewrite sumz_cons.
  assert (0 <= g x) by (apply H; now left). assert (0 <= sumz g l); [|lia].
  apply IH. intros. apply H. now right.
Qed.

Lemma sumz_pos : forall A (g : A -> Z) l, (forall x, In x l -> 0 <= g x) ->
  (0 < sumz g l <-> exists x, In x l /\ 0 < g x).
Proof.
  induction l as [|x l IH]; intros H.
  - cbn. split; [lia|]. intros [x [[] _]].
  - rewrite sumz_cons. assert (Hx : 0 <= g x) by (apply H; now left).
    assert (Hl : forall y, In y l -> 0 <= g y) by (intros; apply H; now right).
    pose proof (sumz_nonneg _ g l Hl). specialize (IH Hl). split.
    + intros S. destruct (Z.ltb_spec 0 (g x)).
      * exists x. split; [now left|auto].
      * destruct IH as [IH _]. destruct IH as [y [Ay By]]; [lia|]. exists y. split; [now right|auto].
    + intros [y [[->|Ay] By]]; [lia|]. assert (0 < sumz g l); [|lia]. apply IH. eauto.
Qed.

Section P.
  Context {E : Type}.
  Variables bc bs es : Z.
  Variable fp : E -> Z.
  Variable he : E -> Z.
  Variable hf : Z -> Z.
  Hypothesis C : contract bc bs es fp he hf.

  Let Hbc : 1 <= bc.
  Proof. destruct (c_pow _ _ _ _ _ _ C) as [k [H ->]]. pose proof (Z.pow_pos_nonneg 2 k). lia. Qed.
  Let Hbs : 1 <= bs := c_bs _ _ _ _ _ _ C.
  Let Hes : 1 <= es <= 31 := c_es _ _ _ _ _ _ C.
  Let Hsz : bc * bs * es < 2147483648 := c_size _ _ _ _ _ _ C.

  Lemma bc_small : bc < 2147483648.
  Proof. nia. Qed.
  Lemma bs_small : bs < 2147483648.
  Proof. nia. Qed.

  Notation wf := (wf bc bs es).
  Notation ent := (ent bc bs es).
  Notation get_entry := (get_entry bc bs es).
  Notation set_entry := (set_entry bc bs es).
  Notation spc := (space_in_bucket bc bs es 0).

  (** The other bucket. *)
  Definition alt (f b : Z) : Z := Z.lxor b (hf f).

  Lemma alt_range : forall f b, 0 <= b < bc -> 0 <= alt f b < bc.
  Proof.
    intros f b Hb. unfold alt. pose proof (c_hash_fp _ _ _ _ _ _ C f) as Hf.
    destruct (c_pow _ _ _ _ _ _ C) as [k [Hk Ek]]. rewrite Ek in *.
    assert (0 <= Z.lxor b (hf f)) by (apply Z.lxor_nonneg; lia).
    split; auto.
    destruct (Z.eq_dec (Z.lxor b (hf f)) 0) as [->|]; [lia|].
    apply Z.log2_lt_pow2; [lia|].
    eapply Z.le_lt_trans; [apply Z.log2_lxor; lia|].
    destruct (Z.eq_dec k 0).
    { subst k. change (2 ^ 0) with 1 in *. assert (b = 0) by lia. assert (hf f = 0) by lia.
      rewrite H0, H1 in n. cbn in n. lia. }
    apply Z.max_lub_lt.
    - destruct (Z.eq_dec b 0) as [->|]; [cbn; lia|]. apply Z.log2_lt_pow2; lia.
    - destruct (Z.eq_dec (hf f) 0) as [->|]; [cbn; lia|]. apply Z.log2_lt_pow2; lia.
  Qed.

  Lemma alt_alt : forall f b, alt f (alt f b) = b.
  Proof. intros. unfold alt. now rewrite Z.lxor_assoc, Z.lxor_nilpotent, Z.lxor_0_r. Qed.

  Definition key (f b : Z) : Z * Z := (f, Z.min b (alt f b)).

  Lemma key_alt : forall f b, key f (alt f b) = key f b.
  Proof. intros. unfold key. rewrite alt_alt, Z.min_comm. reflexivity. Qed.

  Lemma key_inv : forall f b f' b', key f b = key f' b' -> f = f' /\ (b = b' \/ b = alt f' b').
  Proof.
    intros f b f' b' H. unfold key in H. injection H as -> H. split; auto.
    destruct (Z.min_spec b (alt f' b)) as [[_ M]|[_ M]];
      destruct (Z.min_spec b' (alt f' b')) as [[_ M']|[_ M']]; rewrite M, M' in H.
    - auto.
    - auto.
    - right. rewrite <- (alt_alt f' b). congruence.
    - left. rewrite <- (alt_alt f' b), H, alt_alt. reflexivity.
  Qed.

  Lemma class_key : forall e, class_of fp he hf e = key (fp e) (he e).
  Proof. reflexivity. Qed.

  (** ** Counting classes in the table *)
  Definition slots : list (Z * Z) := list_prod (zseq bc) (zseq bs).

  Lemma in_slots : forall b j, In (b, j) slots <-> 0 <= b < bc /\ 0 <= j < bs.
  Proof. intros. unfold slots. rewrite in_prod_iff, !in_zseq. tauto. Qed.

  Lemma nodup_slots : NoDup slots.
  Proof.
    unfold slots. assert (G : forall l1 l2, @NoDup Z l1 -> @NoDup Z l2 -> NoDup (list_prod l1 l2)).
    { induction l1 as [|x l1 IH]; intros l2 H1 H2; cbn; [constructor|].
      inversion H1 as [|? ? Hx Hl]; subst.
      assert (forall (a b : list (Z * Z)), NoDup a -> NoDup b ->
                (forall y, In y a -> ~ In y b) -> NoDup (a ++ b)) as NA.
      { induction a as [|y a IHa]; intros b Ha Hb Hd; cbn; auto. inversion Ha; subst.
        constructor.
        - rewrite in_app_iff. intros [A|A]; auto. apply (Hd y); cbn; auto.
        - apply IHa; auto. intros z Hz. apply Hd. now right. }
      apply NA; auto.
      - apply FinFun.Injective_map_NoDup; auto. intros a b H. congruence.
      - intros [a b] Hy Hy2. apply in_map_iff in Hy. destruct Hy as [c [Hc _]].
        injection Hc as <- <-. apply in_prod_iff in Hy2. tauto. }
    apply G; apply nodup_zseq.
  Qed.

  Definition hit (T : Z -> Z -> Z) (c : Z * Z) (p : Z * Z) : Z :=
    let v := T (fst p) (snd p) in
    if (negb (v =? 0)) && class_eqb (key v (fst p)) c then 1 else 0.

  (** Number of occupied slots whose class is [c]. *)
  Definition cnt (T : Z -> Z -> Z) (c : Z * Z) : Z := sumz (hit T c) slots.

  Definition one (v b : Z) (c : Z * Z) : Z :=
    if (negb (v =? 0)) && class_eqb (key v b) c then 1 else 0.

  Lemma class_eqb_eq : forall a b, class_eqb a b = true <-> a = b.
  Proof.
    intros [a1 a2] [b1 b2]. unfold class_eqb. cbn. rewrite andb_true_iff, !Z.eqb_eq.
    split; [intros []; congruence | intros H; injection H; auto].
  Qed.

  Lemma cnt_update : forall T T' b j c, 0 <= b < bc -> 0 <= j < bs ->
    (forall b' j', 0 <= b' < bc -> 0 <= j' < bs -> (b', j') <> (b, j) -> T' b' j' = T b' j') ->
    cnt T' c = cnt T c - one (T b j) b c + one (T' b j) b c.
  Proof.
    intros T T' b j c Hb Hj H. unfold cnt.
    rewrite (sumz_update _ (hit T c) (hit T' c) slots (b, j)).
    - reflexivity.
    - apply nodup_slots.
    - now apply in_slots.
    - intros [b' j'] Hq Hne. apply in_slots in Hq. unfold hit. cbn [fst snd].
      rewrite H by tauto. reflexivity.
  Qed.

  (** Totals of a weight over the table. A weight is good when an empty slot weighs
      nothing and the two candidate buckets weigh the same. *)
  Definition tot (w : Z -> Z -> Z) (T : Z -> Z -> Z) : Z :=
    sumz (fun p => w (T (fst p) (snd p)) (fst p)) slots.

  Definition good_w (w : Z -> Z -> Z) : Prop :=
    (forall b, w 0 b = 0) /\ (forall v b, w v (alt v b) = w v b).

  Lemma tot_update : forall w T T' b j, 0 <= b < bc -> 0 <= j < bs ->
    (forall b' j', 0 <= b' < bc -> 0 <= j' < bs -> (b', j') <> (b, j) -> T' b' j' = T b' j') ->
    tot w T' = tot w T - w (T b j) b + w (T' b j) b.
  Proof.
    intros w T T' b j Hb Hj H. unfold tot.
    rewrite (sumz_update _ (fun p => w (T (fst p) (snd p)) (fst p))
               (fun p => w (T' (fst p) (snd p)) (fst p)) slots (b, j)).
    - reflexivity.
    - apply nodup_slots.
    - now apply in_slots.
    - intros [b' j'] Hq Hne. apply in_slots in Hq. cbn [fst snd].
      rewrite H by tauto. reflexivity.
  Qed.

  Lemma cnt_tot : forall T c, cnt T c = tot (fun v b => one v b c) T.
  Proof. reflexivity. Qed.

  Lemma good_one : forall c, good_w (fun v b => one v b c).
  Proof.
    intros c. split.
    - intros b. reflexivity.
    - intros v b. unfold one. now rewrite key_alt.
  Qed.

  (** Number of occupied slots. *)
  Definition occ (T : Z -> Z -> Z) : Z := tot (fun v _ => if v =? 0 then 0 else 1) T.

  Lemma good_occ : good_w (fun v _ => if v =? 0 then 0 else 1).
  Proof. split; reflexivity. Qed.

  Lemma hit_nonneg : forall T c p, 0 <= hit T c p.
  Proof. intros. unfold hit. destruct (_ && _); lia. Qed.

  Lemma cnt_nonneg : forall T c, 0 <= cnt T c.
  Proof. intros. apply sumz_nonneg. intros. apply hit_nonneg. Qed.

  Lemma cnt_pos : forall T f b, f <> 0 -> 0 <= b < bc ->
    (0 < cnt T (key f b) <->
     exists j, 0 <= j < bs /\ (T b j = f \/ T (alt f b) j = f)).
  Proof.
    intros T f b Hf Hb. unfold cnt. rewrite sumz_pos by (intros; apply hit_nonneg). split.
    - intros [[b' j'] [Hin H]]. apply in_slots in Hin. unfold hit in H. cbn [fst snd] in H.
      destruct (negb (T b' j' =? 0) && class_eqb (key (T b' j') b') (key f b)) eqn:Eq; [|lia].
      apply andb_prop in Eq. destruct Eq as [_ Eq]. apply class_eqb_eq in Eq.
      apply key_inv in Eq. destruct Eq as [E1 [E2|E2]]; exists j'; split; try tauto; subst b'; auto.
    - intros [j [Hj [H|H]]].
      + exists (b, j). split; [now apply in_slots|]. unfold hit. cbn [fst snd]. rewrite H.
        destruct (Z.eqb_spec f 0); [lia|]. cbn [negb andb].
        assert (class_eqb (key f b) (key f b) = true) as -> by now apply class_eqb_eq. lia.
      + exists (alt f b, j). split; [apply in_slots; split; auto; now apply alt_range|].
        unfold hit. cbn [fst snd]. rewrite H.
        destruct (Z.eqb_spec f 0); [lia|]. cbn [negb andb]. rewrite key_alt.
        assert (class_eqb (key f b) (key f b) = true) as -> by now apply class_eqb_eq. lia.
  Qed.

  (** ** The functions on tables *)
  Lemma space_ok : forall f b, wf f -> 0 <= b < bc ->
    (spc f b = Ok (-1) /\ forall j, 0 <= j < bs -> ent f b j <> 0) \/
    (exists j, spc f b = Ok j /\ 0 <= j < bs /\ ent f b j = 0 /\
       forall j', 0 <= j' < j -> ent f b j' <> 0).
  Proof.
    intros f b Hwf Hb. unfold space_in_bucket.
    set (body := fun i => do tmp <- get_entry f b i; Ok (if tmp =? 0 then Some i else None)).
    assert (B : forall j, 0 <= j < bs ->
      body j = Ok (if ent f b j =? 0 then Some j else None)).
    { intros j Hj. unfold body. rewrite ent_ok by auto. reflexivity. }
    destruct (findZ_total _ body (Z.to_nat bs) 0) as [[E1 E2]|[k [r [Hk [E1 [E2 E3]]]]]].
    { intros j Hj. rewrite B by lia. eauto. }
    - left. rewrite E1. cbn. split; auto. intros j Hj C0. specialize (E2 j ltac:(lia)).
      rewrite B in E2 by lia. rewrite C0 in E2. discriminate.
    - right. rewrite B in E1 by lia. destruct (Z.eqb_spec (ent f b k) 0); [|discriminate].
      injection E1 as <-. exists k. rewrite E3. cbn. repeat split; auto; try lia.
      intros j Hj C0. specialize (E2 j Hj). rewrite B in E2 by lia. rewrite C0 in E2. discriminate.
  Qed.

  Lemma add_loop_ok : forall fuel k rnd f v h,
    (forall n, unit_closed (rnd n)) ->
    wf f -> 0 < v < 256 -> v < 2 ^ es -> 0 <= h < bc ->
    exists f' b, add_loop bc bs es 0 hf fuel k rnd f v h (alt v h) = Ok (f', b) /\ wf f' /\
      (b = true -> forall w, good_w w -> tot w (ent f') = tot w (ent f) + w v h) /\
      (b = false -> exists v' h', v' <> 0 /\
         forall w, good_w w -> tot w (ent f') = tot w (ent f) + w v h - w v' h').
  Proof.
    induction fuel as [|fuel IH]; intros k rnd f v h Hr Hwf Hv Hvp Hh.
    { exists f, false. cbn. split; auto. split; auto. split; [discriminate|].
      intros _. exists v, h. split; [lia|]. intros. lia. }
    pose proof (alt_range v h Hh) as Ha. cbn [add_loop].
    assert (Put : forall b j, 0 <= b < bc -> 0 <= j < bs ->
      exists f', set_entry f b j v = Ok f' /\ wf f' /\
        (forall w, tot w (ent f') = tot w (ent f) - w (ent f b j) b + w v b)).
    { intros b j Hb Hj. destruct (set_entry_ok bc bs es Hbc Hbs Hes Hsz f b j v) as [f' [S1 [S2 S3]]]; auto; [lia|].
      exists f'. split; auto. split; auto. intros w. rewrite (tot_update w (ent f) (ent f') b j); auto.
      - rewrite (S3 b j) by auto. rewrite !Z.eqb_refl. reflexivity.
      - intros b' j' Hb' Hj' Hne. rewrite S3 by auto.
        destruct (Z.eqb_spec b b'); auto. destruct (Z.eqb_spec j j'); auto. congruence. }
    assert (Done : forall b j, 0 <= b < bc -> 0 <= j < bs -> ent f b j = 0 -> b = h \/ b = alt v h ->
      exists f' r, (do f' <- set_entry f b j v; Ok (f', true)) = Ok (f', r) /\ wf f' /\
      (r = true -> forall w, good_w w -> tot w (ent f') = tot w (ent f) + w v h) /\
      (r = false -> exists v' h', v' <> 0 /\
         forall w, good_w w -> tot w (ent f') = tot w (ent f) + w v h - w v' h')).
    { intros b j Hb Hj H0 Hb2. destruct (Put b j Hb Hj) as [f' [P1 [P2 P3]]].
      exists f', true. rewrite P1. cbn [bind]. split; auto. split; auto. split; [|discriminate].
      intros _ w [W0 W1]. rewrite P3, H0, W0.
      assert (w v b = w v h) as ->; [|lia].
      destruct Hb2 as [->| ->]; auto. }
    destruct (space_ok f h Hwf Hh) as [[S1 F1]|[j1 [S1 [R1 [Z1 _]]]]]; rewrite S1; cbn [bind];
    destruct (space_ok f (alt v h) Hwf Ha) as [[S2 F2]|[j2 [S2 [R2 [Z2 _]]]]]; rewrite S2; cbn [bind].
    - change (-1 <? 0) with true. change (0 <=? -1) with false. cbn [andb].
      set (b := if dgt (rnd k) dhalf then h else alt v h).
      assert (Hb : 0 <= b < bc) by (unfold b; destruct (dgt _ _); auto).
      pose proof bs_small.
      destruct (floor_unit_closed (rnd (S k)) (bs - 1) (Hr _)) as [s [_ [-> Hs]]]; [lia|].
      cbn [bind]. rewrite ent_ok by (auto; lia). cbn [bind].
      destruct (Put b s Hb) as [f1 [P1 [P2 P3]]]; [lia|]. rewrite P1. cbn [bind].
      assert (Hne : ent f b s <> 0) by (unfold b; destruct (dgt _ _); [apply F1|apply F2]; lia).
      pose proof (ent_range bc bs es Hbc Hbs Hes Hsz f b s Hwf Hb ltac:(lia)) as Rg.
      pose proof (ent_lt_pow bc bs es Hbc Hbs Hes Hsz f b s Hwf Hb ltac:(lia)) as Rp.
      pose proof (c_hash_fp _ _ _ _ _ _ C (ent f b s)) as Hhf. pose proof bc_small.
      rewrite u32_small by lia.
      destruct (IH (S (S k)) rnd f1 (ent f b s) b Hr P2 ltac:(lia) Rp Hb)
        as [f2 [r [L1 [L2 [L3 L4]]]]].
      exists f2, r. split; [exact L1|]. split; auto.
      assert (Hov : forall w, good_w w -> w v b = w v h).
      { intros w [_ W1]. unfold b. destruct (dgt _ _); auto. }
      split.
      + intros Hrt w Hw. rewrite (L3 Hrt), P3, Hov by auto. lia.
      + intros Hrf. destruct (L4 Hrf) as [v' [h' [N1 N2]]]. exists v', h'. split; auto.
        intros w Hw. rewrite N2, P3, Hov by auto. lia.
    - destruct (Z.ltb_spec (-1) 0); [|lia]. destruct (Z.leb_spec 0 j2); [|lia]. cbn [andb].
      apply Done; auto.
    - destruct (Z.ltb_spec j1 0); [lia|]. change (0 <=? -1) with false. change (-1 <? 0) with true.
      destruct (Z.leb_spec 0 j1); [|lia]. cbn [andb]. apply Done; auto.
    - destruct (Z.ltb_spec j1 0); [lia|]. destruct (Z.ltb_spec j2 0); [lia|].
      destruct (Z.leb_spec 0 j1); [|lia]. destruct (Z.leb_spec 0 j2); [|lia]. cbn [andb].
      destruct (dgt (rnd k) dhalf); apply Done; auto.
  Qed.

  Notation cadd := (cadd bc bs es 0 fp he hf).
  Notation clookup := (clookup bc bs es fp he hf).
  Notation cremove := (cremove bc bs es 0 fp he hf).
  Notation srch := (search bc bs es fp he hf).

  Lemma norm : forall e, u8 (fp e) = fp e /\ u32 (he e) = he e /\ u32 (hf (fp e)) = hf (fp e).
  Proof.
    intros e. pose proof (c_fp _ _ _ _ _ _ C e). pose proof (c_hash _ _ _ _ _ _ C e).
    pose proof (c_hash_fp _ _ _ _ _ _ C (fp e)). pose proof bc_small.
    rewrite u8_small, !u32_small by lia. auto.
  Qed.

  Lemma search_ok : forall f e, wf f ->
    (srch f e = Ok None /\ cnt (ent f) (class_of fp he hf e) = 0) \/
    (exists b j, srch f e = Ok (Some (b, j)) /\ 0 <= b < bc /\ 0 <= j < bs /\
       ent f b j = fp e /\ (b = he e \/ b = alt (fp e) (he e)) /\
       0 < cnt (ent f) (class_of fp he hf e)).
  Proof.
    intros f e Hwf. destruct (norm e) as [N1 [N2 N3]].
    pose proof (c_fp _ _ _ _ _ _ C e) as Hfp. pose proof (c_hash _ _ _ _ _ _ C e) as Hhe.
    pose proof (alt_range (fp e) (he e) Hhe) as Halt.
    unfold search. rewrite N1, N2, N3. fold (alt (fp e) (he e)).
    assert (In1 : forall h, 0 <= h < bc ->
      (findZ (Z.to_nat bs) 0 (fun j => do tmp <- get_entry f h j;
          Ok (if tmp =? fp e then Some (h, j) else None)) = Ok None /\
        forall j, 0 <= j < bs -> ent f h j <> fp e) \/
      (exists j, findZ (Z.to_nat bs) 0 (fun j => do tmp <- get_entry f h j;
          Ok (if tmp =? fp e then Some (h, j) else None)) = Ok (Some (h, j)) /\
          0 <= j < bs /\ ent f h j = fp e)).
    { intros h Hh.
      set (body := fun j => do tmp <- get_entry f h j; Ok (if tmp =? fp e then Some (h, j) else None)).
      assert (B : forall j, 0 <= j < bs ->
        body j = Ok (if ent f h j =? fp e then Some (h, j) else None)).
      { intros j Hj. unfold body. rewrite ent_ok by auto. reflexivity. }
      destruct (findZ_total _ body (Z.to_nat bs) 0) as [[E1 E2]|[k [r [Hk [E1 [E2 E3]]]]]].
      { intros j Hj. rewrite B by lia. eauto. }
      - left. split; auto. intros j Hj C0. specialize (E2 j ltac:(lia)).
        rewrite B in E2 by lia. rewrite C0, Z.eqb_refl in E2. discriminate.
      - right. rewrite B in E1 by lia. destruct (Z.eqb_spec (ent f h k) (fp e)); [|discriminate].
        injection E1 as <-. exists k. repeat split; auto; lia. }
    rewrite class_key.
    destruct (In1 (he e) Hhe) as [[-> A1]|[j [-> [A2 A3]]]]; cbn [bind].
    - destruct (In1 (alt (fp e) (he e)) Halt) as [[-> B1]|[j [-> [B2 B3]]]].
      + left. split; auto. pose proof (cnt_nonneg (ent f) (key (fp e) (he e))).
        destruct (Z.eq_dec (cnt (ent f) (key (fp e) (he e))) 0); auto. exfalso.
        assert (P0 : 0 < cnt (ent f) (key (fp e) (he e))) by lia.
        apply cnt_pos in P0; auto; [|lia]. destruct P0 as [j [Hj [Q|Q]]].
        * apply (A1 j); auto.
        * apply (B1 j); auto.
      + right. exists (alt (fp e) (he e)), j. repeat split; auto; try lia.
        apply cnt_pos; auto; [lia|]. exists j. auto.
    - right. exists (he e), j. repeat split; auto; try lia.
      apply cnt_pos; auto; [lia|]. exists j. auto.
  Qed.

  (** ** Refinement *)
  Definition ref (f : list Z) (m : multiset) : Prop := wf f /\ forall c, m c = cnt (ent f) c.

  Lemma one_class : forall e c,
    one (fp e) (he e) c = if class_eqb (class_of fp he hf e) c then 1 else 0.
  Proof.
    intros. unfold one. rewrite class_key. pose proof (c_fp _ _ _ _ _ _ C e).
    destruct (Z.eqb_spec (fp e) 0); [lia|]. reflexivity.
  Qed.

  Lemma wf_clear : forall f, wf f -> wf (cclear f).
  Proof.
    intros f [H1 H2]. unfold cclear. split; [now rewrite map_length|].
    apply Forall_forall. intros x Hx. apply in_map_iff in Hx. destruct Hx as [? [<- _]]. lia.
  Qed.

  Lemma zero_bits : forall f b j, wf f -> (forall x, In x f -> x = 0) ->
    0 <= b < bc -> 0 <= j < bs -> ent f b j = 0.
  Proof.
    intros f b j Hwf H0 Hb Hj. apply byte_bits_inj; [now apply ent_range|lia|].
    intros c Hc. rewrite ent_bits by auto. rewrite Z.bits_0.
    destruct (Z.ltb_spec c es); auto. cbn [andb]. unfold bitf.
    destruct (rd f (base bs es b j + c)) as [v| | |] eqn:Ev; auto.
    apply rd_ok_iff in Ev. destruct Ev as [_ Ev]. apply nth_error_In in Ev.
    rewrite (H0 v Ev). reflexivity.
  Qed.

  Lemma cnt_zero : forall T c, (forall b j, 0 <= b < bc -> 0 <= j < bs -> T b j = 0) -> cnt T c = 0.
  Proof.
    intros T c H. unfold cnt. rewrite (sumz_ext _ _ (fun _ => 0)).
    - induction slots as [|x l IH]; cbn; auto.
    - intros [b j] Hin. apply in_slots in Hin. unfold hit. cbn [fst snd]. rewrite H by tauto.
      reflexivity.
  Qed.

  Lemma ref_init : ref (cinit bc bs es) (fun _ => 0).
  Proof.
    split. { now apply wf_init. }
    intros c. symmetry. apply cnt_zero. intros. apply zero_bits; auto.
    - now apply wf_init.
    - intros x Hx. unfold cinit in Hx. now apply repeat_spec in Hx.
  Qed.

  Lemma step_refines : forall f m o,
    (forall e rnd k, o = CAdd e rnd -> unit_closed (rnd k)) -> ref f m ->
    exists f' out m', cstep bc bs es 0 fp he hf f o = Ok (f', out) /\
      spec_step fp he hf m o out m' /\ ref f' m'.
  Proof.
    intros f m o Hr [Hwf Hm]. destruct o as [e rnd|e|e|]; cbn [cstep].
    - unfold Cuckoo_Model.cadd. destruct (norm e) as [-> [-> ->]]. fold (alt (fp e) (he e)).
      pose proof (c_fp _ _ _ _ _ _ C e) as Hfp. pose proof (c_hash _ _ _ _ _ _ C e) as Hhe.
      destruct (add_loop_ok 500 0 rnd f (fp e) (he e)) as [f' [b [L1 [L2 [L3 L4]]]]]; auto; try lia.
      { intros n. eapply Hr. reflexivity. }
      rewrite L1. cbn [bind]. exists f', (Some b), (fun c => cnt (ent f') c). split; auto.
      split; [|split; auto]. cbn [spec_step]. destruct b.
      + left. split; auto. intros d. unfold m_add. rewrite cnt_tot, L3, one_class, Hm by auto using good_one. reflexivity.
      + right. split; auto. destruct (L4 eq_refl) as [v' [h' [N1 N2]]].
        exists (key v' h').
        assert (Ov : forall c, one v' h' c = if class_eqb (key v' h') c then 1 else 0).
        { intros. unfold one. destruct (Z.eqb_spec v' 0); [lia|]. reflexivity. }
        split.
        * unfold m_add. pose proof (cnt_nonneg (ent f') (key v' h')) as Hn. rewrite cnt_tot, N2, Ov in Hn by auto using good_one.
          assert (class_eqb (key v' h') (key v' h') = true) as Hq by now apply class_eqb_eq.
          rewrite Hq, one_class, <- cnt_tot in Hn. rewrite Hm. lia.
        * intros d. unfold m_sub, m_add. rewrite cnt_tot, N2, one_class, Ov, Hm by auto using good_one. reflexivity.
    - unfold Cuckoo_Model.clookup. exists f. destruct (search_ok f e Hwf) as [[-> H0]|[b [j [-> [_ [_ [_ [_ H0]]]]]]]]; cbn [bind].
      + exists (Some false), m. split; auto. split; [|split; auto]. split; [|intros d; reflexivity].
        rewrite Hm, H0. reflexivity.
      + exists (Some true), m. split; auto. split; [|split; auto]. split; [|intros d; reflexivity].
        rewrite Hm. destruct (Z.ltb_spec 0 (cnt (ent f) (class_of fp he hf e))); [reflexivity|lia].
    - unfold Cuckoo_Model.cremove. destruct (search_ok f e Hwf) as [[-> H0]|[b [j [-> [Hb [Hj [He [Hbb H0]]]]]]]]; cbn [bind].
      + exists f, None, m. split; auto. split; [|split; auto]. split; auto.
        rewrite Hm, H0. intros d. reflexivity.
      + change (u8 0) with 0.
        destruct (set_entry_ok bc bs es Hbc Hbs Hes Hsz f b j 0) as [f' [S1 [S2 S3]]]; auto; [lia| |].
        { apply Z.pow_pos_nonneg; lia. }
        rewrite S1. cbn [bind]. exists f', None, (fun c => cnt (ent f') c). split; auto.
        split; [|split; auto]. split; auto.
        rewrite Hm. destruct (Z.ltb_spec 0 (cnt (ent f) (class_of fp he hf e))); [|lia].
        intros d. rewrite (cnt_update (ent f) (ent f') b j d); auto.
        * rewrite (S3 b j) by auto. rewrite !Z.eqb_refl. cbn [andb]. rewrite He.
          unfold one at 2. cbn. unfold m_sub. rewrite Hm, <- one_class.
          assert (one (fp e) b d = one (fp e) (he e) d) as ->; [|lia].
          destruct Hbb as [->| ->]; auto. unfold one. now rewrite key_alt.
        * intros b' j' Hb' Hj' Hne. rewrite S3 by auto.
          destruct (Z.eqb_spec b b'); auto. destruct (Z.eqb_spec j j'); auto. congruence.
    - exists (cclear f), None, (fun _ => 0). split; auto. split. { split; auto. intros d; reflexivity. }
      split. { now apply wf_clear. }
      intros c. symmetry. apply cnt_zero. intros. apply zero_bits; auto.
      + now apply wf_clear.
      + intros x Hx. unfold cclear in Hx. apply in_map_iff in Hx. destruct Hx as [? [<- _]]. reflexivity.
  Qed.

  Lemma run_refines : forall ops f m, ref f m -> draws_ok ops ->
    exists f' outs m', crun_from bc bs es 0 fp he hf f ops = Ok (f', outs) /\
      spec_run fp he hf m ops outs m' /\ ref f' m'.
  Proof.
    induction ops as [|o ops IH]; intros f m Hr Hd; cbn [crun_from].
    - exists f, [], m. split; auto. split; auto. constructor. intros d; reflexivity.
    - destruct (step_refines f m o) as [f1 [out [m1 [S1 [S2 S3]]]]]; auto.
      { intros e rnd k ->. eapply Hd. left. reflexivity. }
      destruct (IH f1 m1 S3) as [f2 [outs [m2 [R1 [R2 R3]]]]].
      { intros e rnd k Hin. eapply Hd. right. exact Hin. }
      rewrite S1. cbn [bind]. rewrite R1. cbn [bind]. exists f2, (out :: outs), m2.
      split; auto. split; auto. econstructor; eauto.
  Qed.

  Lemma crun_refines : forall ops, draws_ok ops ->
    exists f outs m, crun bc bs es 0 fp he hf ops = Ok (f, outs) /\
      spec_run fp he hf (fun _ => 0) ops outs m.
  Proof.
    intros ops Hd. destruct (run_refines ops _ _ ref_init Hd) as [f [outs [m [A [B _]]]]].
    exists f, outs, m. auto.
  Qed.
End P.
