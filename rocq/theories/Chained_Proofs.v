(** * Proofs about the chained reservoir *)
From Coq Require Import ZArith List Bool Lia Reals Lra.
From Flocq Require Import Core BinarySingleNaN.
From Verif Require Import CppBase CppFacts Dbl DblFacts NumOps NumFacts Chained_Model Chained_Spec.
Import ListNotations.
Local Open Scope Z_scope.

Section Lists.
  Context {A : Type}.
  Notation node := (@node A).
  Notation cell := (option A * Z)%type.

  (** The chain stored at [p], with the addresses of its cells. *)
  Fixpoint seg (h : list node) (p : option nat) (ad : list nat) (l : list cell) : Prop :=
    match ad, l with
    | [], [] => p = None
    | a :: ad', (e, t) :: l' =>
        p = Some a /\ exists n, nth_error h a = Some (mkNode n e t) /\ seg h n ad' l'
    | _, _ => False
    end.

  Lemma ld_some : forall (h : list node) a c, nth_error h a = Some c -> ld h a = Ok c.
  Proof. intros h a c H. unfold ld. now rewrite H. Qed.

  Lemma st_some : forall (h : list node) a c x, nth_error h a = Some c -> st h a x = Ok (upd h a x).
  Proof.
    intros h a c x H. unfold st. assert (a < length h)%nat by (apply nth_error_Some; congruence).
    apply Nat.ltb_lt in H0. now rewrite H0.
  Qed.

  Lemma seg_length : forall h p ad l, seg h p ad l -> length ad = length l.
  Proof.
    intros h p ad. revert p. induction ad as [|a ad IH]; intros p [|[e t] l] H; cbn in *; try tauto; auto.
    destruct H as [_ [n [_ H]]]. f_equal. eauto.
  Qed.

  Lemma seg_linked : forall h p ad l, seg h p ad l -> linked h p l.
  Proof.
    intros h p ad. revert p. induction ad as [|a ad IH]; intros p [|[e t] l] H; cbn in *; try tauto; auto.
    destruct H as [-> [n [E H]]]. exists a, n. eauto.
  Qed.

  Lemma linked_det : forall (h : list node) (l l' : list cell) p, linked h p l -> linked h p l' -> l = l'.
  Proof.
    intros h. induction l as [|[e t] l IH]; intros [|[e' t'] l'] p H H'; cbn in *; auto.
    - destruct H' as [a [n [E _]]]. congruence.
    - destruct H as [a [n [E _]]]. congruence.
    - destruct H as [a [n [E [F G]]]]. destruct H' as [a' [n' [E' [F' G']]]].
      rewrite E in E'. injection E' as ->. rewrite F in F'. injection F' as -> -> ->.
      f_equal. eauto.
  Qed.

  Lemma seg_in : forall h p ad l x, seg h p ad l -> In x ad -> (x < length h)%nat.
  Proof.
    intros h p ad. revert p. induction ad as [|a ad IH]; intros p [|[e t] l] x H I; cbn in *; try tauto.
    destruct H as [-> [n [E H]]]. destruct I as [<-|I]; [|eauto].
    apply nth_error_Some. congruence.
  Qed.

  Lemma seg_frame : forall h h' p ad l, seg h p ad l ->
    (forall x, In x ad -> nth_error h' x = nth_error h x) -> seg h' p ad l.
  Proof.
    intros h h' p ad. revert p. induction ad as [|a ad IH]; intros p [|[e t] l] H F; cbn in *; try tauto.
    destruct H as [-> [n [E H]]]. split; auto. exists n. split.
    - rewrite F by auto. exact E.
    - eauto.
  Qed.

  Lemma seg_upd_frame : forall h p ad l a c, seg h p ad l -> ~ In a ad -> seg (upd h a c) p ad l.
  Proof.
    intros h p ad l a c H N. apply seg_frame with h; auto.
    intros x I. apply nth_error_upd_other. intros ->. tauto.
  Qed.

  Lemma seg_fits : forall h p ad l, seg h p ad l -> NoDup ad -> (length ad <= length h)%nat.
  Proof.
    intros h p ad l H N. rewrite <- (seq_length (length h) 0). apply NoDup_incl_length; auto.
    intros x I. apply in_seq. pose proof (seg_in _ _ _ _ _ H I). lia.
  Qed.

  (** [clear_chain] *)
  Lemma clear_ok : forall ad h p l f, seg h p ad l -> NoDup ad -> (length ad < f)%nat ->
    exists h', clear_chain f h p = Ok h' /\
      seg h' p ad (map (fun c : cell => (fst c, 0)) l) /\ length h' = length h /\
      forall x, ~ In x ad -> nth_error h' x = nth_error h x.
  Proof.
    induction ad as [|a ad IH]; intros h p [|[e t] l] f H N L; cbn [seg] in H; try tauto.
    - subst p. exists h. destruct f; [cbn in L; lia|]. cbn. auto.
    - destruct H as [-> [n [E H]]]. inversion N as [|? ? N1 N2]; subst.
      destruct f as [|f]; [lia|]. cbn [length] in L. cbn [clear_chain].
      rewrite (ld_some _ _ _ E). cbn [bind nxt element]. rewrite (st_some _ _ _ _ E). cbn [bind].
      destruct (IH (upd h a (mkNode n e 0)) n l f) as [h' [R [S' [Lh F]]]].
      + now apply seg_upd_frame.
      + exact N2.
      + lia.
      + exists h'. split; [exact R|]. split; [|split].
        * cbn [map fst seg]. split; auto. exists n. split; [|exact S'].
          rewrite F by auto. apply nth_error_upd_same. apply nth_error_Some. congruence.
        * now rewrite Lh, upd_length.
        * intros x I. rewrite F by (intros J; apply I; now right).
          apply nth_error_upd_other. intros ->. apply I. now left.
  Qed.

  (** Pushing with a limited number of turns. *)
  Fixpoint apush (k : nat) (l : list cell) (e : A) (t : Z) : option (list cell) :=
    match k, l with
    | S k', (x, s) :: l' =>
        if s =? 0 then Some ((Some e, t) :: l')
        else match l' with
             | [] => Some [(x, s); (Some e, t)]
             | _ => option_map (cons (x, s)) (apush k' l' e t)
             end
    | _, _ => None
    end.

  Lemma push_ok : forall k ad h a l e t, seg h (Some a) (a :: ad) l -> NoDup (a :: ad) ->
    match apush k l e t with
    | Some l' => exists h' ad', push_on_chain k h a e t = Ok h' /\
        seg h' (Some a) (a :: ad') l' /\ (length h <= length h')%nat /\
        (ad' = ad \/ ad' = ad ++ [length h]) /\
        forall x, ~ In x (a :: ad) -> x <> length h -> nth_error h' x = nth_error h x
    | None => push_on_chain k h a e t = Abort
    end.
  Proof.
    induction k as [|k IH]; intros ad h a [|[x s] l] e t H N; cbn [seg] in H; try tauto.
    - reflexivity.
    - destruct H as [_ [n [E H]]]. cbn [push_on_chain apush].
      rewrite (ld_some _ _ _ E). cbn [bind nxt element stamp].
      inversion N as [|? ? N1 N2]; subst.
      assert (La : (a < length h)%nat) by (apply nth_error_Some; congruence).
      destruct (s =? 0) eqn:Es.
      + rewrite (st_some _ _ _ _ E). exists (upd h a (mkNode n (Some e) t)), ad.
        split; [reflexivity|]. split; [|split; [now rewrite upd_length|split; [now left|]]].
        * cbn [seg]. split; auto. exists n. split; [now apply nth_error_upd_same|]. now apply seg_upd_frame.
        * intros y I _. apply nth_error_upd_other. intros ->. apply I. now left.
      + destruct ad as [|b ad]; destruct l as [|[x2 s2] l]; cbn [seg] in H; try tauto.
        * subst n. rewrite (st_some _ _ _ _ E). cbn [bind].
          exists (upd h a (mkNode (Some (length h)) x s) ++ [mkNode None (Some e) t]), [length h].
          split; [reflexivity|]. split; [|split; [rewrite app_length, upd_length; cbn; lia|split; [now right|]]].
          -- cbn [seg]. split; auto. exists (Some (length h)). split.
             ++ rewrite nth_error_app1 by now rewrite upd_length. now apply nth_error_upd_same.
             ++ split; auto. exists None. split; auto.
                rewrite nth_error_app2 by (rewrite upd_length; lia). rewrite upd_length, Nat.sub_diag. reflexivity.
          -- intros y I J. destruct (Nat.lt_ge_cases y (length h)) as [Hl|Hl].
             ++ rewrite nth_error_app1 by now rewrite upd_length.
                apply nth_error_upd_other. intros ->. apply I. now left.
             ++ transitivity (@None node); [|symmetry; now apply nth_error_None].
                apply nth_error_None. rewrite app_length, upd_length. cbn. lia.
        * destruct H as [-> [n2 [E2 H]]].
          assert (Hs : seg h (Some b) (b :: ad) ((x2, s2) :: l)) by (cbn [seg]; eauto).
          specialize (IH ad h b ((x2, s2) :: l) e t Hs N2).
          destruct (apush k ((x2, s2) :: l) e t) as [l'|]; cbn [option_map]; [|exact IH].
          destruct IH as [h' [ad' [R [S' [Lh [Ha F]]]]]].
          exists h', (b :: ad'). split; [exact R|].
          assert (Ea : nth_error h' a = nth_error h a) by (apply F; [auto|lia]).
          split; [|split; [exact Lh|split]].
          -- cbn [seg]. split; auto. exists (Some b). split; [now rewrite Ea|]. exact S'.
          -- destruct Ha as [->| ->]; [now left|now right].
          -- intros y I J. apply F; auto. intros K. apply I. now right.
  Qed.

  Lemma apush_pushed : forall k l e t l', apush k l e t = Some l' -> l' = pushed l e t.
  Proof.
    induction k as [|k IH]; intros [|[x s] l] e t l' H; cbn [apush] in H; try discriminate.
    cbn [pushed]. destruct (s =? 0); [congruence|].
    destruct l as [|c l]; [injection H as <-; reflexivity|].
    destruct (apush k (c :: l) e t) eqn:E; [|discriminate]. cbn in H. injection H as <-.
    f_equal. eauto.
  Qed.

  Lemma apush_short : forall k l e t, l <> [] -> (length l <= k)%nat -> apush k l e t = Some (pushed l e t).
  Proof.
    induction k as [|k IH]; intros [|[x s] l] e t H L; cbn [length] in L; try congruence; [lia|].
    cbn [apush pushed]. destruct (s =? 0); auto.
    destruct l as [|c l]; [reflexivity|]. rewrite IH by (try discriminate; cbn [length] in *; lia). reflexivity.
  Qed.

  Lemma pushed_length : forall (l : list cell) e t, (length l <= length (pushed l e t) <= S (length l))%nat.
  Proof. induction l as [|[x s] l IH]; intros e t; cbn; [lia|]. destruct (s =? 0); cbn; [lia|]. specialize (IH e t). lia. Qed.

  (** The search of [obsolete]. *)
  Lemma first_valid_ok : forall ad h a l t f, seg h (Some a) (a :: ad) l -> (length (a :: ad) <= f)%nat ->
    first_valid f h a t = Ok (match first_from t l with Some k => Some (nth k (a :: ad) O) | None => None end).
  Proof.
    induction ad as [|b ad IH]; intros h a [|[x s] l] t f H L; cbn [seg] in H; try tauto;
      destruct H as [_ [n [E H]]]; (destruct f as [|f]; [cbn in L; lia|]); cbn [first_valid first_from length] in *;
      rewrite (ld_some _ _ _ E); cbn [bind stamp nxt]; destruct (s <? t); try reflexivity.
    - destruct l; [|tauto]. subst n. reflexivity.
    - destruct l as [|[x2 s2] l]; [tauto|]. destruct H as [-> H].
      rewrite (IH h b ((x2, s2) :: l) t f) by (try lia; cbn [seg]; auto).
      destruct (first_from t ((x2, s2) :: l)); reflexivity.
  Qed.

  (** Cells by index. *)
  Lemma seg_nth : forall ad h p l k, seg h p ad l -> (k < length ad)%nat ->
    nth_error h (nth k ad O) =
      Some (mkNode (nth_error ad (S k)) (fst (nth k l (None, 0))) (snd (nth k l (None, 0)))).
  Proof.
    induction ad as [|a ad IH]; intros h p [|[e t] l] k H L; cbn [seg] in H; try tauto; [cbn in L; lia|].
    destruct H as [_ [n [E H]]]. destruct k as [|k].
    - cbn [nth fst snd]. rewrite E. f_equal. f_equal.
      destruct ad as [|b ad]; destruct l as [|[e2 t2] l]; cbn in H |- *; try tauto.
    - cbn [nth nth_error]. cbn [length] in L. rewrite (IH h n l k H) by lia. reflexivity.
  Qed.

  Lemma nth_inj : forall (ad : list nat) i j, NoDup ad -> (i < length ad)%nat -> (j < length ad)%nat ->
    nth i ad O = nth j ad O -> i = j.
  Proof. intros ad i j N Hi Hj E. exact (proj1 (NoDup_nth ad O) N i j Hi Hj E). Qed.

  (** The two loops of [shift_chain]; position [p] of the receiver is that of the cell
      it was copied from. *)
  Section Shift.
    Variable (h0 : list node) (ad : list nat) (l : list cell) (k : nat).
    Hypothesis (HS : seg h0 (Some (nth 0 ad O)) ad l) (HN : NoDup ad) (Hk : (0 < k < length ad)%nat).
    Let a i := nth i ad O.
    Let c i := nth i l (None, 0).
    Let n := length ad.
    Let orig i : node := mkNode (nth_error ad (S i)) (fst (c i)) (snd (c i)).

    Let nth_err : forall i, (i < n)%nat -> nth_error ad i = Some (a i).
    Proof. intros i Hi. unfold a. rewrite <- nth_default_eq. unfold nth_default. destruct (nth_error ad i) eqn:E; auto. apply nth_error_None in E. lia. Qed.

    Definition moved (h : list node) (j : nat) : Prop :=
      length h = length h0 /\
      (forall x, x <> a 0 -> x <> a k -> nth_error h x = nth_error h0 x) /\
      nth_error h (a k) = Some (orig (k + j)) /\
      exists e s, nth_error h (a 0) =
        Some (mkNode (nth_error ad (if Nat.ltb j k then S j else S (k + j))) e s).

    Lemma orig_at : forall i, (i < n)%nat -> nth_error h0 (a i) = Some (orig i).
    Proof. intros i Hi. exact (seg_nth ad h0 _ l i HS Hi). Qed.

    Lemma a_inj : forall i j, (i < n)%nat -> (j < n)%nat -> i <> j -> a i <> a j.
    Proof. intros i j Hi Hj N E. apply N. now apply (nth_inj ad). Qed.

    Lemma move_ok : forall m h f, (m + k + 1 <= n)%nat -> moved h (n - 1 - k - m) -> (m < f)%nat ->
      exists h', shift_move f h (a 0) (a k) = Ok h' /\ length h' = length h0 /\
        (forall x, x <> a 0 -> x <> a k -> nth_error h' x = nth_error h0 x) /\
        nth_error h' (a k) = Some (orig (n - 1)) /\
        nth_error h' (a 0) = Some (mkNode (nth_error ad (if Nat.ltb (n - 1 - k) k then S (n - 1 - k) else n))
                                          (fst (c (n - 1))) (snd (c (n - 1)))).
    Proof.
      induction m as [|m IH]; intros h f Hm [Lh [F [Hk' [e [s H0]]]]] Hf; (destruct f as [|f]; [lia|]).
      all: assert (Nak : a 0 <> a k) by (apply a_inj; lia).
      all: assert (L0 : (a 0 < length h)%nat) by (apply nth_error_Some; congruence).
      all: assert (Lk : (a k < length h)%nat) by (apply nth_error_Some; congruence).
      all: cbn [shift_move]; rewrite (ld_some _ _ _ Hk'); cbn [bind]; rewrite (ld_some _ _ _ H0); cbn [bind].
      all: rewrite (st_some _ _ _ _ H0); cbn [bind].
      all: rewrite (ld_some _ (a k) (orig (k + (n - 1 - k - _)))) by (rewrite nth_error_upd_other by auto; exact Hk').
      all: cbn [bind nxt].
      - replace (k + (n - 1 - k - 0))%nat with (n - 1)%nat in * by lia.
        replace (n - 1 - k - 0)%nat with (n - 1 - k)%nat in * by lia.
        unfold orig at 1. cbn [nxt]. replace (S (n - 1)) with n by lia.
        assert (En : nth_error ad n = None) by (apply nth_error_None; unfold n; lia). rewrite En.
        eexists. split; [reflexivity|]. split; [now rewrite upd_length|]. split; [|split].
        + intros x X0 Xk. rewrite nth_error_upd_other by auto. auto.
        + now rewrite nth_error_upd_other by auto.
        + rewrite nth_error_upd_same by auto. unfold orig. cbn [nxt element stamp].
          replace (S (k + (n - 1 - k))) with n by lia. reflexivity.
      - set (j := (n - 1 - k - S m)%nat) in *.
        assert (Hj : (n - 1 - k - m)%nat = S j) by lia.
        unfold orig at 1. cbn [nxt]. rewrite (nth_err (S (k + j))) by lia.
        assert (Hx : nth_error (upd h (a 0) (mkNode (nth_error ad (if Nat.ltb j k then S j else S (k + j)))
                       (fst (c (k + j))) (snd (c (k + j))))) (a (S (k + j))) = Some (orig (S (k + j)))).
        { rewrite nth_error_upd_other by (apply a_inj; lia). rewrite F by (apply a_inj; lia). apply orig_at. lia. }
        change (element (orig (k + j))) with (fst (c (k + j))).
        change (stamp (orig (k + j))) with (snd (c (k + j))).
        rewrite (ld_some _ _ _ Hx). cbn [bind].
        rewrite (st_some _ (a k) (orig (k + j))) by (rewrite nth_error_upd_other by auto; exact Hk').
        cbn [bind].
        set (nx := nth_error ad (if Nat.ltb j k then S j else S (k + j))) in *.
        rewrite (ld_some _ (a 0) (mkNode nx (fst (c (k + j))) (snd (c (k + j)))))
          by (rewrite nth_error_upd_other by auto; now apply nth_error_upd_same).
        cbn [bind nxt].
        set (h2 := upd (upd h (a 0) (mkNode nx (fst (c (k + j))) (snd (c (k + j))))) (a k) (orig (S (k + j)))).
        assert (L2 : length h2 = length h0) by (unfold h2; now rewrite !upd_length).
        assert (Hq : exists q, nx = Some (a q) /\ (0 < q < n)%nat /\
          nth_error h2 (a q) = Some (mkNode (nth_error ad (if Nat.ltb (S j) k then S (S j) else S (k + S j)))
              (fst (c (if Nat.ltb (S j) k then S j else k + S j)%nat)) (snd (c (if Nat.ltb (S j) k then S j else k + S j)%nat)))).
        { unfold nx. destruct (Nat.ltb_spec j k) as [Jk|Jk].
          - destruct (Nat.eq_dec (S j) k) as [Ek|Nk].
            + exists k. rewrite Ek. split; [apply nth_err; lia|]. split; [lia|].
              destruct (Nat.ltb_spec k k); [lia|].
              unfold h2. rewrite nth_error_upd_same by now rewrite upd_length. unfold orig.
              replace (k + k)%nat with (S (k + j)) by lia. reflexivity.
            + exists (S j). split; [apply nth_err; lia|]. split; [lia|].
              destruct (Nat.ltb_spec (S j) k); [|lia].
              unfold h2. rewrite nth_error_upd_other by (apply a_inj; lia).
              rewrite nth_error_upd_other by (apply a_inj; lia). rewrite F by (apply a_inj; lia).
              rewrite orig_at by lia. reflexivity.
          - exists (S (k + j)). split; [apply nth_err; lia|]. split; [lia|].
            destruct (Nat.ltb_spec (S j) k); [lia|].
            unfold h2. rewrite nth_error_upd_other by (apply a_inj; lia).
            rewrite nth_error_upd_other by (apply a_inj; lia). rewrite F by (apply a_inj; lia).
            rewrite orig_at by lia. unfold orig. replace (k + S j)%nat with (S (k + j)) by lia. reflexivity. }
        destruct Hq as [q [-> [Hq Eq]]]. rewrite (ld_some _ _ _ Eq). cbn [bind].
        rewrite (st_some _ (a 0) (mkNode (Some (a q)) (fst (c (k + j))) (snd (c (k + j)))))
          by (unfold h2; rewrite nth_error_upd_other by auto; apply nth_error_upd_same; exact L0).
        cbn [bind].
        match goal with |- context [shift_move f ?H _ _] => set (h3 := H) end.
        apply IH; [lia| |lia].
        rewrite Hj. split; [unfold h3; now rewrite upd_length|]. split; [|split].
        + intros x X0 Xk. unfold h3, h2. rewrite !nth_error_upd_other by auto. auto.
        + unfold h3. rewrite nth_error_upd_other by auto. unfold h2.
          rewrite nth_error_upd_same by now rewrite upd_length. f_equal. f_equal; lia.
        + eexists _, _. unfold h3. rewrite nth_error_upd_same by (rewrite L2, <- Lh; exact L0). reflexivity.
    Qed.

    Lemma disable_ok : forall m q h f e s, (q + m = k)%nat -> (0 < q)%nat -> (m + 1 < f)%nat -> length h = length h0 ->
      (forall x, x <> a 0 -> x <> a k -> nth_error h x = nth_error h0 x) ->
      nth_error h (a k) = Some (orig (n - 1)) ->
      nth_error h (a 0) = Some (mkNode (Some (a q)) e s) ->
      exists h', shift_disable f h (a 0) = Ok h' /\ length h' = length h0 /\
        (forall x, x <> a 0 -> x <> a k -> nth_error h' x = nth_error h0 x) /\
        nth_error h' (a 0) = Some (mkNode None (fst (c (n - 1))) 0).
    Proof.
      induction m as [|m IH]; intros q h f e s Hq Q0 Hf Lh F Hk' H0; (destruct f as [|f]; [lia|]).
      all: assert (L0 : (a 0 < length h)%nat) by (apply nth_error_Some; congruence).
      all: assert (Nak : a 0 <> a k) by (apply a_inj; lia).
      all: cbn [shift_disable]; rewrite (ld_some _ _ _ H0); cbn [bind nxt].
      - replace q with k by lia. rewrite (ld_some _ _ _ Hk'). cbn [bind]. rewrite (st_some _ _ _ _ H0). cbn [bind].
        unfold orig. cbn [nxt element stamp].
        assert (En : nth_error ad (S (n - 1)) = None) by (apply nth_error_None; unfold n; lia).
        rewrite En. destruct f as [|f]; [lia|]. cbn [shift_disable].
        rewrite (ld_some _ (a 0) (mkNode None (fst (c (n - 1))) 0)) by now apply nth_error_upd_same.
        cbn [bind nxt]. eexists. split; [reflexivity|]. split; [now rewrite upd_length|]. split.
        + intros x X0 Xk. rewrite nth_error_upd_other by auto. auto.
        + now apply nth_error_upd_same.
      - assert (Eq : nth_error h (a q) = Some (orig q)).
        { rewrite F by (apply a_inj; lia). apply orig_at. lia. }
        rewrite (ld_some _ _ _ Eq). cbn [bind]. rewrite (st_some _ _ _ _ H0). cbn [bind].
        unfold orig at 1 2. cbn [nxt element stamp]. rewrite (nth_err (S q)) by lia.
        apply (IH (S q)) with (e := fst (c q)) (s := 0); try lia.
        + now rewrite upd_length.
        + intros x X0 Xk. rewrite nth_error_upd_other by auto. auto.
        + now rewrite nth_error_upd_other by auto.
        + now apply nth_error_upd_same.
    Qed.

    Lemma shift_ok :
      exists h', shift_chain h0 (a 0) (a k) = Ok h' /\ length h' = length h0 /\
        (forall x, ~ In x ad -> nth_error h' x = nth_error h0 x) /\
        seg h' (Some (a 0)) [a 0]
          [(fst (last l (None, 0)), if Nat.ltb (length l) (2 * k + 1) then 0 else snd (last l (None, 0)))].
    Proof.
      pose proof (seg_length _ _ _ _ HS) as HL. pose proof (seg_fits _ _ _ _ HS HN) as Hfit.
      assert (Hl : last l (None, 0) = c (n - 1)).
      { unfold c, n. rewrite HL. clear. induction l as [|x [|y l'] IH]; auto.
        change (last (x :: y :: l') (None, 0)) with (last (y :: l') (@None A, 0)). rewrite IH.
        cbn [length]. replace (S (S (length l')) - 1)%nat with (S (length (y :: l') - 1)) by (cbn [length]; lia). reflexivity. }
      rewrite Hl.
      assert (M0 : moved h0 (n - 1 - k - (n - 1 - k))).
      { replace (n - 1 - k - (n - 1 - k))%nat with O by lia. split; auto. split; auto. split.
        - rewrite Nat.add_0_r. apply orig_at. lia.
        - destruct (Nat.ltb_spec 0 k); [|lia]. exists (fst (c 0)), (snd (c 0)). apply orig_at. lia. }
      unfold shift_chain.
      destruct (move_ok (n - 1 - k) h0 (S (length h0))) as [h1 [R1 [L1 [F1 [Hk1 H01]]]]]; [lia|exact M0|lia|].
      rewrite R1. cbn [bind].
      assert (In0 : In (a 0) ad) by (apply nth_In; lia).
      assert (Ink : In (a k) ad) by (apply nth_In; lia).
      replace (Nat.ltb (length l) (2 * k + 1)) with (Nat.ltb (n - 1 - k) k)
        by (rewrite <- HL; fold n; destruct (Nat.ltb_spec (n - 1 - k) k); destruct (Nat.ltb_spec n (2 * k + 1)); lia).
      destruct (Nat.ltb_spec (n - 1 - k) k) as [Hc|Hc].
      - rewrite nth_err in H01 by lia.
        destruct (disable_ok (k - S (n - 1 - k)) (S (n - 1 - k)) h1 (S (length h0)) _ _ ltac:(lia) ltac:(lia) ltac:(lia) L1 F1 Hk1 H01)
          as [h2 [R2 [L2 [F2 H02]]]].
        exists h2. split; [exact R2|]. split; [exact L2|]. split.
        + intros x Hx. apply F2; intros ->; tauto.
        + cbn [seg]. split; auto. exists None. split; auto.
      - assert (En : nth_error ad n = None) by (apply nth_error_None; unfold n; lia). rewrite En in H01.
        exists h1. split.
        + cbn [shift_disable]. rewrite (ld_some _ _ _ H01). reflexivity.
        + split; [exact L1|]. split.
          * intros x Hx. apply F1; intros ->; tauto.
          * cbn [seg]. split; auto. exists None. split; auto.
    Qed.
  End Shift.
End Lists.

(** ** The random offsets *)

Lemma half_val : B2R dhalf = (/ 2)%R /\ is_finite dhalf = true.
Proof. split; [|reflexivity]. vm_compute. lra. Qed.

Lemma format_half : forall n, 0 <= n < 2 ^ 52 -> generic_format radix2 fexp64 (IZR n + / 2).
Proof.
  intros n Hn. change fexp64 with (FLT_exp (SpecFloat.emin 53 1024) 53).
  apply generic_format_FLT. apply (FLT_spec radix2 _ 53 _ (Float radix2 (2 * n + 1) (-1))).
  - unfold F2R. cbn [Fnum Fexp]. rewrite plus_IZR, mult_IZR. change (bpow radix2 (-1)) with (/ 2)%R. field.
  - cbn [Fnum]. change (radix2 ^ 53) with (2 * 2 ^ 52). lia.
  - cbn. vm_compute. discriminate.
Qed.

(** [round(d)] for [0 <= d <= n]. *)
Lemma round_val : forall (d : dbl) n, is_finite d = true -> (0 <= B2R d <= IZR n)%R -> 0 <= n <= 2147483646 ->
  exists k, round d = Ok k /\ 0 <= k <= n /\ k = Zfloor (rnd64 (B2R d + / 2)).
Proof.
  intros d n Fd Hd Hn. destruct half_val as [Hv Hf].
  assert (N0 : (0 <= IZR n)%R) by (apply IZR_le; lia).
  assert (N1 : (IZR n <= 2147483646)%R) by (apply IZR_le; lia).
  destruct (dadd_R d dhalf Fd Hf) as [R F].
  { rewrite Hv. apply huge_Z with 2147483647; [vm_compute; discriminate|]. rewrite !Rabs_pos_eq by lra. lra. }
  assert (B0 : (0 <= rnd64 (B2R d + / 2))%R) by (apply (rnd_ge_Z 0); [vm_compute; discriminate|lra]).
  assert (B1 : (rnd64 (B2R d + / 2) < IZR (n + 1))%R).
  { apply Rle_lt_trans with (IZR n + / 2)%R; [|rewrite plus_IZR; lra].
    rewrite <- (rnd_id (IZR n + / 2)) by (apply format_half; lia). apply rnd_le. lra. }
  unfold round. exists (Zfloor (rnd64 (B2R d + / 2))).
  destruct (Zfloor_range_lt _ _ B0 B1) as [K0 K1].
  split; [|split; [lia|reflexivity]].
  rewrite <- Ztrunc_floor by auto. rewrite <- Hv, <- R. apply d2int_ok; [exact F|].
  rewrite R, Hv, Ztrunc_floor by auto. lia.
Qed.

Section Num.
  Variable (size : Z) (rnd : nat -> dbl).
  Hypothesis (Hs : 1 <= size <= 2147483647).

  Lemma offset_ok : forall k, unit_closed (rnd k) ->
    exists o, offset size rnd k = Ok o /\ 0 <= o <= size - 1 /\
      o = Zfloor (rnd64 (rnd64 (B2R (rnd k) * IZR (size - 1)) + / 2)).
  Proof.
    intros k [Fr Hr]. unfold offset. rewrite u32_small by lia.
    destruct (dmul_unit (rnd k) (size - 1) Fr Hr) as [R [F B]]; [lia|].
    destruct (round_val (dmul (rnd k) (dofZ (size - 1))) (size - 1) F) as [o [E [Ho Ev]]]; [rewrite R; exact B|lia|].
    exists o. rewrite <- R. auto.
  Qed.

  Lemma successor_ok : forall c k, unit_closed (rnd k) -> 0 <= c -> c + size < 4294967296 ->
    exists nx, successor size rnd c k = Ok nx /\ c + 1 <= nx <= c + size.
  Proof.
    intros c k Hr Hc Hb. destruct (offset_ok k Hr) as [o [E [Ho _]]]. unfold successor. rewrite E. cbn [bind].
    rewrite u32_small by lia. destruct dops_exact as [EA _].
    cbn [nadd nofZ dops] in EA. rewrite EA by lia.
    destruct (dofZ_exact (c + 1 + o)) as [R F]; [lia|].
    assert (T : Ztrunc (B2R (dofZ (c + 1 + o))) = c + 1 + o) by (rewrite R; apply Ztrunc_IZR).
    exists (c + 1 + o). split; [|lia]. rewrite d2uint_ok; rewrite ?T; auto. lia.
  Qed.
End Num.

(** ** The representation invariant *)
Section Rep.
  Context {A : Type}.
  Variable (size : Z) (rnd : nat -> dbl).
  Hypothesis (Hs : 1 <= size <= 2147483647) (Hr : all_closed rnd).
  Notation cell := (option A * Z)%type.
  Let sz := Z.to_nat size.

  Definition fupd {B} (f : nat -> B) (i : nat) (v : B) : nat -> B := fun j => if Nat.eqb i j then v else f j.

  (** The chains [ch] are stored, disjointly, at the addresses [ad]. *)
  Definition rep (h : list (@node A)) (ad : nat -> list nat) (ch : nat -> list cell) : Prop :=
    forall i, (i < sz)%nat ->
      seg h (Some i) (ad i) (ch i) /\ NoDup (ad i) /\
      forall j x, (j < sz)%nat -> i <> j -> In x (ad i) -> ~ In x (ad j).

  Lemma rep_head : forall h ad ch i, rep h ad ch -> (i < sz)%nat -> exists t, ad i = i :: t.
  Proof.
    intros h ad ch i H Hi. destruct (H i Hi) as [S' _]. destruct (ad i) as [|a t]; destruct (ch i) as [|[e s] l]; cbn [seg] in S'; try tauto; [discriminate|].
    destruct S' as [E _]. injection E as ->. eauto.
  Qed.

  (** Changing one chain. *)
  Lemma rep_change : forall h h' ad ch i a l, rep h ad ch -> (i < sz)%nat ->
    seg h' (Some i) a l -> NoDup a ->
    (forall x, In x a -> In x (ad i) \/ (length h <= x)%nat) ->
    (forall x, (x < length h)%nat -> ~ In x (ad i) -> nth_error h' x = nth_error h x) ->
    rep h' (fupd ad i a) (fupd ch i l).
  Proof.
    intros h h' ad ch i a l H Hi Hseg Ha Hin F j Hj. unfold fupd.
    destruct (H j Hj) as [Sj [Nj Dj]]. destruct (H i Hi) as [Si [Ni Di]].
    destruct (Nat.eqb_spec i j) as [<-|Ne].
    - split; auto. split; auto. intros j' x Hj' Ne I. destruct (Nat.eqb_spec i j'); [lia|].
      destruct (Hin x I) as [I'|L]; [now apply Di|]. intros I'. destruct (H j' Hj') as [Sj' _].
      pose proof (seg_in _ _ _ _ _ Sj' I'). lia.
    - split; [|split; auto].
      + apply seg_frame with h; auto. intros x I. apply F; [exact (seg_in _ _ _ _ _ Sj I)|]. exact (Dj i x Hi (not_eq_sym Ne) I).
      + intros j' x Hj' Ne' I. destruct (Nat.eqb_spec i j') as [<-|Ne2]; [|now apply Dj].
        intros I'. destruct (Hin x I') as [I2|L]; [now apply (Di j x Hj)|].
        pose proof (seg_in _ _ _ _ _ Sj I). lia.
  Qed.

  Lemma slot_ok : forall i, 0 <= i < size -> slot size i = Ok (Z.to_nat i).
  Proof. intros i Hi. unfold slot. destruct (Z.leb_spec 0 i); [|lia]. destruct (Z.ltb_spec i size); [|lia]. reflexivity. Qed.

  (** [obsolete] on one slot. *)
  Lemma obsolete_slot_ok : forall h ad ch t i, rep h ad ch -> 0 <= i < size ->
    exists h' a, obsolete_slot size t i h = Ok h' /\ 
      rep h' (fupd ad (Z.to_nat i) a) (fupd ch (Z.to_nat i) (obsoleted t (ch (Z.to_nat i)))).
  Proof.
    intros h ad ch t i H Hi. assert (Hn : (Z.to_nat i < sz)%nat) by (unfold sz; lia).
    unfold obsolete_slot. rewrite slot_ok by auto. cbn [bind]. set (p := Z.to_nat i) in *.
    destruct (rep_head _ _ _ _ H Hn) as [tl Et]. destruct (H p Hn) as [Hseg [Hnd _]].
    pose proof Hseg as Hseg'. rewrite Et in Hseg'.
    rewrite (first_valid_ok tl h p (ch p) t) by (try exact Hseg'; rewrite <- Et; pose proof (seg_fits _ _ _ _ Hseg Hnd); lia).
    cbn [bind].
    assert (Same : exists h' a, Ok h = Ok h' /\ rep h' (fupd ad p a) (fupd ch p (ch p))).
    { exists h, (ad p). split; auto. apply rep_change with h; auto. }
    unfold obsoleted.
    assert (Hf : forall l k, first_from t l = Some k -> (k < @length cell l)%nat).
    { clear. induction l as [|[e s] l IH]; intros k E; cbn in *; [discriminate|].
      destruct (s <? t); [|injection E as <-; lia]. destruct (first_from t l); [|discriminate].
      cbn in E. injection E as <-. specialize (IH n eq_refl). lia. }
    destruct (first_from t (ch p)) as [k|] eqn:E; [|exact Same].
    specialize (Hf _ _ E). rewrite <- (seg_length _ _ _ _ Hseg) in Hf.
    rewrite <- Et. assert (E0 : p = nth 0 (ad p) O) by now rewrite Et.
    destruct k as [|k].
    - rewrite <- E0, Nat.eqb_refl. exact Same.
    - destruct (Nat.eqb_spec p (nth (S k) (ad p) O)) as [Ex|Ne].
      + exfalso. rewrite E0 in Ex at 1. apply nth_inj in Ex; auto; lia.
      + rewrite E0 in Hseg at 1.
        destruct (shift_ok h (ad p) (ch p) (S k) Hseg Hnd ltac:(lia)) as [h' [R [L [F S']]]].
        rewrite <- E0 in R, S'. exists h', [p]. split; [exact R|].
        apply rep_change with h; auto.
        * repeat constructor. auto.
        * intros x [<-|[]]. left. rewrite Et. now left.
  Qed.

  Lemma rep_ext : forall h ad ch ad' ch', rep h ad ch ->
    (forall i, (i < sz)%nat -> ad' i = ad i /\ ch' i = ch i) -> rep h ad' ch'.
  Proof.
    intros h ad ch ad' ch' H E i Hi. destruct (E i Hi) as [-> ->]. destruct (H i Hi) as [H1 [H2 H3]].
    split; auto. split; auto. intros j x Hj. destruct (E j Hj) as [-> _]. auto.
  Qed.

  Lemma obsolete_ok : forall s ad ch t, rep (nodes s) ad ch ->
    exists s' ad', obsolete size s t = Ok s' /\ rep (nodes s') ad' (fun i => obsoleted t (ch i)) /\
      next s' = next s /\ counter s' = counter s /\ calls s' = calls s.
  Proof.
    intros s ad ch t H. unfold obsolete.
    destruct (forZ_inv _ (fun i h => exists a, rep h a (fun j => if Z.of_nat j <? i then obsoleted t (ch j) else ch j))
      (obsolete_slot size t) (Z.to_nat size) 0 (nodes s)) as [h' [R [ad' Hrep]]].
    - exists ad. eapply rep_ext; [exact H|]. intros i Hi. split; auto. destruct (Z.ltb_spec (Z.of_nat i) 0); [lia|]. reflexivity.
    - intros i h Hi [a Ha]. destruct (obsolete_slot_ok h a _ t i Ha ltac:(lia)) as [h' [a' [R Hrep]]].
      exists h'. split; [exact R|]. eexists. eapply rep_ext; [exact Hrep|].
      intros j Hj. split; [reflexivity|]. unfold fupd. cbn beta. 
      destruct (Nat.eqb_spec (Z.to_nat i) j) as [<-|Ne].
      + rewrite Z2Nat.id by lia. destruct (Z.ltb_spec i (i + 1)); [|lia]. destruct (Z.ltb_spec i i); [lia|]. reflexivity.
      + destruct (Z.ltb_spec (Z.of_nat j) (i + 1)); destruct (Z.ltb_spec (Z.of_nat j) i); try lia; reflexivity.
    - rewrite R. cbn [bind]. eexists (mkCh _ _ _ _), ad'. split; [reflexivity|]. split; [|auto]. cbn [nodes].
      eapply rep_ext; [exact Hrep|]. intros i Hi. split; auto. cbn beta.
      destruct (Z.ltb_spec (Z.of_nat i) (0 + Z.of_nat (Z.to_nat size))); [reflexivity|unfold sz in Hi; lia].
  Qed.
End Rep.

(** ** [add] *)
Section Add.
  Context {A : Type}.
  Variable (size : Z) (rnd : nat -> dbl).
  Hypothesis (Hs : 1 <= size <= 2147483647) (Hr : all_closed rnd).
  Notation cell := (option A * Z)%type.
  Let sz := Z.to_nat size.

  Definition replaced (l : list cell) (e : A) (t : Z) : list cell :=
    (Some e, t) :: map (fun c : cell => (fst c, 0)) (tl l).

  (** The state [s] stores the chains [ch] and the successor indexes [nx]. *)
  Definition stored (s : @chained A) (ad : nat -> list nat) (ch : nat -> list cell) (nx : nat -> Z) : Prop :=
    rep size (nodes s) ad ch /\ length (next s) = sz /\
    forall i, (i < sz)%nat -> nth_error (next s) i = Some (nx i).

  (** The effect on the slot hit by the first half of [add]. *)
  Definition hit (o : option nat) (e : A) (t c : Z) (ch ch1 : nat -> list cell) (nx nx1 : nat -> Z) : Prop :=
    match o with
    | None => ch1 = ch /\ nx1 = nx
    | Some i => (i < sz)%nat /\ ch1 = fupd ch i (replaced (ch i) e t) /\
                exists v, nx1 = fupd nx i v /\ c + 1 <= v <= c + size
    end.

  Lemma stored_upd : forall (n : list Z) nx i v, length n = sz -> (i < sz)%nat ->
    (forall i, (i < sz)%nat -> nth_error n i = Some (nx i)) ->
    forall j, (j < sz)%nat -> nth_error (upd n i v) j = Some (fupd nx i v j).
  Proof.
    intros n nx i v L Hi H j Hj. unfold fupd. rewrite nth_error_upd. destruct (Nat.eqb_spec i j); auto.
    destruct (Nat.ltb_spec i (length n)); [reflexivity|lia].
  Qed.

  Lemma add_head_ok : forall s ad ch nx e t, stored s ad ch nx ->
    0 <= counter s -> counter s + size < 4294967296 ->
    (counter s < size -> ch (Z.to_nat (counter s)) = [(None, 0)]) ->
    exists s1 ad1 ch1 nx1, add_head size rnd s e t = Ok s1 /\ stored s1 ad1 ch1 nx1 /\ counter s1 = counter s /\
      hit (target size rnd s) e t (counter s) ch ch1 nx nx1.
  Proof.
    intros s ad ch nx e t [Hrep [Hlen Hnx]] Hc0 Hc Hfree. unfold add_head, target.
    destruct (Z.ltb_spec (counter s) size) as [Hlt|Hge].
    - rewrite (slot_ok size) by lia. cbn [bind]. set (p := Z.to_nat (counter s)).
      assert (Hp : (p < sz)%nat) by (unfold p, sz; lia). destruct (Hrep p Hp) as [Hseg [Hnd _]].
      destruct (rep_head size Hs _ _ _ _ Hrep Hp) as [tl0 Et]. specialize (Hfree Hlt). fold p in Hfree.
      pose proof Hseg as H1. rewrite Et, Hfree in H1. cbn [seg] in H1. destruct H1 as [_ [n [En H1]]].
      destruct tl0; cbn [seg] in H1; [|tauto]. subst n.
      rewrite (st_some _ _ _ _ En). cbn [bind].
      destruct (successor_ok size rnd Hs (counter s) (calls s) (Hr _) Hc0 Hc) as [v [Ev Bv]].
      rewrite Ev. cbn [bind]. rewrite wr_ok by (rewrite Hlen; unfold sz; lia). cbn [bind]. fold p.
      eexists (mkCh _ _ _ _), _, _, _. split; [reflexivity|]. cbn [counter]. split; [|split; [reflexivity|]].
      + split; [|split; [now cbn [next]; rewrite upd_length|]]; cbn [nodes next].
        * apply (rep_change size Hs (nodes s)) with (ad := ad) (ch := ch) (a := [p]) (l := replaced (ch p) e t) (i := p); auto.
          -- rewrite Hfree. cbn [replaced tl map seg]. split; auto. exists None. split; auto.
             apply nth_error_upd_same. apply nth_error_Some. congruence.
          -- repeat constructor. auto.
          -- intros x [<-|[]]. left. rewrite Et. now left.
          -- intros x _ Hx. apply nth_error_upd_other. intros ->. apply Hx. rewrite Et. now left.
        * apply stored_upd; auto.
      + cbn [hit]. split; [exact Hp|]. split; [reflexivity|]. exists v. auto.
    - destruct (dlt (rnd (calls s)) (ddiv (dofZ size) (dofZ (counter s)))) eqn:Ed.
      + destruct (offset_ok size rnd Hs (S (calls s)) (Hr _)) as [o [Eo [Bo _]]].
        rewrite Eo. cbn [bind]. rewrite (slot_ok size) by lia. cbn [bind]. set (p := Z.to_nat o).
        assert (Hp : (p < sz)%nat) by (unfold p, sz; lia). destruct (Hrep p Hp) as [Hseg [Hnd _]].
        destruct (rep_head size Hs _ _ _ _ Hrep Hp) as [tl0 Et]. 
        pose proof Hseg as H1. rewrite Et in H1, Hnd. inversion Hnd as [|? ? Np Ntl]; subst.
        destruct (ch p) as [|[x0 s0] l0] eqn:Ech; [cbn in H1; tauto|]. cbn [seg] in H1. destruct H1 as [_ [n [En H1]]].
        rewrite (ld_some _ _ _ En). cbn [bind nxt]. rewrite (st_some _ _ _ _ En). cbn [bind].
        destruct (clear_ok tl0 (upd (nodes s) p (mkNode n (Some e) t)) n l0 (S (length (upd (nodes s) p (mkNode n (Some e) t)))))
          as [h' [R [Sh [Lh Fh]]]].
        { now apply seg_upd_frame. } { exact Ntl. }
        { rewrite upd_length. pose proof (seg_fits _ _ _ _ H1 Ntl). lia. }
        rewrite R. cbn [bind].
        destruct (successor_ok size rnd Hs (counter s) (S (S (calls s))) (Hr _) Hc0 Hc) as [v [Ev Bv]].
        rewrite Ev. cbn [bind]. rewrite wr_ok by (rewrite Hlen; unfold sz; lia). cbn [bind]. fold p.
        eexists (mkCh _ _ _ _), _, _, _. split; [reflexivity|]. cbn [counter]. split; [|split; [reflexivity|]].
        * split; [|split; [now cbn [next]; rewrite upd_length|]]; cbn [nodes next].
          -- apply (rep_change size Hs (nodes s)) with (ad := ad) (ch := ch) (a := p :: tl0) (l := replaced (ch p) e t) (i := p); auto.
             ++ rewrite Ech. cbn [replaced tl seg]. split; auto. exists n. split; auto.
                rewrite Fh by auto. apply nth_error_upd_same. apply nth_error_Some. congruence.
             ++ intros x Hx. left. now rewrite Et.
             ++ intros x _ Hx. rewrite Et in Hx. rewrite Fh by (intros Hx'; apply Hx; now right).
                apply nth_error_upd_other. intros ->. apply Hx. now left.
          -- apply stored_upd; auto.
        * cbn [hit]. split; [exact Hp|]. split; [reflexivity|]. exists v. auto.
      + eexists (mkCh _ _ _ _), ad, ch, nx. split; [reflexivity|]. split; [|split; [reflexivity|]].
        * split; auto.
        * cbn. auto.
  Qed.

  (** One turn of the loop over the chains. *)
  Lemma add_chain_ok : forall s ad ch nx e t i, stored s ad ch nx -> 0 <= i < size ->
    0 <= counter s -> counter s + size < 4294967296 ->
    let p := Z.to_nat i in
    if counter s =? nx p then
      match apush 5000 (ch p) e t with
      | Some l => exists s' ad' v, add_chain size rnd e t i s = Ok s' /\
          stored s' ad' (fupd ch p l) (fupd nx p v) /\ counter s' = counter s /\
          counter s + 1 <= v <= counter s + size
      | None => add_chain size rnd e t i s = Abort
      end
    else add_chain size rnd e t i s = Ok s.
  Proof.
    intros s ad ch nx e t i [Hrep [Hlen Hnx]] Hi Hc0 Hc p. assert (Hp : (p < sz)%nat) by (unfold p, sz; lia).
    unfold add_chain. assert (E : rd (next s) i = Ok (nx p)) by (apply rd_ok_iff; split; [lia|]; apply Hnx; exact Hp).
    rewrite E. cbn [bind]. destruct (counter s =? nx p) eqn:Ec; [|reflexivity].
    rewrite (slot_ok size) by lia. cbn [bind]. fold p.
    destruct (Hrep p Hp) as [Hseg [Hnd _]]. destruct (rep_head size Hs _ _ _ _ Hrep Hp) as [tl0 Et].
    pose proof Hseg as H1. pose proof Hnd as H2. rewrite Et in H1, H2.
    pose proof (push_ok 5000 tl0 (nodes s) p (ch p) e t H1 H2) as P.
    set (k := 5000%nat) in *. clearbody k.
    destruct (apush k (ch p) e t) as [l|]; [|rewrite P; reflexivity].
    destruct P as [h' [ad' [R [Sh [Lh [Ha Fh]]]]]]. rewrite R. cbn [bind].
    destruct (successor_ok size rnd Hs (counter s) (calls s) (Hr _) Hc0 Hc) as [v [Ev Bv]].
    rewrite Ev. cbn [bind]. rewrite wr_ok by (rewrite Hlen; unfold sz; lia). cbn [bind]. fold p.
    eexists (mkCh _ _ _ _), _, v. split; [reflexivity|]. cbn [counter]. split; [|auto].
    split; [|split; [now cbn [next]; rewrite upd_length|]]; cbn [nodes next].
    - apply (rep_change size Hs (nodes s)) with (ad := ad) (ch := ch) (a := p :: ad'); auto.
      + destruct Ha as [->| ->]; [exact H2|].
        change (p :: tl0 ++ [length (nodes s)]) with ((p :: tl0) ++ [length (nodes s)]).
        rewrite <- Et in *. apply NoDup_rev in Hnd. rewrite <- (rev_involutive (ad p ++ _)).
        apply NoDup_rev. rewrite rev_app_distr. cbn [rev app]. constructor; auto.
        intros I. apply in_rev in I. pose proof (seg_in _ _ _ _ _ H1 I). lia.
      + intros x Hx. rewrite Et. destruct Ha as [->| ->]; [now left|].
        change (p :: tl0 ++ [length (nodes s)]) with ((p :: tl0) ++ [length (nodes s)]) in Hx.
        apply in_app_or in Hx. destruct Hx as [Hx|[<-|[]]]; auto.
      + intros x Hx1 Hx2. rewrite Et in Hx2. apply Fh; auto. lia.
    - apply stored_upd; auto.
  Qed.

  Definition pushes (c : Z) (nx1 : nat -> Z) (ch1 : nat -> list cell) (e : A) (t : Z) : nat -> list cell :=
    fun i => if c =? nx1 i then pushed (ch1 i) e t else ch1 i.

  Lemma add_loop_ok : forall n i s ad ch nx e t, stored s ad ch nx -> 0 <= i -> i + Z.of_nat n = size ->
    0 <= counter s -> counter s + size < 4294967296 ->
    (exists s' ad' ch' nx', forZ n i (add_chain size rnd e t) s = Ok s' /\ stored s' ad' ch' nx' /\
       counter s' = counter s /\
       forall j, (j < sz)%nat ->
         (if i <=? Z.of_nat j then
            ch' j = pushes (counter s) nx ch e t j /\
            (counter s <> nx j -> nx' j = nx j) /\
            (counter s = nx j -> counter s + 1 <= nx' j <= counter s + size /\ apush 5000 (ch j) e t <> None)
          else ch' j = ch j /\ nx' j = nx j)) \/
    (forZ n i (add_chain size rnd e t) s = Abort /\
       exists j, (j < sz)%nat /\ counter s = nx j /\ apush 5000 (ch j) e t = None).
  Proof.
    induction n as [|n IH]; intros i s ad ch nx e t Hst Hi Hn Hc0 Hc.
    - left. exists s, ad, ch, nx. split; [reflexivity|]. split; auto. split; auto.
      intros j Hj. destruct (Z.leb_spec i (Z.of_nat j)); [unfold sz in Hj; lia|]. auto.
    - cbn [forZ]. pose proof (add_chain_ok s ad ch nx e t i Hst ltac:(lia) Hc0 Hc) as P. cbv zeta in P.
      set (p := Z.to_nat i) in *. assert (Hp : (p < sz)%nat) by (unfold p, sz; lia).
      assert (Hpi : Z.of_nat p = i) by (unfold p; lia). clearbody p.
      set (K := 5000%nat) in *.
      destruct (counter s =? nx p) eqn:Ec.
      + apply Z.eqb_eq in Ec. destruct (apush K (ch p) e t) as [l|] eqn:El.
        * destruct P as [s1 [ad1 [v [R [Hst1 [C1 Bv]]]]]]. rewrite R. cbn [bind].
          destruct (IH (i + 1) s1 ad1 (fupd ch p l) (fupd nx p v) e t Hst1 ltac:(lia) ltac:(lia) ltac:(lia) ltac:(lia))
            as [[s' [ad' [ch' [nx' [R' [Hst' [C' HJ]]]]]]]|[R' [j [Hj [Cj Aj]]]]].
          -- left. exists s', ad', ch', nx'. split; [exact R'|]. split; [exact Hst'|]. split; [lia|].
             intros j Hj. specialize (HJ j Hj). unfold pushes, fupd in *. rewrite C1 in HJ.
             destruct (Nat.eqb_spec p j) as [Ej|Ne]; [subst j|].
             ++ destruct (Z.leb_spec (i + 1) (Z.of_nat p)); [lia|].
                destruct (Z.leb_spec i (Z.of_nat p)); [|lia].
                destruct HJ as [-> ->]. rewrite Ec, Z.eqb_refl. rewrite <- Ec.
                split; [apply (apush_pushed K); exact El|]. split; [lia|]. intros _. split; [lia|congruence].
             ++ destruct (Z.leb_spec (i + 1) (Z.of_nat j)); destruct (Z.leb_spec i (Z.of_nat j)); try exact HJ; lia.
          -- right. split; [exact R'|]. exists j. split; [exact Hj|]. rewrite C1 in Cj. unfold fupd in *.
             destruct (Nat.eqb_spec p j) as [<-|Ne]; [lia|]. auto.
        * right. rewrite P. split; [reflexivity|]. exists p. auto.
      + apply Z.eqb_neq in Ec. rewrite P. cbn [bind].
        destruct (IH (i + 1) s ad ch nx e t Hst ltac:(lia) ltac:(lia) ltac:(lia) ltac:(lia))
          as [[s' [ad' [ch' [nx' [R' [Hst' [C' HJ]]]]]]]|[R' [j [Hj [Cj Aj]]]]].
        * left. exists s', ad', ch', nx'. split; [exact R'|]. split; [exact Hst'|]. split; [lia|].
          intros j Hj. specialize (HJ j Hj). unfold pushes in *.
          destruct (Nat.eq_dec p j) as [<-|Ne].
          -- destruct (Z.leb_spec (i + 1) (Z.of_nat p)); [lia|].
             destruct (Z.leb_spec i (Z.of_nat p)); [|lia].
             destruct HJ as [-> ->]. destruct (Z.eqb_spec (counter s) (nx p)); [lia|]. split; [reflexivity|]. split; [reflexivity|lia].
          -- destruct (Z.leb_spec (i + 1) (Z.of_nat j)); destruct (Z.leb_spec i (Z.of_nat j)); try exact HJ; lia.
        * right. split; [exact R'|]. exists j. auto.
  Qed.

  Lemma add_step : forall s ad ch nx e t, stored s ad ch nx ->
    0 <= counter s -> counter s + size < 4294967296 ->
    (counter s < size -> ch (Z.to_nat (counter s)) = [(None, 0)]) ->
    exists ch1 nx1, hit (target size rnd s) e t (counter s) ch ch1 nx nx1 /\
     ((exists s' ad' nx', add size rnd s e t = Ok s' /\
         stored s' ad' (pushes (counter s) nx1 ch1 e t) nx' /\ counter s' = counter s + 1 /\
         forall j, (j < sz)%nat ->
            (counter s <> nx1 j -> nx' j = nx1 j) /\
            (counter s = nx1 j -> counter s + 1 <= nx' j <= counter s + size /\ apush 5000 (ch1 j) e t <> None)) \/
      (add size rnd s e t = Abort /\
         exists j, (j < sz)%nat /\ counter s = nx1 j /\ apush 5000 (ch1 j) e t = None)).
  Proof.
    intros s ad ch nx e t Hst Hc0 Hc Hfree.
    destruct (add_head_ok s ad ch nx e t Hst Hc0 Hc Hfree) as [s1 [ad1 [ch1 [nx1 [R [Hst1 [C1 Hhit]]]]]]].
    exists ch1, nx1. split; [exact Hhit|]. unfold add. rewrite R. cbn [bind].
    destruct (add_loop_ok (Z.to_nat size) 0 s1 ad1 ch1 nx1 e t Hst1 ltac:(lia) ltac:(lia) ltac:(lia) ltac:(lia))
      as [[s' [ad' [ch' [nx' [R' [Hst' [C' HJ]]]]]]]|[R' HA]]; rewrite R'; cbn [bind]; rewrite C1 in *.
    - left. eexists (mkCh _ _ _ _), ad', nx'. split; [reflexivity|]. cbn [counter]. split; [|split].
      + destruct Hst' as [H1 H2]. split; [|exact H2]. eapply rep_ext; [exact H1|].
        intros i Hi. split; auto. specialize (HJ i Hi). destruct (Z.leb_spec 0 (Z.of_nat i)); [|lia].
        symmetry. tauto.
      + rewrite C'. apply u32_small. lia.
      + intros j Hj. specialize (HJ j Hj). destruct (Z.leb_spec 0 (Z.of_nat j)); [|lia]. tauto.
    - right. split; auto.
  Qed.
End Add.

(** ** Histories *)
Section Hist.
  Context {A : Type}.
  Variable (size : Z) (rnd : nat -> dbl).
  Hypothesis (Hs : 1 <= size <= 2147483647) (Hr : all_closed rnd).
  Notation cell := (option A * Z)%type.
  Let sz := Z.to_nat size.

  (** The last live cell of the chain holds a stream element that arrived at most
      [size] adds before [v]. *)
  Definition recent (str : list (A * Z)) (cl : Prop) (l : list cell) (v : Z) : Prop :=
    exists j e t, nth_error str j = Some (e, t) /\ v <= Z.of_nat j + size /\
      ((exists live dead, l = live ++ (Some e, t) :: dead /\ (forall c, In c live -> snd c <> 0) /\
          (forall c, In c dead -> snd c = 0) /\ (cl -> dead = [])) \/
       (exists x, l = [(x, 0)] /\ (cl -> x = Some e))).

  Definition from (str : list (A * Z)) (l : list cell) : Prop :=
    forall x st, In (x, st) l -> exists e t, x = Some e /\ In (e, t) str /\ (st = 0 \/ st = t).

  Definition W (str : list (A * Z)) (cl : Prop) (s : @chained A) ad ch nx : Prop :=
    stored size s ad ch nx /\ counter s = Z.of_nat (length str) /\
    forall i, (i < sz)%nat ->
      (counter s <= Z.of_nat i -> ch i = [(None, 0)] /\ nx i = 4294967294) /\
      (Z.of_nat i < counter s ->
         counter s <= nx i <= counter s + size - 1 /\
         1 <= Z.of_nat (length (ch i)) <= counter s - Z.of_nat i /\
         from str (ch i) /\ (stamps_ok str -> recent str cl (ch i) (nx i))).

  Lemma from_more : forall str str' l, from str l -> from (str ++ str') l.
  Proof.
    intros str str' l H x st I. destruct (H x st I) as [e [t [E [J K]]]]. exists e, t.
    split; auto. split; auto. apply in_or_app. now left.
  Qed.

  Lemma nth_error_more : forall B (l l' : list B) j x, nth_error l j = Some x -> nth_error (l ++ l') j = Some x.
  Proof. intros B l l' j x H. rewrite nth_error_app1; auto. apply nth_error_Some. congruence. Qed.

  Lemma recent_more : forall str str' (cl cl' : Prop) l v, (cl' -> cl) -> recent str cl l v -> recent (str ++ str') cl' l v.
  Proof.
    intros str str' cl cl' l v Hcl [j [e [t [Hj [Hv H]]]]]. exists j, e, t. split; [now apply nth_error_more|]. split; auto.
    destruct H as [[lv [dd [E [L [D C]]]]]|[x [E C]]]; [left|right].
    - exists lv, dd. split; auto.
    - exists x. auto.
  Qed.

  Lemma nth_error_last : forall B (l : list B) x, nth_error (l ++ [x]) (length l) = Some x.
  Proof. intros. rewrite nth_error_app2 by lia. rewrite Nat.sub_diag. reflexivity. Qed.

  Lemma from_replaced : forall str l e t, from str (tl l) -> from (str ++ [(e, t)]) (replaced l e t).
  Proof.
    intros str l e t H x st [E|I].
    - injection E as <- <-. exists e, t. split; auto. split; auto. apply in_or_app. right. now left.
    - apply in_map_iff in I. destruct I as [[y s'] [E I]]. cbn in E. injection E as <- <-.
      destruct (H y s' I) as [e' [t' [-> [J _]]]]. exists e', t'. split; auto. split; auto. apply in_or_app. now left.
  Qed.

  Lemma recent_replaced : forall str (cl : Prop) l e t v, (cl -> tl l = []) -> v <= Z.of_nat (length str) + size ->
    recent (str ++ [(e, t)]) cl (replaced l e t) v.
  Proof.
    intros str cl l e t v Hcl Hv. exists (length str), e, t. split; [apply nth_error_last|]. split; [exact Hv|].
    left. exists [], (map (fun c : cell => (fst c, 0)) (tl l)). split; [reflexivity|]. split; [intros c []|]. split.
    - intros c I. apply in_map_iff in I. destruct I as [c0 [<- _]]. reflexivity.
    - intros C. rewrite Hcl by auto. reflexivity.
  Qed.

  Lemma from_pushed : forall str l e t, from str l -> from (str ++ [(e, t)]) (pushed l e t).
  Proof.
    intros str. induction l as [|[x s] l IH]; intros e t H y st I; cbn [pushed] in I.
    - destruct I as [E|[]]. injection E as <- <-. exists e, t. split; auto. split; auto. apply in_or_app. right. now left.
    - assert (Hl : from str l) by (intros z sz' J; apply H; now right).
      destruct (s =? 0).
      + destruct I as [E|I].
        * injection E as <- <-. exists e, t. split; auto. split; auto. apply in_or_app. right. now left.
        * apply (from_more str [(e, t)] l Hl). exact I.
      + destruct I as [E|I].
        * apply (from_more str [(e, t)] ((x, s) :: l) H). now left.
        * now apply IH.
  Qed.

  Lemma pushed_live : forall live rest e t, (forall c : cell, In c live -> snd c <> 0) ->
    pushed (live ++ rest) e t = live ++ pushed rest e t.
  Proof.
    induction live as [|[x s] live IH]; intros rest e t H; cbn; auto.
    destruct (Z.eqb_spec s 0) as [->|N]; [exfalso; apply (H (x, 0)); [now left|reflexivity]|].
    f_equal. apply IH. intros c I. apply H. now right.
  Qed.

  Lemma recent_pushed : forall str (cl : Prop) l e t v v', stamps_ok str -> recent str cl l v ->
    v' <= Z.of_nat (length str) + size -> recent (str ++ [(e, t)]) cl (pushed l e t) v'.
  Proof.
    intros str cl l e t v v' Hok [j [ej [tj [Hj [Hv H]]]]] Hv'. exists (length str), e, t.
    split; [apply nth_error_last|]. split; [exact Hv'|]. left.
    destruct H as [[lv [dd [E [L [D C]]]]]|[x [E C]]]; subst l.
    - assert (Ht : tj <> 0). { apply nth_error_In in Hj. apply Hok in Hj. lia. }
      assert (L2 : forall c, In c (lv ++ [(Some ej, tj)]) -> snd c <> 0).
      { intros c I. apply in_app_or in I. destruct I as [I|[<-|[]]]; auto. }
      replace (lv ++ (Some ej, tj) :: dd) with ((lv ++ [(Some ej, tj)]) ++ dd) by now rewrite <- app_assoc.
      rewrite pushed_live by exact L2.
      destruct dd as [|[y s] dd]; cbn [pushed].
      + exists (lv ++ [(Some ej, tj)]), []. split; [reflexivity|]. split; [exact L2|]. split; [intros c []|reflexivity].
      + assert (s = 0) by (apply (D (y, s)); now left). subst s. cbn.
        exists (lv ++ [(Some ej, tj)]), dd. split; [reflexivity|]. split; [exact L2|]. split; [intros c I; apply D; now right|].
        intros Cl. specialize (C Cl). discriminate.
    - cbn. exists [], []. split; [reflexivity|]. split; [intros c []|]. split; [intros c []|reflexivity].
  Qed.

  Lemma from_obsoleted : forall str t l, l <> [] -> from str l -> from str (obsoleted t l).
  Proof.
    intros str t l Hl H. unfold obsoleted. destruct (first_from t l) as [[|k]|]; auto.
    assert (I : In (last l (None, 0)) l).
    { clear H. induction l as [|c [|c' l] IH]; [congruence|now left|]. right. apply IH. discriminate. }
    destruct (last l (None, 0)) as [x s] eqn:E. intros y st [Ey|[]]. cbn in Ey. injection Ey as <- <-.
    destruct (H x s I) as [e [t' [-> [J K]]]]. exists e, t'. split; auto. split; auto.
    match goal with |- (if ?b then _ else _) = _ \/ _ => destruct b; auto end.
  Qed.

  Lemma obsoleted_length : forall t (l : list cell), (1 <= length l -> 1 <= length (obsoleted t l) <= length l)%nat.
  Proof. intros t l H. unfold obsoleted. destruct (first_from t l) as [[|k]|]; cbn [length]; lia. Qed.

  Lemma last_app_cell : forall (a b : list cell) c d, last (a ++ c :: b) d = last (c :: b) d.
  Proof. induction a as [|x a IH]; intros b c d; auto. cbn [app]. rewrite <- (IH b c d). destruct a; reflexivity. Qed.

  Lemma recent_obsoleted : forall str (cl : Prop) l v t, recent str cl l v -> recent str cl (obsoleted t l) v.
  Proof.
    intros str cl l v t H. pose proof H as [j [e [te [Hj [Hv Hsh]]]]]. unfold obsoleted.
    destruct (first_from t l) as [[|k]|] eqn:Ef; auto.
    destruct Hsh as [[lv [dd [E [L [D C]]]]]|[x [E C]]].
    - exists j, e, te. split; auto. split; auto.
      assert (El : last l (None, 0) = last ((Some e, te) :: dd) (None, 0)) by (rewrite E; apply last_app_cell).
      rewrite El. destruct dd as [|d dd].
      + cbn [last fst snd]. destruct (Nat.ltb (length l) (2 * S k + 1)).
        * right. exists (Some e). auto.
        * left. exists [], []. split; [reflexivity|]. split; [intros c []|]. split; [intros c []|reflexivity].
      + right.
        assert (Hl : snd (last ((Some e, te) :: d :: dd) (None, 0)) = 0).
        { apply D. change (In (last (d :: dd) (None, 0)) (d :: dd)). clear. revert d.
          induction dd as [|c dd IH]; intros d; [now left|]. right. apply IH. }
        rewrite Hl. exists (fst (last ((Some e, te) :: d :: dd) (None, 0))). split.
        * destruct (Nat.ltb (length l) (2 * S k + 1)); reflexivity.
        * intros Cl. specialize (C Cl). discriminate.
    - subst l. cbn [first_from] in Ef. destruct (0 <? t); discriminate.
  Qed.

  Lemma W_obsolete : forall str cl s ad ch nx t, W str cl s ad ch nx ->
    exists s' ad', obsolete size s t = Ok s' /\ W str cl s' ad' (fun i => obsoleted t (ch i)) nx.
  Proof.
    intros str cl s ad ch nx t [[Hrep [Hlen Hnx]] [Hc Hsl]].
    destruct (obsolete_ok size Hs s ad ch t Hrep) as [s' [ad' [R [Hrep' [En [Ec _]]]]]].
    exists s', ad'. split; [exact R|]. split; [|split].
    - split; [exact Hrep'|]. rewrite En. split; auto.
    - congruence.
    - intros i Hi. rewrite Ec. destruct (Hsl i Hi) as [H1 H2]. split.
      + intros Hci. destruct (H1 Hci) as [-> ->]. split; auto. unfold obsoleted. cbn. destruct (0 <? t); reflexivity.
      + intros Hci. destruct (H2 Hci) as [B1 [B2 [B3 B4]]]. split; auto.
        assert (Ln : (1 <= length (ch i))%nat) by lia. pose proof (obsoleted_length t (ch i) Ln). split; [lia|].
        split.
        * apply from_obsoleted; auto. destruct (ch i); [cbn in Ln; lia|discriminate].
        * intros Hok. apply recent_obsoleted. auto.
  Qed.

  Lemma stamps_prefix : forall (str str' : list (A * Z)), stamps_ok (str ++ str') -> stamps_ok str.
  Proof. intros str str' H e t I. apply (H e t). apply in_or_app. now left. Qed.

  Lemma W_add : forall str (cl : Prop) s ad ch nx e t, W str cl s ad ch nx ->
    Z.of_nat (length str) + size < 4294967296 ->
    (exists s' ad' ch' nx', add size rnd s e t = Ok s' /\
       W (str ++ [(e, t)])
         (cl /\ forall i n, target size rnd s = Some i -> nth_error (nodes s) i = Some n -> nxt n = None)
         s' ad' ch' nx' /\
       (forall i, target size rnd s = Some i -> (i < sz)%nat /\ hd_error (ch' i) = Some (Some e, t)) /\
       (forall i x st, target size rnd s <> Some i -> hd_error (ch i) = Some (x, st) -> st <> 0 ->
          hd_error (ch' i) = Some (x, st))) \/
    (add size rnd s e t = Abort /\ 5001 <= Z.of_nat (length str)).
  Proof.
    intros str cl s ad ch nx e t [Hst [Hc Hsl]] Hb. pose proof Hst as [Hrep _].
    assert (Hfree : counter s < size -> ch (Z.to_nat (counter s)) = [(None, 0)]).
    { intros Hlt. apply Hsl; unfold sz; lia. }
    destruct (add_step size rnd Hs Hr s ad ch nx e t Hst) as [ch1 [nx1 [Hhit Hres]]]; try lia; auto.
    assert (Htgt : counter s < size -> target size rnd s = Some (Z.to_nat (counter s))).
    { intros Hlt. unfold target. destruct (Z.ltb_spec (counter s) size); [reflexivity|lia]. }
    set (cl' := cl /\ forall i n, target size rnd s = Some i -> nth_error (nodes s) i = Some n -> nxt n = None).
    set (str' := str ++ [(e, t)]).
    assert (Hlen' : Z.of_nat (length str') = counter s + 1) by (unfold str'; rewrite app_length; cbn; lia).
    (* the state of each slot after the first half *)
    assert (Hmid : forall i, (i < sz)%nat ->
      (counter s + 1 <= Z.of_nat i -> ch1 i = [(None, 0)] /\ nx1 i = 4294967294) /\
      (Z.of_nat i < counter s + 1 ->
         counter s <= nx1 i <= counter s + size /\
         1 <= Z.of_nat (length (ch1 i)) <= counter s + 1 - Z.of_nat i /\
         (nx1 i = counter s -> Z.of_nat (length (ch1 i)) <= counter s - Z.of_nat i /\
             from str (ch1 i) /\ (stamps_ok str -> recent str cl (ch1 i) (nx1 i))) /\
         (nx1 i <> counter s -> from str' (ch1 i) /\ (stamps_ok str' -> recent str' cl' (ch1 i) (nx1 i))))).
    { intros i Hi. destruct (Hsl i Hi) as [H1 H2].
      assert (Hold : Z.of_nat i < counter s -> ch1 i = ch i -> nx1 i = nx i ->
         counter s <= nx1 i <= counter s + size /\
         1 <= Z.of_nat (length (ch1 i)) <= counter s + 1 - Z.of_nat i /\
         (nx1 i = counter s -> Z.of_nat (length (ch1 i)) <= counter s - Z.of_nat i /\
             from str (ch1 i) /\ (stamps_ok str -> recent str cl (ch1 i) (nx1 i))) /\
         (nx1 i <> counter s -> from str' (ch1 i) /\ (stamps_ok str' -> recent str' cl' (ch1 i) (nx1 i)))).
      { intros Hci -> ->. destruct (H2 Hci) as [B1 [B2 [B3 B4]]]. split; [lia|]. split; [lia|]. split.
        - intros _. split; [lia|]. auto.
        - intros _. split; [now apply from_more|]. intros Hok.
          apply (recent_more str _ cl cl'); [unfold cl'; tauto|]. apply B4. now apply stamps_prefix with [(e, t)]. }
      unfold hit in Hhit. destruct (target size rnd s) as [p|] eqn:Ep.
      - destruct Hhit as [Hp [-> [v [-> Bv]]]].
        assert (Hps : (p < sz)%nat) by exact Hp.
        assert (Hpc : Z.of_nat p <= counter s).
        { destruct (Z.lt_ge_cases (counter s) size) as [Hlt|Hge].
          - pose proof (Htgt Hlt). assert (p = Z.to_nat (counter s)) by congruence. lia.
          - unfold sz in Hps. lia. }
        assert (Hfp : Z.of_nat p = counter s -> ch p = [(None, 0)]).
        { intros Epc. apply (Hsl p Hps). lia. }
        unfold fupd. destruct (Nat.eqb_spec p i) as [Epi|Ne].
        + subst i. split; [lia|]. intros _.
          assert (Hn1 : 1 <= Z.of_nat (length (ch p)) <= Z.max 1 (counter s - Z.of_nat p)).
          { destruct (Z.eq_dec (Z.of_nat p) (counter s)) as [Eq|Nq].
            - rewrite Hfp by auto. cbn. lia.
            - destruct (H2 ltac:(lia)) as [_ [B2 _]]. lia. }
          assert (Lr : length (replaced (ch p) e t) = length (ch p)).
          { unfold replaced. cbn [length]. rewrite map_length. destruct (ch p); cbn [tl length] in *; [lia|reflexivity]. }
          rewrite Lr. split; [lia|]. split; [lia|]. split; [lia|]. intros _. split.
          * apply from_replaced. destruct (Z.eq_dec (Z.of_nat p) (counter s)) as [Eq|Nq].
            -- rewrite Hfp by auto. intros x st [].
            -- destruct (H2 ltac:(lia)) as [_ [_ [B3 _]]]. intros x st I. apply B3. destruct (ch p); [destruct I|now right].
          * intros _. apply recent_replaced; [|lia]. unfold cl'. intros [_ Hcl].
            destruct (Hrep p Hps) as [Hseg _]. destruct (rep_head size Hs _ _ _ _ Hrep Hps) as [tl0 Et]. rewrite Et in Hseg.
            destruct (ch p) as [|[x0 s0] l0]; [reflexivity|]. cbn [seg] in Hseg. destruct Hseg as [_ [n [En Hseg]]].
            specialize (Hcl p _ eq_refl En). cbn in Hcl. subst n. cbn [tl].
            destruct tl0; destruct l0 as [|[? ?] ?]; cbn in Hseg; try tauto. destruct Hseg; discriminate.
        + split.
          * intros Hci. apply H1. lia.
          * intros Hci. assert (Hlt : Z.of_nat i < counter s).
            { destruct (Z.eq_dec (Z.of_nat i) (counter s)) as [Eq|]; [|lia]. exfalso.
              assert (L : counter s < size) by (unfold sz in Hi; lia). pose proof (Htgt L). assert (p = Z.to_nat (counter s)) by congruence. lia. }
            unfold fupd in Hold. destruct (Nat.eqb_spec p i); [lia|]. exact (Hold Hlt eq_refl eq_refl).
      - destruct Hhit as [-> ->]. split.
        + intros Hci. apply H1. lia.
        + intros Hci. assert (Hlt : Z.of_nat i < counter s).
          { destruct (Z.eq_dec (Z.of_nat i) (counter s)) as [Eq|]; [|lia]. exfalso.
            assert (L : counter s < size) by (unfold sz in Hi; lia). pose proof (Htgt L). congruence. }
          exact (Hold Hlt eq_refl eq_refl). }
    destruct Hres as [[s' [ad' [nx' [R [Hst' [Hc' HJ]]]]]]|[R [j [Hj [Cj Aj]]]]].
    - left. exists s', ad', (pushes (counter s) nx1 ch1 e t), nx'. split; [exact R|]. split.
      + split; [exact Hst'|]. split; [lia|].
        intros i Hi. destruct (Hmid i Hi) as [M1 M2]. destruct (HJ i Hi) as [J1 J2]. rewrite Hc'. unfold pushes. split.
        * intros Hci. destruct (M1 Hci) as [E1 E2]. destruct (Z.eqb_spec (counter s) (nx1 i)) as [Eq|Nq]; [unfold sz in Hi; lia|].
          split; auto. rewrite J1; auto.
        * intros Hci. destruct (M2 Hci) as [B1 [B2 [B3 B4]]].
          destruct (Z.eqb_spec (counter s) (nx1 i)) as [Eq|Nq].
          -- destruct (J2 Eq) as [Bn _]. destruct B3 as [C1 [C2 C3]]; [lia|]. split; [lia|].
             pose proof (pushed_length (ch1 i) e t). split; [lia|]. split; [now apply from_pushed|].
             intros Hok.
             assert (Hok1 : stamps_ok str) by now apply stamps_prefix with [(e, t)].
             pose proof (recent_pushed str cl (ch1 i) e t (nx1 i) (nx' i) Hok1 (C3 Hok1)) as RP.
             specialize (RP ltac:(lia)). rewrite <- (app_nil_r str'). apply (recent_more str' [] cl cl'); [unfold cl'; tauto|exact RP].
          -- rewrite J1 by auto. destruct B4 as [C1 C2]; [lia|]. split; [lia|]. split; [lia|]. auto.
      + split.
        * intros i Ei. rewrite Ei in Hhit. cbn [hit] in Hhit. destruct Hhit as [Hi [-> [v [-> Bv]]]]. split; [exact Hi|].
          unfold pushes, fupd. rewrite Nat.eqb_refl. destruct (Z.eqb_spec (counter s) v); [lia|]. reflexivity.
        * intros i x st Ni Ex Hx.
          assert (E1 : ch1 i = ch i).
          { unfold hit in Hhit. destruct (target size rnd s) as [p|]; destruct Hhit as [H1 H2]; [|now rewrite H1].
            destruct H2 as [-> _]. unfold fupd. destruct (Nat.eqb_spec p i); [congruence|reflexivity]. }
          unfold pushes. rewrite E1. destruct (counter s =? nx1 i); [|exact Ex].
          destruct (ch i) as [|[y sy] l0]; [discriminate|]. cbn in Ex. injection Ex as -> ->.
          cbn [pushed]. destruct (Z.eqb_spec st 0); [congruence|]. reflexivity.
    - right. split; [exact R|].
      destruct (Hmid j Hj) as [M1 M2].
      destruct (Z.lt_ge_cases (Z.of_nat j) (counter s + 1)) as [Hlt|Hge].
      + destruct (M2 Hlt) as [B1 [B2 [B3 _]]]. destruct B3 as [C1 _]; [lia|].
        destruct (Nat.le_gt_cases (length (ch1 j)) 5000) as [Hle|Hgt].
        * rewrite apush_short in Aj; [discriminate| |exact Hle]. destruct (ch1 j); [cbn in B2; lia|discriminate].
        * assert (Hgt' : 5001 <= Z.of_nat (length (ch1 j))).
          { apply Nat2Z.inj_lt in Hgt. change (Z.of_nat 5000) with 5000 in Hgt. lia. }
          lia.
      + destruct (M1 ltac:(lia)) as [E1 E2]. unfold sz in Hj. lia.
  Qed.

  Lemma W_mono : forall str (cl cl' : Prop) s ad ch nx, (cl' -> cl) -> W str cl s ad ch nx -> W str cl' s ad ch nx.
  Proof.
    intros str cl cl' s ad ch nx Hcl [H1 [H2 H3]]. split; auto. split; auto. intros i Hi.
    destruct (H3 i Hi) as [H4 H5]. split; auto. intros Hc. destruct (H5 Hc) as [B1 [B2 [B3 B4]]].
    split; auto. split; auto. split; auto. intros Hok. rewrite <- (app_nil_r str). apply (recent_more str [] cl cl'); auto.
  Qed.

  Lemma W_init : W [] True (ch_init size) (fun i => [i]) (fun _ => [(None, 0)]) (fun _ => 4294967294).
  Proof.
    split; [split; [|split]|split].
    - intros i Hi. cbn [nodes ch_init]. split; [|split].
      + cbn [seg]. split; auto. exists None. split; auto. now apply nth_error_repeat.
      + repeat constructor. auto.
      + intros j x Hj N [<-|[]] [E|[]]. lia.
    - cbn [next ch_init]. apply repeat_length.
    - intros i Hi. cbn [next ch_init]. now apply nth_error_repeat.
    - reflexivity.
    - intros i Hi. cbn [counter ch_init]. split; [auto|lia].
  Qed.

  Lemma W_run : forall l str (cl : Prop) s ad ch nx, W str cl s ad ch nx ->
    Z.of_nat (length str + length (added l)) + size < 4294967296 ->
    (exists s' ad' ch' nx', ch_run size rnd s l = Ok s' /\ W (str ++ added l) (cl /\ clean size rnd s l) s' ad' ch' nx') \/
    (ch_run size rnd s l = Abort /\ 5002 <= Z.of_nat (length str + length (added l))).
  Proof.
    induction l as [|[e t|t] l IH]; intros str cl s ad ch nx HW Hb.
    - left. exists s, ad, ch, nx. split; [reflexivity|]. cbn [added]. rewrite app_nil_r. revert HW. apply W_mono. tauto.
    - cbn [added length] in Hb. cbn [ch_run do_call].
      destruct (W_add str cl s ad ch nx e t HW) as [[s1 [ad1 [ch1 [nx1 [R [HW1 _]]]]]]|[R Hn]]; [lia| |].
      + rewrite R. cbn [bind]. destruct (IH _ _ _ _ _ _ HW1) as [[s' [ad' [ch' [nx' [R' HW']]]]]|[R' Hn]].
        * rewrite app_length. cbn [length]. lia.
        * left. exists s', ad', ch', nx'. split; [exact R'|]. cbn [added]. rewrite <- app_assoc in HW'. cbn [app] in HW'.
          revert HW'. apply W_mono. intros [C1 [C2 C3]]. split; [|apply C3; exact R]. split; [exact C1|exact C2].
        * right. split; [exact R'|]. rewrite app_length in Hn. cbn [added length] in *. lia.
      + right. rewrite R. split; [reflexivity|]. cbn [added length]. lia.
    - cbn [added] in Hb. cbn [ch_run do_call].
      destruct (W_obsolete str cl s ad ch nx t HW) as [s1 [ad1 [R HW1]]].
      rewrite R. cbn [bind]. destruct (IH _ _ _ _ _ _ HW1 Hb) as [[s' [ad' [ch' [nx' [R' HW']]]]]|[R' Hn]].
      + left. exists s', ad', ch', nx'. split; [exact R'|]. cbn [added].
        revert HW'. apply W_mono. intros [C1 [C2 C3]]. split; [exact C1|apply C3; exact R].
      + right. split; [exact R'|]. exact Hn.
  Qed.

  Lemma get_head : forall (s : @chained A) ad ch nx i, stored size s ad ch nx -> 0 <= i < size ->
    get size s i = match hd_error (ch (Z.to_nat i)) with
                   | Some (Some e, _) => Ok e
                   | _ => Undef Uninitialised
                   end.
  Proof.
    intros s ad ch nx i [Hrep _] Hi. unfold get. rewrite slot_ok by lia. cbn [bind].
    assert (Hp : (Z.to_nat i < Z.to_nat size)%nat) by lia. destruct (Hrep _ Hp) as [Hseg _].
    destruct (rep_head size Hs _ _ _ _ Hrep Hp) as [tl0 Et]. rewrite Et in Hseg.
    destruct (ch (Z.to_nat i)) as [|[x t] l]; [cbn in Hseg; tauto|]. cbn [seg] in Hseg. destruct Hseg as [_ [n [En _]]].
    rewrite (ld_some _ _ _ En). cbn [bind element hd_error]. reflexivity.
  Qed.

  Lemma stored_linked : forall (s : @chained A) ad ch nx i, stored size s ad ch nx -> (i < sz)%nat -> linked (nodes s) (Some i) (ch i).
  Proof. intros s ad ch nx i [Hrep _] Hi. destruct (Hrep i Hi) as [Hseg _]. now apply seg_linked in Hseg. Qed.
End Hist.

(** ** The window *)
Section Window.
  Context {A : Type}.
  Variable (size : Z) (rnd : nat -> dbl).
  Hypothesis (Hs : 1 <= size <= 2147483647) (Hr : all_closed rnd).
  Notation cell := (option A * Z)%type.
  Let sz := Z.to_nat size.

  Lemma first_from_last : forall t (a : list cell) c, t <= snd c -> exists k, first_from t (a ++ [c]) = Some k.
  Proof.
    induction a as [|[x s] a IH]; intros [y u] H; cbn in *.
    - destruct (Z.ltb_spec u t); [lia|]. eauto.
    - destruct (s <? t); [|eauto]. destruct (IH (y, u) H) as [k ->]. cbn. eauto.
  Qed.

  Lemma window_slot : forall (str : list (A * Z)) (cl : Prop) l v t c, stamps_ok str -> from str l -> recent size str cl l v ->
    c = Z.of_nat (length str) -> c <= v -> last_from str size t ->
    (cl \/ forall c, In c l -> snd c <> 0) ->
    exists e st u, hd_error (obsoleted t l) = Some (Some e, st) /\ In (e, u) str /\ t <= u.
  Proof.
    intros str cl l v t c Hok Hfrom [j [e [te [Hj [Hv Hsh]]]]] Ec Hcv [Hl1 Hl2] Hcl.
    assert (Hte : t <= te) by (apply (Hl2 j e te); [lia|exact Hj]).
    assert (Hin : In (e, te) str) by now apply nth_error_In in Hj.
    assert (Key : (exists lv, l = lv ++ [(Some e, te)]) \/ l = [(Some e, 0)]).
    { destruct Hsh as [[lv [dd [E [L [D C]]]]]|[x [E C]]].
      - left. exists lv. destruct Hcl as [Hc|Hz]; [now rewrite E, C|].
        destruct dd as [|d dd]; [exact E|]. exfalso. apply (Hz d); [|apply D; now left].
        rewrite E. apply in_or_app. right. right. now left.
      - destruct Hcl as [Hc|Hz]; [right; now rewrite E, C|]. exfalso. apply (Hz (x, 0)); [|reflexivity].
        rewrite E. now left. }
    destruct Key as [[lv E]|E].
    - destruct (first_from_last t lv (Some e, te) Hte) as [k Ek]. rewrite <- E in Ek. unfold obsoleted. rewrite Ek.
      destruct k as [|k].
      + destruct l as [|[x s] l0]; [discriminate|]. cbn [first_from] in Ek. destruct (Z.ltb_spec s t) as [|Hst].
        { destruct (first_from t l0); discriminate. }
        destruct (Hfrom x s (or_introl eq_refl)) as [e' [t' [-> [I K]]]]. exists e', s, t'. split; [reflexivity|]. split; [exact I|].
        pose proof (Hok _ _ I). lia.
      + rewrite E. rewrite (last_app_cell lv [] (Some e, te)). cbn [last fst snd hd_error]. eexists e, _, te. split; [reflexivity|]. auto.
    - subst l. assert (Eo : obsoleted t [(Some e, 0)] = [(Some e, 0)]).
      { unfold obsoleted. cbn. destruct (0 <? t); reflexivity. }
      rewrite Eo. exists e, 0, te. auto.
  Qed.
End Window.

(** ** One slot, draws of at least one half: every add lengthens the chain. *)
Section Long.
  Context {A : Type}.
  Variable rnd : nat -> dbl.
  Hypothesis Hr : forall k, unit_open (rnd k) /\ (/ 2 <= B2R (rnd k))%R.
  Notation cell := (option A * Z)%type.

  Let Hcl : all_closed rnd.
  Proof. intros k. destruct (Hr k) as [H _]. now apply unit_open_closed. Qed.
  Let H1 : 1 <= 1 <= 2147483647.
  Proof. lia. Qed.

  Lemma apush_full : forall k (l : list cell) e t, (forall c, In c l -> snd c <> 0) -> (k < length l)%nat ->
    apush k l e t = None.
  Proof.
    induction k as [|k IH]; intros [|[x s] l] e t Hz L; cbn [length] in L; try lia; [reflexivity|].
    cbn [apush]. destruct (Z.eqb_spec s 0) as [->|_]; [exfalso; apply (Hz (x, 0)); [now left|reflexivity]|].
    destruct l as [|c l]; [cbn in L; lia|]. rewrite IH; [reflexivity| |lia]. intros d I. apply Hz. now right.
  Qed.

  Lemma pushed_full : forall (l : list cell) e t, (forall c, In c l -> snd c <> 0) -> pushed l e t = l ++ [(Some e, t)].
  Proof. intros l e t Hz. rewrite <- (app_nil_r l) at 1. rewrite pushed_live by exact Hz. reflexivity. Qed.

  Lemma half_le : forall c, 2 <= c < 4294967296 -> forall k, dlt (rnd k) (ddiv (dofZ 1) (dofZ c)) = false.
  Proof.
    intros c Hc k. destruct (Hr k) as [[Fr _] Hh]. destruct (ddivZ 1 c) as [R F]; [lia|lia|lia|].
    destruct (dlt (rnd k) (ddiv (dofZ 1) (dofZ c))) eqn:E; auto. apply dlt_true in E; auto. rewrite R in E.
    assert (B : (rnd64 (1 / IZR c) <= / 2)%R).
    { replace (/ 2)%R with (rnd64 (IZR 0 + / 2)) by (rewrite rnd_id by (apply format_half; lia); lra).
      apply rnd_le. assert (2 <= IZR c)%R by (apply IZR_le; lia).
      unfold Rdiv. rewrite Rmult_1_l, Rplus_0_l. apply Rinv_le; lra. }
    lra.
  Qed.

  Definition full (s : @chained A) (n : Z) : Prop :=
    exists ad ch nx, stored 1 s ad ch nx /\ counter s = n /\ nx O = n /\
      Z.of_nat (length (ch O)) = n - 1 /\ forall c, In c (ch O) -> snd c <> 0.

  Lemma full_step : forall s n e t, full s n -> 2 <= n <= 5002 -> 0 < t ->
    (n < 5002 /\ exists s', add 1 rnd s e t = Ok s' /\ full s' (n + 1)) \/ (n = 5002 /\ add 1 rnd s e t = Abort).
  Proof.
    intros s n e t [ad [ch [nx [Hst [Hc [Hnx [Hlen Hz]]]]]]] Hn Ht.
    destruct (add_step 1 rnd H1 Hcl s ad ch nx e t Hst) as [ch1 [nx1 [Hhit Hres]]]; try lia.
    assert (Htg : target 1 rnd s = None).
    { unfold target. destruct (Z.ltb_spec (counter s) 1); [lia|]. rewrite half_le by lia. reflexivity. }
    rewrite Htg in Hhit. cbn in Hhit. destruct Hhit as [-> ->].
    change (Z.to_nat 1) with 1%nat in *.
    destruct Hres as [[s' [ad' [nx' [R [Hst' [Hc' HJ]]]]]]|[R [j [Hj [Cj Aj]]]]].
    - left. destruct (HJ O ltac:(lia)) as [_ J2]. destruct (J2 ltac:(lia)) as [Bn Hap].
      destruct (Z.eq_dec n 5002) as [->|Ne].
      { exfalso. apply Hap. apply apush_full; auto. apply Nat2Z.inj_lt. change (Z.of_nat 5000) with 5000. lia. }
      split; [lia|]. exists s'. split; [exact R|]. exists ad', (pushes (counter s) nx ch e t), nx'. split; [exact Hst'|].
      split; [lia|]. split; [lia|]. unfold pushes. rewrite Hc, <- Hnx, Z.eqb_refl. rewrite pushed_full by auto. split.
      + rewrite app_length. cbn [length]. lia.
      + intros c I. apply in_app_or in I. destruct I as [I|[<-|[]]]; auto. cbn. lia.
    - right. split; [|exact R]. assert (j = O) by lia. subst j.
      destruct (Nat.le_gt_cases (length (ch O)) 5000) as [Hle|Hgt].
      + exfalso. rewrite apush_short in Aj; [discriminate| |exact Hle]. intros E. rewrite E in Hlen. cbn in Hlen. lia.
      + apply Nat2Z.inj_lt in Hgt. change (Z.of_nat 5000) with 5000 in Hgt. lia.
  Qed.

  Lemma full_run : forall l s n, full s n -> 2 <= n <= 5002 -> stamps_ok l -> 5002 < n + Z.of_nat (length l) ->
    ch_run 1 rnd s (map (fun p : A * Z => Add (fst p) (snd p)) l) = Abort.
  Proof.
    induction l as [|[e t] l IH]; intros s n Hf Hn Hok Hl; cbn [length] in Hl; [lia|].
    assert (Ht : 0 < t) by (apply (Hok e t); now left).
    cbn [map ch_run do_call fst snd]. destruct (full_step s n e t Hf Hn Ht) as [[Hlt [s' [R Hf']]]|[_ R]]; rewrite R; cbn [bind]; auto.
    apply (IH s' (n + 1)); auto; [lia|intros a b I; apply (Hok a b); now right|lia].
  Qed.

  Lemma long_abort : forall l : list (A * Z), stamps_ok l -> 5003 <= Z.of_nat (length l) ->
    ch_run 1 rnd (ch_init 1) (map (fun p => Add (fst p) (snd p)) l) = Abort.
  Proof.
    intros [|[e1 t1] [|[e2 t2] l]] Hok Hl; cbn [length] in Hl; try lia.
    cbn [map ch_run do_call fst snd].
    assert (T1 : 0 < t1) by (apply (Hok e1 t1); now left).
    assert (T2 : 0 < t2) by (apply (Hok e2 t2); right; now left).
    change (Z.to_nat 1) with 1%nat in *.
    destruct (W_add 1 rnd H1 Hcl [] True _ _ _ _ e1 t1 (W_init 1 H1)) as [[s1 [ad1 [ch1 [nx1 [R1 [W1 _]]]]]]|[_ B]]; [cbn; lia| |cbn in B; lia].
    rewrite R1. cbn [bind].
    pose proof W1 as [[Hrep1 _] [Hc1 Hsl1]].
    destruct (add_step 1 rnd H1 Hcl s1 ad1 ch1 nx1 e2 t2 (proj1 W1)) as [ch2 [nx2 [Hhit Hres]]]; try (rewrite Hc1; cbn; lia).
    assert (Htg : target 1 rnd s1 = Some O).
    { unfold target. rewrite Hc1. change (Z.of_nat (length ([] ++ [(e1, t1)]))) with 1. cbn [Z.ltb Z.compare].
      change (1 <? 1) with false. cbv iota.
      destruct (Hr (calls s1)) as [[Fr Hb] _]. destruct (ddivZ 1 1) as [R F]; [lia|lia|lia|].
      assert (E : dlt (rnd (calls s1)) (ddiv (dofZ 1) (dofZ 1)) = true).
      { apply dlt_true; auto. rewrite R. replace (1 / 1)%R with (IZR 1) by lra. rewrite rnd_Z by (vm_compute; discriminate). lra. }
      rewrite E. destruct (offset_ok 1 rnd H1 (S (calls s1)) (Hcl _)) as [o [Eo [Bo _]]]. rewrite Eo.
      replace o with 0 by lia. reflexivity. }
    rewrite Htg in Hhit. cbn [hit] in Hhit. destruct Hhit as [_ [-> [v [-> Bv]]]]. rewrite Hc1 in *. cbn [length app] in *.
    change (Z.of_nat 1) with 1 in *. change (Z.to_nat 1) with 1%nat in *.
    assert (v = 2) by lia. subst v.
    destruct (Hsl1 O ltac:(lia)) as [_ Hsl]. destruct (Hsl ltac:(cbn; lia)) as [_ [Hln _]].
    assert (Hl1 : length (ch1 O) = 1%nat) by lia.
    destruct Hres as [[s2 [ad2 [nx' [R [Hst' [Hc' HJ]]]]]]|[R [j [Hj [Cj Aj]]]]].
    - rewrite R. cbn [bind]. apply (full_run l s2 2); [|lia|intros a b I; apply (Hok a b); right; now right|lia].
      destruct (HJ O ltac:(lia)) as [J1 _].
      exists ad2, (pushes 1 (fupd nx1 O 2) (fupd ch1 O (replaced (ch1 O) e2 t2)) e2 t2), nx'. split; [exact Hst'|].
      split; [lia|]. split; [apply J1; cbn; lia|].
      assert (E : pushes 1 (fupd nx1 O 2) (fupd ch1 O (replaced (ch1 O) e2 t2)) e2 t2 O = [(Some e2, t2)]).
      { unfold pushes, fupd, replaced. cbn. destruct (ch1 O) as [|c0 [|c1 l1]]; cbn in Hl1; try lia. reflexivity. }
      rewrite E. split; [reflexivity|]. intros c [<-|[]]. cbn. lia.
    - assert (j = O) by lia. subst j. cbn in Cj. discriminate.
  Qed.
End Long.
