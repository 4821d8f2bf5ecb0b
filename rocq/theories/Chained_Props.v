(** * Theorems about the chained reservoir *)
From Coq Require Import ZArith List Bool Lia Reals Lra.
From Flocq Require Import Core BinarySingleNaN.
From Verif Require Import CppBase CppFacts Dbl DblFacts NumFacts Chained_Model Chained_Spec Chained_Proofs.
Import ListNotations.
Local Open Scope Z_scope.

(** Draws used by the examples: 15/16, except 1/16 for the draws listed. *)
Definition draws16 (low : list nat) (k : nat) : dbl :=
  if existsb (Nat.eqb k) low then dlit 1 (-4) else dlit 15 (-4).

Lemma draws16_open : forall low, all_open (draws16 low).
Proof.
  intros low k. unfold draws16. destruct (existsb (Nat.eqb k) low); split; try reflexivity; vm_compute; lra.
Qed.

Lemma open_closed : forall rnd, all_open rnd -> all_closed rnd.
Proof. intros rnd H k. now apply unit_open_closed. Qed.

(** C19: every history of [add] and [obsolete] runs without undefined behaviour and
    every filled slot shows an element of the stream.  The only failure is the
    assertion on chains of more than 5000 cells, impossible in the first 5001 adds. *)
Theorem chained_safe :
  forall (A : Type) (size : Z) (rnd : nat -> dbl), 1 <= size <= 2147483647 -> all_closed rnd ->
  forall l : list (@call A), Z.of_nat (length (added l)) + size < 4294967296 ->
    (exists s, ch_run size rnd (ch_init size) l = Ok s /\ counter s = Z.of_nat (length (added l)) /\
       (forall i, 0 <= i < Z.min size (Z.of_nat (length (added l))) ->
          exists e t, get size s i = Ok e /\ In (e, t) (added l)) /\
       (forall i, Z.of_nat (length (added l)) <= i < size -> get size s i = Undef Uninitialised)) \/
    (ch_run size rnd (ch_init size) l = Abort /\ 5002 <= Z.of_nat (length (added l))).
Proof.
  intros A size rnd Hs Hr l Hb.
  destruct (W_run size rnd Hs Hr l [] True _ _ _ _ (W_init size Hs)) as [[s [ad [ch [nx [R HW]]]]]|[R Hn]]; [exact Hb| |right; auto].
  left. exists s. split; [exact R|]. cbn [app] in HW. destruct HW as [Hst [Hc Hsl]]. split; [exact Hc|]. split.
  - intros i Hi. rewrite (get_head size Hs s ad ch nx i Hst) by lia.
    destruct (Hsl (Z.to_nat i) ltac:(lia)) as [_ H2]. destruct (H2 ltac:(lia)) as [_ [B2 [B3 _]]].
    destruct (ch (Z.to_nat i)) as [|[x st] l0]; [cbn in B2; lia|].
    destruct (B3 x st (or_introl eq_refl)) as [e [t [-> [I _]]]]. exists e, t. auto.
  - intros i Hi. rewrite (get_head size Hs s ad ch nx i Hst) by lia.
    destruct (Hsl (Z.to_nat i) ltac:(lia)) as [H1 _]. destruct (H1 ltac:(lia)) as [-> _]. reflexivity.
Qed.
Print Assumptions chained_safe.

Example chained_safe_ex :
  match ch_run 2 (draws16 []) (ch_init 2)
          [Add 1 10; Add 2 20; Add 3 30; Add 4 40; Add 5 50; Obsolete 25] with
  | Ok s => match get 2 s 0, get 2 s 1 with Ok a, Ok b => (a, b) | _, _ => (0, 0) end
  | _ => (0, 0)
  end = (5, 3).
Proof. vm_compute. reflexivity. Qed.

(** C19: the first elements fill the slots in order. *)
Theorem chained_fill_order :
  forall (A : Type) (size : Z) (rnd : nat -> dbl), 1 <= size <= 2147483647 -> all_closed rnd ->
  forall l : list (A * Z), stamps_ok l -> Z.of_nat (length l) <= Z.min size 5001 ->
    exists s, ch_run size rnd (ch_init size) (map (fun p => Add (fst p) (snd p)) l) = Ok s /\
      forall i e t, nth_error l i = Some (e, t) -> get size s (Z.of_nat i) = Ok e.
Proof.
  intros A size rnd Hs Hr l Hok Hl.
  assert (Gen : forall l2 l1 s ad ch nx, stamps_ok (l1 ++ l2) -> Z.of_nat (length (l1 ++ l2)) <= Z.min size 5001 ->
    W size l1 True s ad ch nx -> (forall i e t, nth_error l1 i = Some (e, t) -> hd_error (ch i) = Some (Some e, t)) ->
    exists s' ad' ch' nx', ch_run size rnd s (map (fun p : A * Z => Add (fst p) (snd p)) l2) = Ok s' /\
      stored size s' ad' ch' nx' /\
      (forall i e t, nth_error (l1 ++ l2) i = Some (e, t) -> hd_error (ch' i) = Some (Some e, t))).
  { induction l2 as [|[e t] l2 IH]; intros l1 s ad ch nx Hst Hln HW Hh.
    - exists s, ad, ch, nx. rewrite app_nil_r. split; [reflexivity|]. split; [exact (proj1 HW)|exact Hh].
    - rewrite app_length in Hln. cbn [length] in Hln. cbn [map ch_run do_call fst snd].
      destruct (W_add size rnd Hs Hr l1 True s ad ch nx e t HW) as [[s1 [ad1 [ch1 [nx1 [R [HW1 [Ht Ho]]]]]]]|[_ B]]; [lia| |lia].
      rewrite R. cbn [bind].
      assert (Htg : target size rnd s = Some (length l1)).
      { destruct HW as [_ [Hc _]]. unfold target. destruct (Z.ltb_spec (counter s) size); [|lia]. rewrite Hc, Nat2Z.id. reflexivity. }
      replace (l1 ++ (e, t) :: l2) with ((l1 ++ [(e, t)]) ++ l2) in * by now rewrite <- app_assoc.
      apply (IH (l1 ++ [(e, t)]) s1 ad1 ch1 nx1); auto.
      + rewrite !app_length. cbn [length]. lia.
      + revert HW1. apply W_mono. intros _. split; auto. intros i n Ei En. rewrite Htg in Ei. injection Ei as <-.
        destruct HW as [[Hrep _] [Hc Hsl]]. assert (Hi : (length l1 < Z.to_nat size)%nat) by lia.
        destruct (Hsl _ Hi) as [H1 _]. destruct (H1 ltac:(lia)) as [Ec _].
        destruct (Hrep _ Hi) as [Hseg _]. destruct (rep_head size Hs _ _ _ _ Hrep Hi) as [tl0 Et]. rewrite Et, Ec in Hseg.
        cbn [seg] in Hseg. destruct Hseg as [_ [n' [En' Hseg]]]. destruct tl0; cbn [seg] in Hseg; [|tauto].
        rewrite En in En'. injection En' as ->. exact Hseg.
      + intros i e' t' Hi. destruct (Nat.lt_ge_cases i (length l1)) as [Hlt|Hge].
        * rewrite nth_error_app1 in Hi by auto. apply (Ho i (Some e') t'); [rewrite Htg; intros E; injection E; lia|auto|].
          pose proof (Hst e' t') as HH. enough (In (e', t') ((l1 ++ [(e, t)]) ++ l2)) by (specialize (HH H); lia). apply in_or_app. left. apply in_or_app. left. now apply nth_error_In in Hi.
        * assert (i = length l1).
          { assert (Hn : nth_error (l1 ++ [(e, t)]) i <> None) by congruence. apply nth_error_Some in Hn.
            rewrite app_length in Hn. cbn in Hn. lia. }
          subst i. rewrite (nth_error_last size) in Hi. injection Hi as <- <-. now apply Ht. }
  destruct (Gen l [] _ _ _ _ Hok Hl (W_init size Hs)) as [s [ad [ch [nx [R [Hst Hh]]]]]].
  { intros [|i] e t E; discriminate. }
  exists s. split; [exact R|]. intros i e t Hi. cbn [app] in Hh.
  assert (Hlt : (i < length l)%nat) by (apply nth_error_Some; congruence).
  rewrite (get_head size Hs s ad ch nx) by (auto; lia). rewrite Nat2Z.id, (Hh i e t Hi). reflexivity.
Qed.
Print Assumptions chained_fill_order.

Example chained_fill_order_ex :
  match ch_run 3 (draws16 [0%nat]) (ch_init 3) [Add 7 1; Add 8 2; Add 9 3] with
  | Ok s => match get 3 s 0, get 3 s 1, get 3 s 2 with Ok a, Ok b, Ok c => [a; b; c] | _, _, _ => [] end
  | _ => []
  end = [7; 8; 9].
Proof. vm_compute. reflexivity. Qed.

(** C64: with one slot and draws of at least 1/2, the 5003rd add at the latest fails the
    assertion. *)
Theorem chained_long_stream_aborts :
  forall (A : Type) (rnd : nat -> dbl),
    (forall k, unit_open (rnd k) /\ (/ 2 <= B2R (rnd k))%R) ->
    forall l : list (A * Z), stamps_ok l -> 5003 <= Z.of_nat (length l) ->
      ch_run 1 rnd (ch_init 1) (map (fun p => Add (fst p) (snd p)) l) = Abort.
Proof. intros. now apply long_abort. Qed.
Print Assumptions chained_long_stream_aborts.

Theorem chained_abort_refuted :
  exists (size : Z) (rnd : nat -> dbl) (l : list (@call unit)), 1 <= size /\ all_open rnd /\
    stamps_ok (added l) /\ ch_run size rnd (ch_init size) l = Abort.
Proof.
  set (l := map (fun k => (tt, 1 + Z.of_nat k)) (seq 0 (Z.to_nat 5003))).
  assert (Hl : stamps_ok l).
  { intros e t H. unfold l in H. apply in_map_iff in H. destruct H as [k [E H]]. apply in_seq in H. assert (t = 1 + Z.of_nat k) by congruence. lia. }
  assert (Ea : forall l' : list (unit * Z), added (map (fun p => Add (fst p) (snd p)) l') = l').
  { induction l' as [|[a b] l' IH]; cbn; [reflexivity|]. now rewrite IH. }
  exists 1, (draws16 []), (map (fun p => Add (fst p) (snd p)) l). split; [lia|]. split; [apply draws16_open|].
  rewrite Ea. split; [exact Hl|]. apply chained_long_stream_aborts.
  - intros k. split; [apply draws16_open|]. vm_compute. lra.
  - exact Hl.
  - unfold l. rewrite map_length, seq_length. lia.
Qed.
Print Assumptions chained_abort_refuted.

Example chained_abort_ex : forall k, unit_open (draws16 [] k) /\ (/ 2 <= B2R (draws16 [] k))%R.
Proof. intros k. split; [apply draws16_open|]. vm_compute. lra. Qed.

(** C20: after [obsolete t] every visible element has timestamp at least [t], when the
    last [size] elements have, and no add ever replaced an element that had
    successors. *)
Theorem chained_window_clean :
  forall (A : Type) (size : Z) (rnd : nat -> dbl), 1 <= size <= 2147483647 -> all_closed rnd ->
  forall (l : list (@call A)) t s, Z.of_nat (length (added l)) + size < 4294967296 ->
    stamps_ok (added l) -> last_from (added l) size t -> clean size rnd (ch_init size) l ->
    ch_run size rnd (ch_init size) l = Ok s ->
    exists s', obsolete size s t = Ok s' /\
      forall i, 0 <= i < size -> exists e u, get size s' i = Ok e /\ In (e, u) (added l) /\ t <= u.
Proof.
  intros A size rnd Hs Hr l t s Hb Hok Hlast Hcl R.
  destruct (W_run size rnd Hs Hr l [] True _ _ _ _ (W_init size Hs)) as [[s0 [ad [ch [nx [R0 HW]]]]]|[R0 _]]; [exact Hb| |congruence].
  rewrite R in R0. injection R0 as <-. cbn [app] in HW.
  destruct (W_obsolete size Hs _ _ s ad ch nx t HW) as [s' [ad' [R' HW']]]. exists s'. split; [exact R'|].
  intros i Hi. rewrite (get_head size Hs s' ad' _ nx i (proj1 HW') Hi).
  destruct HW as [_ [Hc Hsl]]. pose proof Hlast as [Hlen _].
  destruct (Hsl (Z.to_nat i) ltac:(lia)) as [_ H2]. destruct (H2 ltac:(lia)) as [B1 [_ [B3 B4]]].
  destruct (window_slot size Hs (added l) (True /\ clean size rnd (ch_init size) l) (ch (Z.to_nat i)) (nx (Z.to_nat i)) t (counter s))
    as [e [st [u [E [I Hu]]]]]; auto; [lia|].
  cbn beta. rewrite E. exists e, u. auto.
Qed.
Print Assumptions chained_window_clean.

(** A run in which the hypotheses hold. *)
Example chained_window_clean_ex :
  clean 2 (draws16 []) (ch_init 2) [Add 1 10; Add 2 20; Add 3 30; Add 4 40] /\
  last_from (added [Add 1 10; Add 2 20; Add 3 30; Add 4 40]) 2 25.
Proof.
  split.
  - cbn [clean]. split; [intros i n Ht Hn; vm_compute in Ht; injection Ht as <-; vm_compute in Hn; injection Hn as <-; reflexivity|].
    intros s1 R1. vm_compute in R1. injection R1 as <-.
    split; [intros i n Ht Hn; vm_compute in Ht; injection Ht as <-; vm_compute in Hn; injection Hn as <-; reflexivity|].
    intros s1 R1. vm_compute in R1. injection R1 as <-.
    split; [intros i n Ht Hn; vm_compute in Ht; injection Ht as <-; vm_compute in Hn; injection Hn as <-; reflexivity|].
    intros s1 R1. vm_compute in R1. injection R1 as <-.
    split; [intros i n Ht Hn; vm_compute in Ht; try discriminate|].
    intros s1 R1. exact I.
  - split; [cbn; lia|]. intros [|[|[|[|j]]]] e u Hj E; cbn in E; try (injection E as <- <-); try discriminate; cbn in *; try lia.
    destruct j; discriminate.
Qed.

(** C20: the same in every history, for the slots whose chain has no available cell. *)
Theorem chained_window_live :
  forall (A : Type) (size : Z) (rnd : nat -> dbl), 1 <= size <= 2147483647 -> all_closed rnd ->
  forall (l : list (@call A)) t s, Z.of_nat (length (added l)) + size < 4294967296 ->
    stamps_ok (added l) -> last_from (added l) size t ->
    ch_run size rnd (ch_init size) l = Ok s ->
    exists s', obsolete size s t = Ok s' /\
      forall i c, 0 <= i < size -> linked (nodes s) (Some (Z.to_nat i)) c ->
        (forall x u, In (x, u) c -> u <> 0) ->
        exists e u, get size s' i = Ok e /\ In (e, u) (added l) /\ t <= u.
Proof.
  intros A size rnd Hs Hr l t s Hb Hok Hlast R.
  destruct (W_run size rnd Hs Hr l [] True _ _ _ _ (W_init size Hs)) as [[s0 [ad [ch [nx [R0 HW]]]]]|[R0 _]]; [exact Hb| |congruence].
  rewrite R in R0. injection R0 as <-. cbn [app] in HW.
  destruct (W_obsolete size Hs _ _ s ad ch nx t HW) as [s' [ad' [R' HW']]]. exists s'. split; [exact R'|].
  intros i c Hi Hlk Hz. rewrite (get_head size Hs s' ad' _ nx i (proj1 HW') Hi).
  destruct HW as [Hst [Hc Hsl]]. pose proof Hlast as [Hlen _].
  pose proof (stored_linked size s ad ch nx (Z.to_nat i) Hst ltac:(lia)) as Hlk'.
  pose proof (linked_det _ _ _ _ Hlk Hlk') as ->.
  destruct (Hsl (Z.to_nat i) ltac:(lia)) as [_ H2]. destruct (H2 ltac:(lia)) as [B1 [_ [B3 B4]]].
  destruct (window_slot size Hs (added l) (True /\ clean size rnd (ch_init size) l) (ch (Z.to_nat i)) (nx (Z.to_nat i)) t (counter s))
    as [e [st [u [E [I Hu]]]]]; auto; [lia| |].
  - right. intros [x u] I. exact (Hz x u I).
  - cbn beta. rewrite E. exists e, u. auto.
Qed.
Print Assumptions chained_window_live.

(** C20 is false in general: a cleared cell at the end of a chain brings back an
    element that was replaced before. *)
Theorem chained_window_refuted :
  exists (size : Z) (rnd : nat -> dbl) (l : list (@call Z)) t s s', all_open rnd /\
    stamps_ok (added l) /\ last_from (added l) size t /\
    ch_run size rnd (ch_init size) l = Ok s /\ obsolete size s t = Ok s' /\
    forall u, get size s' 0 = Ok u -> u < t.
Proof.
  exists 1, (draws16 [8%nat]), (map (fun t => Add t t) [10; 20; 30; 40; 50; 60]), 55. eexists _, _.
  split; [apply draws16_open|]. split; [|split; [|split; [|split]]].
  - intros e t H. cbn in H. repeat (destruct H as [H|H]; [injection H as <- <-; lia|]). destruct H.
  - split; [cbn; lia|]. intros [|[|[|[|[|[|j]]]]]] e u Hj E; cbn in E; try (injection E as <- <-); try discriminate; cbn in *; try lia.
    destruct j; discriminate.
  - vm_compute. reflexivity.
  - vm_compute. reflexivity.
  - intros u H. vm_compute in H. injection H as <-. lia.
Qed.
Print Assumptions chained_window_refuted.

(** C21: [obsolete t] with [t] after every element leaves the whole sample
    visible. *)
Theorem chained_obsolete_keeps :
  forall (A : Type) (size : Z) (rnd : nat -> dbl), 1 <= size <= 2147483647 -> all_closed rnd ->
  forall (l : list (@call A)) t s, Z.of_nat (length (added l)) + size < 4294967296 ->
    0 < t -> (forall e u, In (e, u) (added l) -> u < t) ->
    ch_run size rnd (ch_init size) l = Ok s ->
    exists s', obsolete size s t = Ok s' /\ forall i, 0 <= i < size -> get size s' i = get size s i.
Proof.
  intros A size rnd Hs Hr l t s Hb Ht Hold R.
  destruct (W_run size rnd Hs Hr l [] True _ _ _ _ (W_init size Hs)) as [[s0 [ad [ch [nx [R0 HW]]]]]|[R0 _]]; [exact Hb| |congruence].
  rewrite R in R0. injection R0 as <-. cbn [app] in HW.
  destruct (W_obsolete size Hs _ _ s ad ch nx t HW) as [s' [ad' [R' HW']]]. exists s'. split; [exact R'|].
  intros i Hi. rewrite (get_head size Hs s' ad' _ nx i (proj1 HW') Hi), (get_head size Hs s ad ch nx i (proj1 HW) Hi).
  destruct HW as [_ [Hc Hsl]]. cbn beta. f_equal. unfold obsoleted.
  destruct (Hsl (Z.to_nat i) ltac:(lia)) as [H1 H2].
  assert (Hall : forall x u, In (x, u) (ch (Z.to_nat i)) -> u < t).
  { intros x u I. destruct (Z.lt_ge_cases (Z.of_nat (Z.to_nat i)) (counter s)) as [Hlt|Hge].
    - destruct (H2 Hlt) as [_ [_ [B3 _]]]. destruct (B3 x u I) as [e [v [_ [J K]]]]. specialize (Hold e v J). lia.
    - destruct (H1 Hge) as [E _]. rewrite E in I. destruct I as [I|[]]. injection I as <- <-. lia. }
  replace (first_from t (ch (Z.to_nat i))) with (@None nat); [reflexivity|].
  clear - Hall. induction (ch (Z.to_nat i)) as [|[x u] c IH]; [reflexivity|]. cbn [first_from].
  destruct (Z.ltb_spec u t) as [_|Hge].
  - rewrite <- IH; [reflexivity|]. intros y v I. apply (Hall y v). now right.
  - specialize (Hall x u (or_introl eq_refl)). lia.
Qed.
Print Assumptions chained_obsolete_keeps.

(** C21 is false. *)
Theorem chained_discards_refuted :
  exists (size : Z) (rnd : nat -> dbl) (l : list (@call Z)) t s s', all_open rnd /\ stamps_ok (added l) /\
    ch_run size rnd (ch_init size) l = Ok s /\ obsolete size s t = Ok s' /\
    forall i u, 0 <= i < size -> get size s' i = Ok u -> In (Add u u) l /\ u < t.
Proof.
  exists 2, (draws16 []), [Add 10 10; Add 20 20; Add 30 30], 31. eexists _, _.
  split; [apply draws16_open|]. split; [|split; [|split]].
  - intros e t H. cbn in H. repeat (destruct H as [H|H]; [injection H as <- <-; lia|]). destruct H.
  - vm_compute. reflexivity.
  - vm_compute. reflexivity.
  - intros i u Hi H. assert (Hc : i = 0 \/ i = 1) by lia.
    destruct Hc as [->| ->]; vm_compute in H; injection H as <-; split; auto; try lia; cbn; auto.
Qed.
Print Assumptions chained_discards_refuted.

Example chained_obsolete_keeps_ex :
  match ch_run 2 (draws16 []) (ch_init 2) [Add 1 10; Add 2 20; Obsolete 1000] with
  | Ok s => match get 2 s 0, get 2 s 1 with Ok a, Ok b => (a, b) | _, _ => (0, 0) end
  | _ => (0, 0)
  end = (1, 2).
Proof. vm_compute. reflexivity. Qed.

(** C22: what [obsolete] does to each chain of a reachable state. *)
Theorem chained_obsolete_effect :
  forall (A : Type) (size : Z) (rnd : nat -> dbl), 1 <= size <= 2147483647 -> all_closed rnd ->
  forall (l : list (@call A)) t s, Z.of_nat (length (added l)) + size < 4294967296 ->
    ch_run size rnd (ch_init size) l = Ok s ->
    exists s', obsolete size s t = Ok s' /\
      forall i, (i < Z.to_nat size)%nat -> exists c,
        linked (nodes s) (Some i) c /\ linked (nodes s') (Some i) (obsoleted t c).
Proof.
  intros A size rnd Hs Hr l t s Hb R.
  destruct (W_run size rnd Hs Hr l [] True _ _ _ _ (W_init size Hs)) as [[s0 [ad [ch [nx [R0 HW]]]]]|[R0 _]]; [exact Hb| |congruence].
  rewrite R in R0. injection R0 as <-. cbn [app] in HW.
  destruct (W_obsolete size Hs _ _ s ad ch nx t HW) as [s' [ad' [R' HW']]]. exists s'. split; [exact R'|].
  intros i Hi. exists (ch i). split.
  - exact (stored_linked size s ad ch nx i (proj1 HW) Hi).
  - exact (stored_linked size s' ad' _ nx i (proj1 HW') Hi).
Qed.
Print Assumptions chained_obsolete_effect.

(** C22 is false: with two valid successors the newest one becomes visible and the
    chain is cut; the documented chain is different. *)
Theorem chained_promotes_refuted :
  exists (rnd : nat -> dbl) (l : list (@call Z)) t s s' c, all_open rnd /\ stamps_ok (added l) /\
    ch_run 1 rnd (ch_init 1) l = Ok s /\ obsolete 1 s t = Ok s' /\
    linked (nodes s) (Some O) c /\ Forall (fun x => snd x <> 0) c /\
    promoted t c = [(Some 30, 30); (Some 40, 40)] /\
    linked (nodes s') (Some O) [(Some 40, 40)] /\ get 1 s' 0 = Ok 40.
Proof.
  exists (draws16 []), (map (fun t => Add t t) [10; 20; 30; 40]), 25. eexists _, _, [(Some 20, 20); (Some 30, 30); (Some 40, 40)].
  split; [apply draws16_open|]. split; [|split; [|split; [|split; [|split; [|split; [|split]]]]]].
  - intros e t H. cbn in H. repeat (destruct H as [H|H]; [injection H as <- <-; lia|]). destruct H.
  - vm_compute. reflexivity.
  - vm_compute. reflexivity.
  - cbn. exists O. eexists. split; [reflexivity|]. split; [reflexivity|].
    exists 1%nat. eexists. split; [reflexivity|]. split; [reflexivity|].
    exists 2%nat. eexists. split; [reflexivity|]. split; reflexivity.
  - repeat constructor; cbn; lia.
  - reflexivity.
  - cbn. exists O. eexists. split; [reflexivity|]. split; reflexivity.
  - vm_compute. reflexivity.
Qed.
Print Assumptions chained_promotes_refuted.

(** C22: when exactly one successor is valid, it becomes visible but its timestamp is
    lost: its cell counts as available. *)
Theorem chained_promoted_stamp_lost :
  forall (A : Type) (size : Z) (rnd : nat -> dbl), 1 <= size <= 2147483647 -> all_closed rnd ->
  forall (l : list (@call A)) t s i c y v, Z.of_nat (length (added l)) + size < 4294967296 ->
    ch_run size rnd (ch_init size) l = Ok s -> (i < Z.to_nat size)%nat ->
    c <> [] -> linked (nodes s) (Some i) (c ++ [(y, v)]) ->
    (forall x u, In (x, u) c -> u < t) -> t <= v ->
    exists s', obsolete size s t = Ok s' /\ linked (nodes s') (Some i) [(y, 0)].
Proof.
  intros A size rnd Hs Hr l t s i c0 y v Hb R Hi Hc0 Hlk Hall Hv.
  destruct (chained_obsolete_effect A size rnd Hs Hr l t s Hb R) as [s' [R' H]]. exists s'. split; [exact R'|].
  destruct (H i Hi) as [c1 [L1 L2]]. rewrite (linked_det _ _ _ _ L1 Hlk) in L2. clear H L1 Hlk R R' Hb Hi.
  replace [(y, 0)] with (obsoleted t (c0 ++ [(y, v)])); [exact L2|]. clear L2.
  destruct c0 as [|[x u] c]; [congruence|]. assert (Hu : u < t) by (apply (Hall x); now left).
  assert (E : forallb (fun p => snd p <? t) c = true).
  { apply forallb_forall. intros [a b] I. apply Z.ltb_lt. apply (Hall a). now right. }
  assert (F : first_from t (c ++ [(y, v)]) = Some (length c)).
  { clear - E Hv. induction c as [|[z w] c IH]; cbn in *.
    - destruct (Z.ltb_spec v t); [lia|reflexivity].
    - apply andb_prop in E. destruct E as [E1 E2]. rewrite E1, IH by auto. reflexivity. }
  unfold obsoleted. cbn [app first_from]. destruct (Z.ltb_spec u t); [|lia]. rewrite F. cbn [option_map].
  change ((x, u) :: c ++ [(y, v)]) with (((x, u) :: c) ++ [(y, v)]). rewrite (last_app_cell ((x, u) :: c) [] (y, v)).
  cbn [last fst snd]. rewrite app_length. cbn [length].
  destruct (Nat.ltb_spec (S (length c) + 1) (2 * S (length c) + 1)); [reflexivity|lia].
Qed.
Print Assumptions chained_promoted_stamp_lost.

(** C23: whatever the draws in [0,1), the element after the first [size] ones is
    always taken into the sample, although only [size] of [size + 1] elements fit. *)
Theorem chained_next_always_kept :
  forall (A : Type) (size : Z) (rnd : nat -> dbl), 1 <= size <= 5000 -> all_open rnd ->
  forall (l : list (A * Z)) e t, stamps_ok (l ++ [(e, t)]) -> Z.of_nat (length l) = size ->
    exists s i, ch_run size rnd (ch_init size) (map (fun p => Add (fst p) (snd p)) (l ++ [(e, t)])) = Ok s /\
      0 <= i < size /\ get size s i = Ok e.
Proof.
  intros A size rnd Hs0 Hop l e t Hok Hl. assert (Hs : 1 <= size <= 2147483647) by lia.
  assert (Hr : all_closed rnd) by now apply open_closed.
  assert (Ea : forall l' : list (A * Z), added (map (fun p => Add (fst p) (snd p)) l') = l').
  { induction l' as [|[a b] l' IH]; cbn; [reflexivity|]. now rewrite IH. }
  assert (Er : forall l1 l2 s, ch_run size rnd s (l1 ++ l2) = bind (ch_run size rnd s l1) (fun s1 => @ch_run A size rnd s1 l2)).
  { induction l1 as [|c l1 IH]; intros l2 s; cbn [app ch_run]; [reflexivity|].
    destruct (do_call size rnd s c); cbn [bind]; auto. }
  rewrite map_app, Er. cbn [map ch_run do_call fst snd].
  destruct (W_run size rnd Hs Hr (map (fun p => Add (fst p) (snd p)) l) [] True _ _ _ _ (W_init size Hs))
    as [[s [ad [ch [nx [R HW]]]]]|[R Hn]]; rewrite ?Ea in *; cbn [length] in *; [lia| |lia].
  rewrite R. cbn [bind]. cbn [app] in HW.
  destruct (W_add size rnd Hs Hr l _ s ad ch nx e t HW) as [[s1 [ad1 [ch1 [nx1 [R1 [HW1 [Ht Ho]]]]]]]|[_ B]]; [lia| |lia].
  rewrite R1. cbn [bind].
  assert (Htg : exists i, target size rnd s = Some i).
  { destruct HW as [_ [Hc _]]. unfold target. rewrite Hc, Hl. rewrite Z.ltb_irrefl.
    destruct (Hop (calls s)) as [Fr Hb]. destruct (ddivZ size size) as [Rd Fd]; [lia|lia|lia|].
    assert (E : dlt (rnd (calls s)) (ddiv (dofZ size) (dofZ size)) = true).
    { apply dlt_true; auto. rewrite Rd. replace (IZR size / IZR size)%R with (IZR 1).
      - rewrite rnd_Z by (vm_compute; discriminate). lra.
      - field. apply not_0_IZR. lia. }
    rewrite E. destruct (offset_ok size rnd Hs (S (calls s)) (Hr _)) as [o [Eo _]]. rewrite Eo. eauto. }
  destruct Htg as [i Ei]. destruct (Ht i Ei) as [Hi Hh]. exists s1, (Z.of_nat i). split; [reflexivity|]. split; [lia|].
  rewrite (get_head size Hs s1 ad1 ch1 nx1) by (try apply HW1; lia). rewrite Nat2Z.id, Hh. reflexivity.
Qed.
Print Assumptions chained_next_always_kept.

Example chained_equal_probability_ex :
  match ch_run 2 (draws16 [3%nat]) (ch_init 2) [Add 1 10; Add 2 20; Add 3 30] with
  | Ok s => match get 2 s 0, get 2 s 1 with Ok a, Ok b => (a, b) | _, _ => (0, 0) end
  | _ => (0, 0)
  end = (3, 2).
Proof. vm_compute. reflexivity. Qed.

(** With one slot and two elements, the first is in the sample with probability 0, the
    second with probability 1. *)
Theorem chained_equal_probability_refuted :
  exists size, 1 <= size /\ forall rnd, all_open rnd ->
    exists s, ch_run size rnd (ch_init size) [Add 1 1; Add 2 2] = Ok s /\
      forall i e, 0 <= i < size -> get size s i = Ok e -> e = 2.
Proof.
  exists 1. split; [lia|]. intros rnd Hr.
  destruct (chained_next_always_kept Z 1 rnd ltac:(lia) Hr [(1, 1)] 2 2) as [s [i [R [Hi G]]]].
  - intros e t H. cbn in H. repeat (destruct H as [H|H]; [injection H as <- <-; lia|]). destruct H.
  - reflexivity.
  - exists s. split; [exact R|]. intros j e Hj Gj. assert (i = j) by lia. subst j. congruence.
Qed.
Print Assumptions chained_equal_probability_refuted.

(** C23: the first slot is replaced only by draws below 1/(2(size-1)), half of the
    share of an inner slot. *)
Theorem chained_first_slot_rare :
  forall (size : Z) (rnd : nat -> dbl) k o, 2 <= size <= 2147483647 -> unit_closed (rnd k) ->
    offset size rnd k = Ok o -> (/ (2 * IZR (size - 1)) <= B2R (rnd k))%R -> 0 < o.
Proof.
  intros size rnd k o Hs Hr Eo Hlow. destruct (offset_ok size rnd ltac:(lia) k Hr) as [o' [Eo' [Bo Ev]]].
  rewrite Eo in Eo'. injection Eo' as <-.
  assert (N1 : (1 <= IZR (size - 1))%R) by (apply IZR_le; lia).
  assert (H1 : (/ 2 <= B2R (rnd k) * IZR (size - 1))%R).
  { apply Rmult_le_reg_r with (/ IZR (size - 1))%R; [apply Rinv_0_lt_compat; lra|].
    rewrite Rmult_assoc, Rinv_r, Rmult_1_r by lra. rewrite <- Rinv_mult_distr by lra. exact Hlow. }
  assert (H2 : (/ 2 <= rnd64 (B2R (rnd k) * IZR (size - 1)))%R).
  { replace (/ 2)%R with (rnd64 (IZR 0 + / 2)) by (rewrite rnd_id by (apply format_half; lia); lra).
    apply rnd_le. lra. }
  assert (H3 : (IZR 1 <= rnd64 (rnd64 (B2R (rnd k) * IZR (size - 1)) + / 2))%R).
  { apply rnd_ge_Z; [vm_compute; discriminate|lra]. }
  assert (1 <= o); [|lia]. rewrite Ev. now apply Zfloor_lub.
Qed.
Print Assumptions chained_first_slot_rare.

Example chained_first_slot_ex :
  (offset 5 (draws16 [0%nat]) 0, offset 5 (draws16 []) 0) = (Ok 0, Ok 4).
Proof. vm_compute. reflexivity. Qed.
