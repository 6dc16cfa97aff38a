(** * DepV: what a deletion does to the pointers to the right (C50) *)

From Verif Require Import Lib Deprec SpecDep DepT DepU.

Section tree.
Context {W : Type}.
Implicit Types (h : gmap nat (tnode W)) (t : tree W).

Lemma lookup_skip (l : list nat) k i : k < length l →
  (take k l ++ drop (S k) l) !! i = if decide (i < k) then l !! i else l !! S i.
Proof.
  intros Hk. destruct (decide (i < k)) as [Hi|Hi].
  - rewrite lookup_app_l by (rewrite take_length; lia). by rewrite lookup_take.
  - rewrite lookup_app_r by (rewrite take_length; lia). rewrite take_length, lookup_drop. f_equal. lia.
Qed.

(** It is enough to know how the nodes change. *)
Lemma rightwards_of h h' f l k : k < length l → brothers h f l →
  (∃ n, h' !! f = Some n ∧ tn_son n = head (take k l ++ drop (S k) l) ∧ tn_sonc n = (Z.of_nat (length l) - 1)%Z) →
  (∀ j u n, l !! j = Some u → j ≠ k → h !! u = Some n →
     ∃ n', h' !! u = Some n' ∧ tn_father n' = tn_father n ∧
       tn_right n' = if decide (S j = k) then l !! S k else tn_right n) →
  rightwards h' f (take k l ++ drop (S k) l).
Proof.
  intros Hk [_ HB] (n & Hn & Hs & Hc) HN. split.
  - exists n. split_and!; [done..|]. rewrite Hc, app_length, take_length, drop_length. lia.
  - intros i u Hu. rewrite lookup_skip in Hu by done. rewrite lookup_skip by done.
    destruct (decide (i < k)) as [Hi|Hi].
    + destruct (HB _ _ Hu) as (m & Hm & F & _ & R). destruct (HN i u m Hu ltac:(lia) Hm) as (m' & Hm' & F' & R').
      exists m'. split; [done|]. split; [congruence|]. rewrite R', R.
      destruct (decide (S i = k)) as [E|E], (decide (S i < k)) as [E'|E']; try lia; [|done].
      by rewrite E.
    + destruct (HB _ _ Hu) as (m & Hm & F & _ & R). destruct (HN (S i) u m Hu ltac:(lia) Hm) as (m' & Hm' & F' & R').
      exists m'. split; [done|]. split; [congruence|]. rewrite R', R.
      rewrite decide_False by lia. by rewrite decide_False by lia.
Qed.

Lemma delete_right h f l v k fuel h' :
  brothers h f l → NoDup (f :: l) → first_idx h l v k → length l < fuel →
  tr_delete_node fuel h (LSon f) v = Ok h' → rightwards h' f (take k l ++ drop (S k) l).
Proof.
  intros HB Hnd HF Hlen. rewrite (delete_at h f _ v _ fuel HB HF Hlen).
  destruct HF as [(x & n & Hx & Hn & Hv) _]. pose proof (lookup_lt_Some _ _ _ Hx) as Hk.
  apply NoDup_cons in Hnd as [Hfl Hnd].
  assert (Hin : ∀ j y, l !! j = Some y → f ≠ y).
  { intros j y Hy ->. apply Hfl. by eapply elem_of_list_lookup_2. }
  assert (Hinj : ∀ i j y z, l !! i = Some y → l !! j = Some z → i ≠ j → y ≠ z).
  { intros i j y z Hy Hz Hij ->. apply Hij. by eapply (NoDup_lookup _ _ _ z). }
  simpl. rewrite (read_loc h f l) by (done || lia). simpl. rewrite Hx. simpl. rewrite Hn. simpl.
  rewrite bool_decide_eq_true_2 by done.
  pose proof HB as [(fn & Hfn & Hson & Hsonc) HS].
  destruct (HS _ _ Hx) as (n' & Hn' & N1 & N2 & N3). rewrite Hn in Hn'. injection Hn' as <-.
  rewrite N1, N2, N3. pose proof (Hin _ _ Hx) as Hxf.
  intros HE. apply rightwards_of with h; [done|done|..]; revert HE.
  all: destruct k as [|j].
  - simpl. rewrite Hfn. simpl. rewrite lookup_insert_ne by done. rewrite Hn. simpl.
    rewrite N1. simpl. rewrite lookup_insert. simpl. rewrite insert_insert, N3.
    Transparent read. simpl. rewrite lookup_insert. simpl.
    destruct (l !! 1) as [y|] eqn:Hy; [|done].
    simpl. rewrite lookup_insert_ne by (by eapply Hin).
    destruct (HS _ _ Hy) as (yn & Hyn & Y1 & Y2 & Y3). rewrite Hyn. simpl. rewrite Y3.
    destruct (l !! 2) as [z|] eqn:Hz; [|done]. simpl. rewrite lookup_insert_ne by (by eapply Hin).
    destruct (HS _ _ Hz) as (zn & Hzn & Z1 & Z2 & Z3). rewrite Hzn. intros [= <-].
    eexists. rewrite lookup_insert_ne by (apply not_eq_sym; by eapply Hin). rewrite lookup_insert. split; [done|].
    simpl. split; [|by rewrite Hsonc]. destruct l as [|a [|b l]]; [done|done|]. by injection Hy as ->.
  - destruct (lookup_lt_is_Some_2 l j) as [w Hw]; [lia|].
    destruct (HS _ _ Hw) as (wn & Hwn & W1 & W2 & W3). pose proof (Hin _ _ Hw) as Hwf.
    assert (head (take (S j) l ++ drop (S (S j)) l) = head l) as Hhd by (by destruct l).
    rewrite Hw, Hhd. unfold loc. rewrite Hw.
    destruct (l !! S (S j)) as [y|] eqn:Hy; cycle 1.
    { simpl. rewrite Hfn. simpl. rewrite lookup_insert_ne by done. rewrite Hn. simpl. rewrite N2, Hw. simpl.
      rewrite lookup_insert_ne by done. rewrite Hwn. intros [= <-].
      eexists. rewrite lookup_insert_ne by (by apply not_eq_sym). rewrite lookup_insert. split; [done|]. simpl. by rewrite Hsonc. }
    destruct (HS _ _ Hy) as (yn & Hyn & Y1 & Y2 & Y3). pose proof (Hin _ _ Hy) as Hyf.
    assert (Hwy : w ≠ y) by (eapply (Hinj j (S (S j))); done || lia).
    simpl. rewrite Hfn. simpl. rewrite lookup_insert_ne by done. rewrite Hn. simpl.
    rewrite N2, N3, Hw. simpl. rewrite lookup_insert_ne by done. rewrite Hwn. simpl.
    rewrite lookup_insert. simpl. rewrite lookup_insert_ne by done.
    rewrite lookup_insert_ne by done. rewrite Hyn. simpl. rewrite Y3.
    destruct (l !! S (S (S j))) as [z|] eqn:Hz; [|done]. simpl. pose proof (Hin _ _ Hz) as Hzf.
    assert (Hzw : w ≠ z) by (eapply (Hinj j (S (S (S j)))); done || lia).
    rewrite lookup_insert_ne by done. rewrite lookup_insert_ne by done.
    destruct (HS _ _ Hz) as (zn & Hzn & Z1 & Z2 & Z3). rewrite Hzn. intros [= <-].
    eexists. rewrite lookup_insert_ne by (by apply not_eq_sym). rewrite lookup_insert_ne by (by apply not_eq_sym).
    rewrite lookup_insert. split; [done|]. simpl. by rewrite Hsonc.
  - simpl. rewrite Hfn. simpl. rewrite lookup_insert_ne by done. rewrite Hn. simpl.
    rewrite N1. simpl. rewrite lookup_insert. simpl. rewrite insert_insert, N3.
    simpl. rewrite lookup_insert. simpl.
    destruct (l !! 1) as [y|] eqn:Hy; [|done].
    simpl. rewrite lookup_insert_ne by (by eapply Hin).
    destruct (HS _ _ Hy) as (yn & Hyn & Y1 & Y2 & Y3). rewrite Hyn. simpl. rewrite Y3.
    destruct (l !! 2) as [z|] eqn:Hz; [|done]. simpl. rewrite lookup_insert_ne by (by eapply Hin).
    destruct (HS _ _ Hz) as (zn & Hzn & Z1 & Z2 & Z3). rewrite Hzn. intros [= <-].
    intros i u m Hu Hi Hm. destruct (decide (u = z)) as [->|Hne].
    + rewrite Hzn in Hm. injection Hm as <-. eexists. rewrite lookup_insert. done.
    + rewrite lookup_insert_ne by done. rewrite lookup_insert_ne by (by eapply Hin). by exists m.
  - destruct (lookup_lt_is_Some_2 l j) as [w Hw]; [lia|].
    destruct (HS _ _ Hw) as (wn & Hwn & W1 & W2 & W3). pose proof (Hin _ _ Hw) as Hwf.
    rewrite Hw. unfold loc. rewrite Hw.
    destruct (l !! S (S j)) as [y|] eqn:Hy; cycle 1.
    { simpl. rewrite Hfn. simpl. rewrite lookup_insert_ne by done. rewrite Hn. simpl. rewrite N2, Hw. simpl.
      rewrite lookup_insert_ne by done. rewrite Hwn. intros [= <-].
      intros i u m Hu Hi Hm. destruct (decide (S i = S j)) as [E|E].
      + injection E as ->. simplify_eq. eexists. rewrite lookup_insert. done.
      + rewrite lookup_insert_ne by (eapply (Hinj j i); done || lia).
        rewrite lookup_insert_ne by (by eapply Hin). by exists m. }
    destruct (HS _ _ Hy) as (yn & Hyn & Y1 & Y2 & Y3). pose proof (Hin _ _ Hy) as Hyf.
    assert (Hwy : w ≠ y) by (eapply (Hinj j (S (S j))); done || lia).
    simpl. rewrite Hfn. simpl. rewrite lookup_insert_ne by done. rewrite Hn. simpl.
    rewrite N2, N3, Hw. simpl. rewrite lookup_insert_ne by done. rewrite Hwn. simpl.
    rewrite lookup_insert. simpl. rewrite lookup_insert_ne by done.
    rewrite lookup_insert_ne by done. rewrite Hyn. simpl. rewrite Y3.
    destruct (l !! S (S (S j))) as [z|] eqn:Hz; [|done]. simpl. pose proof (Hin _ _ Hz) as Hzf.
    assert (Hzw : w ≠ z) by (eapply (Hinj j (S (S (S j)))); done || lia).
    rewrite lookup_insert_ne by done. rewrite lookup_insert_ne by done.
    destruct (HS _ _ Hz) as (zn & Hzn & Z1 & Z2 & Z3). rewrite Hzn. intros [= <-].
    intros i u m Hu Hi Hm. destruct (decide (S i = S j)) as [E|E].
    + injection E as ->. simplify_eq. eexists. rewrite lookup_insert_ne by done. rewrite lookup_insert. done.
    + destruct (decide (u = z)) as [->|Hne].
      { rewrite Hzn in Hm. injection Hm as <-. eexists. rewrite lookup_insert. done. }
      rewrite lookup_insert_ne by done. rewrite lookup_insert_ne by (eapply (Hinj j i); done || lia).
      rewrite lookup_insert_ne by (by eapply Hin). by exists m.
Qed.

Lemma brothers_unique h f l l' : brothers h f l → brothers h f l' → l = l'.
Proof.
  intros [(n & Hn & S1 & C1) B1] [(n' & Hn' & S2 & C2) B2]. rewrite Hn in Hn'. injection Hn' as <-.
  assert (length l = length l') as HL by lia. apply list_eq. intros i. induction i as [|i IH].
  - rewrite !head_lookup in *. congruence.
  - destruct (l !! i) as [x|] eqn:Hx.
    + destruct (B1 _ _ Hx) as (m & Hm & _ & _ & R1). destruct (B2 i x) as (m' & Hm' & _ & _ & R2); [done|]. congruence.
    + apply lookup_ge_None in Hx. rewrite !lookup_ge_None_2; [done|lia|lia].
Qed.

Lemma C50_delete_right_lem t s (v k : nat) t' sons :
  tree_is t s → brothers (tr_heap t) (tr_root t) sons → first_son s v k →
  tr_delete t v = Ok t' →
  tr_root t' = tr_root t ∧ rightwards (tr_heap t') (tr_root t) (take k sons ++ drop (S k) sons).
Proof.
  intros (l & Hnd & Hlt & Hh & HB & HF)%tree_is_eq HS Hf HD.
  pose proof (brothers_unique _ _ _ _ HB HS) as <-. pose proof Hnd as [Hrn Hnn]%NoDup_cons.
  unfold tr_delete in HD. apply bind_Ok_inv in HD as (h' & HD & [= <-]). split; [done|]. simpl.
  apply (delete_right (tr_heap t) (tr_root t) l.*1 v k (S (tr_next t))); [done|..|done].
  - constructor; [|by apply fst_nd]. intros ?. by apply Hrn, fst_in_nodes.
  - by apply (first_son_idx (tr_heap t) l s v k HF).
  - apply Nat.lt_succ_r, nodes_short; [by apply fst_nd|]. intros z Hz. apply Hlt. right. by apply fst_in_nodes.
Qed.
End tree.
