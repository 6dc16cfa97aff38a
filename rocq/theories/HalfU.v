(** * HalfU: the number of coarse cells for any threshold of the correction (C61) *)

From Verif Require Import Features Iso Main Spec SpecSub SpecMove SpecTorn GraphP ApiP ApiT MoveT TornT HalfT.

(** ** Coarse cells with at least two cells *)
Lemma lists_nodup f (K : list nat) : NoDup K → NoDup (concat (map (cell_list f) K)).
Proof.
  induction 1 as [|k K Hk HK IH]; [constructor|]. simpl. apply NoDup_app. split; [apply cell_list_nodup|]. split; [|done].
  intros x Hx%elem_of_cell_list Hx'. apply elem_of_concat in Hx' as (l & Hx' & Hl). apply elem_of_list_fmap in Hl as (k' & -> & Hk').
  apply elem_of_cell_list in Hx'. congruence.
Qed.
Lemma two_in f k x y : x ≠ y → f !! x = Some k → f !! y = Some k → 2 ≤ length (cell_list f k).
Proof.
  intros Hne Hx Hy. change 2 with (length [x; y]). apply submseteq_length, NoDup_submseteq.
  - constructor; [|apply NoDup_singleton]. by rewrite elem_of_list_singleton.
  - intros z. rewrite !elem_of_cons, elem_of_nil, elem_of_cell_list. intros [-> |[-> |[]]]; done.
Qed.
Lemma cells_in_length f k : size (cells_in f k) = length (cell_list f k).
Proof. unfold cells_in. apply size_list_to_set, cell_list_nodup. Qed.

Section run.
Context {A : Arith} {H : HashOrder}.
Implicit Types (i : input) (o r : outs).

(** A small coarse cell one of whose cells touches another isotropic one loses a cell. *)
Lemma touching_lost i o r0 e0 r R f1 x k : good_call i o → agglomerate_one_level (uncorrected i) o = (r0, e0) →
  corrected_via i o r0 r R f1 → o_fc2cc r0 !! x = Some k → small_id i o r0 k → touches i o r0 x → k ∈ R.
Proof.
  intros HG He0 (sing & Hss & Es & Ha & HR & Er) Hx Hk Ht. apply Es in Hk.
  pose proof (low_of i o r0 e0 sing HG He0 Es) as Hlow.
  assert (NoDup sing) as Hnd.
  { clear -Hss. induction Hss as [|a l Hs IH Hall]; [constructor|]. constructor; [|done]. intros Hin.
    rewrite Forall_forall in Hall. specialize (Hall a Hin). lia. }
  pose proof (absorbed_all_st (in_row i) (in_col i) (iso_id i o r0) (wf_sym _ (gc_mesh _ _ HG)) (o_fc2cc r0) sing Hlow
    sing (o_fc2cc r0) f1 Ha [] eq_refl Hnd (st_nil _ _ _ _ _)) as [S1 S2 S3 S4].
  apply HR. split; [done|]. exists x. split; [done|].
  destruct (S3 x k Hx Hk) as [[H1 H2]|(k' & x' & H1 & H2 & _)].
  - destruct Ht as (k0 & y & k1 & T1 & T2 & T3 & T4 & T5). destruct (H2 k1). split; [done|]. by exists k0, y.
  - intros Hx1. assert (k' = k) as -> by congruence. done.
Qed.

Lemma two_or_left f (K : list nat) (L : gset nat) : NoDup K →
  (∀ k, k ∈ K → 2 ≤ length (cell_list f k) ∨ ∃ x, x ∈ L ∧ f !! x = Some k) → 2 * length K ≤ length f + size L.
Proof.
  intros Hnd H2.
  assert (length (concat (map (cell_list f) K)) ≤ length f) as Hf.
  { rewrite <- (seq_length (length f) 0). apply submseteq_length, NoDup_submseteq; [apply (lists_nodup f K Hnd)|].
    intros x (l & Hx & Hl)%elem_of_concat. apply elem_of_list_fmap in Hl as (k & -> & _). apply elem_of_cell_list in Hx.
    apply lookup_lt_Some in Hx. apply elem_of_seq. lia. }
  assert (length (filter (λ x, x ∈ L) (concat (map (cell_list f) K))) ≤ size L) as HL.
  { unfold size, set_size. simpl. apply submseteq_length, NoDup_submseteq; [apply NoDup_filter, (lists_nodup f K Hnd)|].
    intros x [Hx _]%elem_of_list_filter. by apply elem_of_elements. }
  enough (2 * length K ≤ length (concat (map (cell_list f) K)) + length (filter (λ x, x ∈ L) (concat (map (cell_list f) K)))) by lia.
  clear Hnd Hf HL. induction K as [|k K IH]; [simpl; lia|]. simpl. rewrite filter_app, !app_length.
  specialize (IH (λ k' Hk', H2 k' (elem_of_list_further _ _ _ Hk'))).
  destruct (H2 k (elem_of_list_here _ _)) as [Hk|(x & Hx & Hk)]; [lia|]. apply elem_of_cell_list in Hk.
  assert (x ∈ filter (λ x, x ∈ L) (cell_list f k)) as Hx' by (by apply elem_of_list_filter).
  destruct (cell_list f k) as [|a l] eqn:E1; [by apply elem_of_nil in Hk|].
  destruct (filter (λ x, x ∈ L) (a :: l)) as [|b l'] eqn:E2; [by apply elem_of_nil in Hx'|]. simpl. lia.
Qed.

Lemma rank_id (R : gset nat) k : (∀ j, j ∈ R → k ≤ j) → rank R k = k.
Proof.
  intros HR. induction k as [|k IH]; [done|]. rewrite rank_S, IH, decide_False; [lia| |].
  - intros Hk. specialize (HR k Hk). lia.
  - intros j Hj. specialize (HR j Hj). lia.
Qed.

Lemma C61_alone_any_lem i o r e (L : gset nat) :
  good_call i o → simple_csr (in_row i) (in_col i) → in_corr i = true → agglomerate_one_level i o = (r, e) →
  (∀ x, x < in_n i →
    (∀ y c, in_edge i x y → y ≠ x → o_fc2cc r !! y = Some c → aniso_id i o r c) → x ∈ L) →
  2 * size (list_to_set (o_fc2cc r) : gset nat) ≤ in_n i + size L.
Proof.
  intros HG Hsi Hc He HN. destruct (agglomerate_one_level (uncorrected i) o) as [r0 e0] eqn:He0.
  pose proof (good_uncorrected _ _ HG) as HG0.
  destruct (C41_lem i o r0 e0 r e HG Hsi Hc He0 He) as (_ & _ & HC).
  destruct (corrected_via_ex i o r0 e0 r e HG Hsi Hc He0 He) as (-> & -> & R & f1 & HV).
  destruct (torn_facts i o r0 _ r R f1 HG He0 HV) as [n0 T].
  assert (length (o_fc2cc r0) = in_n i) as L0.
  { destruct (C01_lem _ o HG0) as (r1 & E1 & L1). rewrite E1 in He0. injection He0 as <-. exact L1. }
  assert (∀ c, aniso_id i o r0 c ↔ aniso_id i o r c) as Hsame.
  { intros c. unfold aniso_id. by rewrite (cf_lines _ _ _ _ HC). }
  destruct (ran_inv _ _ _ _ HG0 He0) as (ctA & p & lo & ct & ct' & HR).
  assert (∀ c, aniso_id i o r0 c ↔ c < ct_n ctA) as Hlt by (intros c; apply (aniso_id_lt _ _ _ _ _ _ _ _ c HR)).
  assert (∀ c, aniso_id i o r0 c → c ∉ R ∧ rank R c = c) as Hrank.
  { intros c Hca. assert (∀ j, j ∈ R → ct_n ctA ≤ j) as Hj.
    { intros j Hj. destruct (tf_small _ _ _ _ _ _ _ T j Hj) as [[_ Hn] _]. rewrite Hlt in Hn. lia. }
    apply Hlt in Hca. split; [intros HcR; specialize (Hj c HcR); lia|]. apply rank_id. intros j HjR. specialize (Hj j HjR). lia. }
  set (f0 := o_fc2cc r0) in *.
  set (K := filter (λ k, 2 ≤ length (cell_list f0 k) ∨ Exists (λ x, f0 !! x = Some k) (elements L)) (seq 0 n0)).
  assert (2 * length K ≤ in_n i + size L) as HK.
  { rewrite <- L0. apply two_or_left; [apply NoDup_filter, NoDup_seq|]. intros k Hk.
    apply elem_of_list_filter in Hk as [[Hk|Hk] _]; [by left|right]. apply Exists_exists in Hk as (x & Hx & Hk).
    exists x. split; [by apply elem_of_elements|done]. }
  enough (size (list_to_set (o_fc2cc r) : gset nat) ≤ length K) by lia.
  rewrite <- (fmap_length (λ k, if decide (k ∈ R) then k else rank R k) K).
  unfold size, set_size. simpl. apply submseteq_length, NoDup_submseteq; [apply NoDup_elements|].
  intros c Hcin. rewrite elem_of_elements, elem_of_list_to_set in Hcin. apply elem_of_list_lookup in Hcin as [x Hx].
  apply elem_of_list_fmap. apply (tf_final i o r0 r R f1 n0 T) in Hx as [(HcR & Hx0 & Hx1)|(k & Hx & Hk & <-)].
  - exists c. rewrite decide_True by done. split; [done|]. apply elem_of_list_filter. split.
    + left. destruct (tf_lost _ _ _ _ _ _ _ T c HcR) as (z & Hz & Hz1). apply (two_in f0 c x z); [|done|done]. intros ->. done.
    + apply elem_of_seq. pose proof (tf_lt i o r0 r R f1 n0 T c HcR). lia.
  - exists k. rewrite decide_False by done. split; [done|].
    assert (k < n0) as Hkn by (apply (tf_nonempty i o r0 r R f1 n0 T k Hk); eauto).
    apply elem_of_list_filter. split; [|apply elem_of_seq; lia].
    destruct (decide (2 ≤ length (cell_list f0 k))) as [|Hl2]; [by left|]. right.
    pose proof (proj1 (tf_n0 _ _ _ _ _ _ _ T k) Hkn) as [z Hz]. apply Exists_exists. exists z. split; [|done].
    apply elem_of_elements, HN; [rewrite <- L0; by eapply lookup_lt_Some|].
    intros y cy Hzy Hne Hy. destruct (lookup_lt_is_Some_2 f0 y) as [k' Hy'].
    { rewrite L0. unfold in_edge, edge in Hzy. destruct Hzy as (? & ? & j & _ & _ & _ & Hj).
      by eapply csr_col; [apply (wf_csr _ (gc_mesh _ _ HG))|]. }
    assert (k' ≠ k) as Hkk. { intros ->. apply Hl2. by apply (two_in f0 k y z). }
    destruct (decide (k' < ct_n ctA)) as [Ha|Ha].
    + apply Hlt in Ha. destruct (Hrank k' Ha) as [Hr1 Hr2]. apply Hsame.
      pose proof (tf_same _ _ _ _ _ _ _ T y k' Hy' Hr1) as Hy1.
      rewrite (tf_r _ _ _ _ _ _ _ T), list_lookup_fmap, Hy1 in Hy. simpl in Hy. rewrite decide_False in Hy by done.
      rewrite Hr2 in Hy. by injection Hy as <-.
    + exfalso. apply Hk. eapply (touching_lost i o r0 _ r R f1 z k HG He0 HV Hz).
      * split.
        -- split; [eauto|]. intros Hka.
           destruct (aniso_two (uncorrected i) o r0 _ k HG0 He0 Hka) as (a & b & Hab & Hfa & Hfb).
           apply Hl2. by apply (two_in f0 k a b).
        -- rewrite cells_in_length. fold f0. destruct HG as [_ [] _ _ _]. unfold corr_size. case_decide; lia.
      * exists k, y, k'. split; [done|]. split; [done|]. split; [done|]. split; [done|]. split; [eauto|]. by rewrite Hlt.
Qed.

Lemma C61_any_lem i o r e :
  good_call i o → simple_csr (in_row i) (in_col i) → ¬ aniso_on i o → in_corr i = true →
  (∀ x, x < in_n i → ∃ y, in_edge i x y ∧ y ≠ x) → agglomerate_one_level i o = (r, e) →
  2 * size (list_to_set (o_fc2cc r) : gset nat) ≤ in_n i.
Proof.
  intros HG Hsi Hon Hc HN He. pose proof (C61_alone_any_lem i o r e ∅ HG Hsi Hc He) as HA. rewrite size_empty, Nat.add_0_r in HA.
  apply HA. intros x Hx Hall. destruct (HN x Hx) as (y & Hxy & Hne). exfalso.
  destruct (lookup_lt_is_Some_2 (o_fc2cc r) y) as [c Hy].
  { destruct (C01_lem i o HG) as (r1 & E1 & L1). rewrite E1 in He. injection He as <- <-. rewrite L1.
    unfold in_edge, edge in Hxy. destruct Hxy as (? & ? & j & _ & _ & _ & Hj).
    by eapply csr_col; [apply (wf_csr _ (gc_mesh _ _ HG))|]. }
  by destruct (Hall y c Hxy Hne Hy).
Qed.
End run.
