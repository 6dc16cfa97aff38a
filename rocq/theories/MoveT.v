(** * MoveT: the correction of a whole call (C41) *)

From Verif Require Import MainP CorrectP ApiP ApiT MoveP SpecMove.

Section ext.
Context (row col : list nat) (P Q : nat → Prop) (HPQ : ∀ k, P k ↔ Q k).

Lemma beside_iff f old X k : beside row col P f old X k ↔ beside row col Q f old X k.
Proof using HPQ. unfold beside. by rewrite HPQ. Qed.
Lemma joins_iff (P1 Q1 : nat → Prop) f x k : (∀ k, P1 k ↔ Q1 k) → joins row col P1 f x k → joins row col Q1 f x k.
Proof using. intros He [H1 H2]. split; [by apply He|]. intros k' Hk'. by apply H2, He. Qed.
Lemma joins_whole_iff (P1 Q1 : nat → Prop) f X k : (∀ k, P1 k ↔ Q1 k) →
  joins_whole row col P1 f X k → joins_whole row col Q1 f X k.
Proof using. intros He (H1 & H2 & H3). split; [by apply He|]. split; [done|]. intros k' Hk'. by apply H3, He. Qed.
Lemma one_by_one_iff f0 old l f f' : one_by_one row col P f0 old l f f' → one_by_one row col Q f0 old l f f'.
Proof using HPQ.
  induction 1 as [|x k l f f' Hj Ho IH|x l f f' Hj Ho IH]; [constructor|..].
  - eapply obo_move; [|exact IH]. eapply joins_iff; [|exact Hj]. intros; apply beside_iff.
  - apply obo_stay; [|done]. intros k Hk. by eapply Hj, beside_iff.
Qed.
Lemma absorbed_iff f old f' : absorbed row col P f old f' → absorbed row col Q f old f'.
Proof using HPQ.
  intros [(Hs & k & Hj & Hf)|[Hn (l & Hnd & Hl & Ho)]].
  - left. split; [done|]. exists k. split; [|done]. eapply joins_whole_iff; [|exact Hj]. intros; apply beside_iff.
  - right. split.
    + destruct Hn as [?|Hn]; [by left|]. right. intros k Hk. by apply Hn, beside_iff.
    + exists l. split; [done|]. split; [done|]. by apply one_by_one_iff.
Qed.
Lemma absorbed_all_iff l f f' : absorbed_all row col P l f f' → absorbed_all row col Q l f f'.
Proof using HPQ. induction 1; econstructor; [by apply absorbed_iff|done]. Qed.
End ext.

Section run.
Context {A : Arith} {H : HashOrder}.
Implicit Types (i : input) (o r : outs).

Lemma good_uncorrected i o : good_call i o → good_call (uncorrected i) o.
Proof. intros [[] [] ? ? ?]. split; [by split|by split|done..]. Qed.

Lemma phase2_correct i ctA p ct : in_corr i = true → phase2 (uncorrected i) ctA p = Ok ct →
  phase2 i ctA p = correct (graph_of i) ct.
Proof.
  intros Hc. unfold phase2, iso_agglomerate. change (iso_params_of (uncorrected i)) with (iso_params_of i).
  change (graph_of (uncorrected i)) with (graph_of i). change (in_prio (uncorrected i)) with (in_prio i).
  change (in_corr (uncorrected i)) with false. rewrite Hc. intros He.
  apply bind_Ok_inv in He as (ip & -> & He). rewrite bind_ok.
  apply bind_Ok_inv in He as (r & -> & He). rewrite bind_ok.
  apply bind_Ok_inv in He as (ct1 & -> & He). rewrite bind_ok. by simplify_eq.
Qed.

Lemma C41_lem i o r0 e0 r e : good_call i o → simple_csr (in_row i) (in_col i) → in_corr i = true →
  agglomerate_one_level (uncorrected i) o = (r0, e0) → agglomerate_one_level i o = (r, e) →
  e0 = Ok () ∧ e = Ok () ∧ corrected_from i o r0 r.
Proof.
  intros HG Hsi Hc He0 He. pose proof (good_uncorrected i o HG) as HG0.
  destruct (ran_ok i o HG) as (r' & He' & _). destruct (ran_ok _ o HG0) as (r0' & He0' & _).
  split; [congruence|]. split; [congruence|]. clear He' He0' r' r0'.
  destruct (ran_inv _ _ _ _ HG He) as (ctA & p & lo & ct & ct' & HR).
  destruct (ran_inv _ _ _ _ HG0 He0) as (ctA0 & p0 & lo0 & ct0 & ct0' & HR0).
  assert (phase1 (uncorrected i) o = phase1 i o) as Hp1 by done.
  assert (ctA0 = ctA ∧ p0 = p ∧ lo0 = lo) as (-> & -> & ->).
  { pose proof (ra_e1 _ _ _ _ _ _ _ _ HR) as E1. pose proof (ra_e1 _ _ _ _ _ _ _ _ HR0) as E2.
    rewrite Hp1 in E2. rewrite E1 in E2. by simplify_eq. }
  assert (ct0' = ct0) as -> by (apply (ra_corr _ _ _ _ _ _ _ _ HR0)).
  pose proof (ra_iso _ _ _ _ _ _ _ _ HR0) as HD. pose proof (id_inv _ _ _ HD) as HI.
  pose proof (ra_p1 _ _ _ _ _ _ _ _ HR0) as H1.
  destruct (sing_front _ _ _ _ _ _ HG0 H1 HD) as (Hle & Hge & Hfr & Hcn).
  pose proof (mesh_wfg i (gc_mesh _ _ HG)) as WF.
  pose proof (simple_csr_graph i (wf_sym _ (gc_mesh _ _ HG)) Hsi) as HS.
  assert (∀ x, x < in_n i → ∃ k, ct_fc2cc ct0 !! x = Some (Some k)) as Hfull.
  { intros x Hx. destruct (id_full _ _ _ HD x Hx) as (k & _ & Hk). eauto. }
  assert (∀ k cc, ct_ccs ct0 !! k = Some cc → cc_iso cc = true → is_compactness (graph_of i) (cc_fcs cc) (cc_cpt cc)) as Hcpt.
  { intros k0 cc0 Hc0 Hi0. destruct (id_iso _ _ _ HD) as (ip & _ & _ & Hiso).
    destruct (decide (ct_n ctA ≤ k0)) as [Hk|Hk]; [by apply (Hiso k0 cc0)|].
    rewrite (ex_ccs _ _ (id_ext _ _ _ HD)) in Hc0 by lia.
    rewrite (aniso_cell_iso _ _ _ _ _ _ _ H1 Hc0) in Hi0. done. }
  pose proof (ra_fin _ _ _ _ _ _ _ _ HR0) as HF0. pose proof (ra_fin _ _ _ _ _ _ _ _ HR) as HF.
  set (v := o_fc2cc r0) in *.
  assert (view ct0 v) as Hv.
  { unfold view. apply list_eq. intros x. rewrite list_lookup_fmap. destruct (v !! x) as [k|] eqn:Hx; simpl.
    - by apply (fi_f _ _ _ _ _ HF0).
    - apply lookup_ge_None in Hx. apply lookup_ge_None. rewrite (ci_flen _ _ HI).
      by rewrite (fi_len _ _ _ _ _ HF0) in Hx. }
  assert (∀ k, is_iso ct0 k ↔ iso_id i o r0 k) as Hiso.
  { intros k. unfold is_iso, iso_id.
    change (aniso_id i o r0 k) with (aniso_id (uncorrected i) o r0 k). rewrite (aniso_id_lt _ _ _ _ _ _ _ _ k HR0).
    fold v. split.
    - intros (cc & Hcc & Hi). split.
      + destruct (ci_card _ _ HI k cc Hcc) as [_ Hne]. destruct (set_choose_L _ Hne) as [x Hx]. exists x.
        apply (fi_f _ _ _ _ _ HF0). apply (ci_cell _ _ HI). eauto.
      + intros Hlt. rewrite (ex_ccs _ _ (id_ext _ _ _ HD)) in Hcc by done.
        rewrite (aniso_cell_iso _ _ _ _ _ _ _ H1 Hcc) in Hi. done.
    - intros [[x Hx] Hge']. apply (fi_f _ _ _ _ _ HF0) in Hx. apply (ci_cell _ _ HI) in Hx as (cc & Hcc & Hxc).
      exists cc. split; [done|]. destruct (id_iso _ _ _ HD) as (ip & _ & _ & Hi).
      apply (Hi k cc); [lia|done]. }
  assert (∀ k cc, ct_ccs ct0 !! k = Some cc → cc_fcs cc = cells_in v k) as Hcells.
  { intros k cc Hcc. apply set_eq. intros x. rewrite elem_of_cells_in, <- (view_lookup ct0 v x k Hv).
    rewrite (ci_cell _ _ HI). naive_solver. }
  pose proof (correct_moves (graph_of i) WF HS ct0 HI Hfull Hfr Hcpt v Hv Hcn) as HW.
  pose proof (ra_e2 _ _ _ _ _ _ _ _ HR) as E2. pose proof (ra_e2 _ _ _ _ _ _ _ _ HR0) as E20.
  rewrite (phase2_correct i ctA p ct0 Hc E20) in E2. rewrite E2 in HW. cbn [wp] in HW.
  destruct HW as (R & ct1 & rho & nc & v1 & HL & HRn & Hv1 & Ha & HRk).
  split.
  2:{ by rewrite (ra_idx _ _ _ _ _ _ _ _ HR), (ra_idx _ _ _ _ _ _ _ _ HR0). }
  2:{ by rewrite (ra_lines _ _ _ _ _ _ _ _ HR), (ra_lines _ _ _ _ _ _ _ _ HR0). }
  exists (ct_sing ct0), v1, R. split; [apply HI|]. split.
  { intros k. rewrite (ci_sing _ _ HI), <- Hiso. fold v.
    assert (ct_thresh ct0 = corr_size i) as ->.
    { rewrite (ex_th _ _ (id_ext _ _ _ HD)), (p1_th _ _ _ _ _ H1). unfold sing_thresh, corr_size. cbn.
      case_bool_decide; case_decide; lia. }
    unfold is_iso. split.
    - intros (cc & Hcc & Hi & Hth). rewrite <- (Hcells k cc Hcc). rewrite <- (proj1 (ci_card _ _ HI k cc Hcc)). eauto.
    - intros [(cc & Hcc & Hi) Hth]. rewrite <- (Hcells k cc Hcc) in Hth.
      rewrite <- (proj1 (ci_card _ _ HI k cc Hcc)) in Hth. eauto. }
  split; [by eapply absorbed_all_iff|]. split; [done|].
  apply list_eq. intros x. rewrite list_lookup_fmap. destruct (v1 !! x) as [k|] eqn:Hx; simpl.
  - pose proof (proj2 (view_lookup ct1 v1 x k Hv1) Hx) as Hx1. apply (fi_f _ _ _ _ _ HF). case_decide as Hk.
    + by apply (rn_orphan _ _ _ _ _ _ _ HRn).
    + assert (k < ct_n ct0) as Hkn.
      { pose proof (cl_corr _ _ _ _ _ HL) as HC.
        assert (x < in_n i) as Hxn by (apply lookup_lt_Some in Hx1; by rewrite (cv_len _ _ _ _ HC) in Hx1).
        destruct (Hfull x Hxn) as [k' Hk']. destruct (decide (k' ∈ R)) as [HkR|HkR].
        - destruct (cv_mv _ _ _ _ HC x k' HkR Hk') as [Hx'|(k2 & _ & Hk2 & Hx')]; [congruence|].
          by assert (k2 = k) as -> by congruence.
        - apply (cv_same _ _ _ _ HC) in Hk' as Hx'; [|done]. assert (k' = k) as -> by congruence.
          apply (ci_cell _ _ HI) in Hk' as (cc & Hcc & _). apply (ci_dom _ _ HI). eauto. }
      rewrite <- (rho_rank _ _ _ _ _ _ _ _ HRn Hkn Hk). by apply (rn_fc _ _ _ _ _ _ _ HRn).
  - apply lookup_ge_None in Hx. apply lookup_ge_None. rewrite (fi_len _ _ _ _ _ HF).
    pose proof (cv_len _ _ _ _ (cl_corr _ _ _ _ _ HL)) as E. rewrite (Hv1 : ct_fc2cc ct1 = _), fmap_length in E.
    change (g_n (graph_of i)) with (in_n i) in E. lia.
Qed.

Lemma rank_le (R : gset nat) a b : a ≤ b → rank R a ≤ rank R b.
Proof.
  intros Hab. unfold rank. replace b with (a + (b - a)) by lia. rewrite seq_app, filter_app, app_length. lia.
Qed.
Lemma rank_lt (R : gset nat) a b : a < b → a ∉ R → rank R a < rank R b.
Proof.
  intros Hab Ha. apply (Nat.lt_le_trans _ (rank R (S a))); [|by apply rank_le].
  unfold rank. rewrite seq_S, filter_app, app_length. simpl. rewrite filter_cons_True by done. simpl. lia.
Qed.
Lemma rank_inj (R : gset nat) a b : a ∉ R → b ∉ R → rank R a = rank R b → a = b.
Proof.
  intros Ha Hb He. destruct (lt_eq_lt_dec a b) as [[Hl| ->]|Hl]; [|done|].
  - pose proof (rank_lt R a b Hl Ha). lia.
  - pose proof (rank_lt R b a Hl Hb). lia.
Qed.

(** The cell of the only small coarse cell. *)
Lemma C46_lem i o r0 e0 r e x k0 : good_call i o → simple_csr (in_row i) (in_col i) → in_corr i = true →
  agglomerate_one_level (uncorrected i) o = (r0, e0) → agglomerate_one_level i o = (r, e) →
  (∀ k, iso_id i o r0 k ∧ (Z.of_nat (size (cells_in (o_fc2cc r0) k)) <= corr_size i)%Z ↔ k = k0) →
  cells_in (o_fc2cc r0) k0 = {[x]} →
  (∀ k, beside (in_row i) (in_col i) (iso_id i o r0) (o_fc2cc r0) k0 {[x]} k →
     ¬ gains (in_row i) (in_col i) {[x]} (cells_in (o_fc2cc r0) k)) →
  ∀ y k k', o_fc2cc r0 !! y = Some k → k ≠ k0 → o_fc2cc r !! y = o_fc2cc r !! x →
    beside (in_row i) (in_col i) (iso_id i o r0) (o_fc2cc r0) k0 {[x]} k' →
    faces_with (in_row i) (in_col i) x (cells_in (o_fc2cc r0) k')
      ≤ faces_with (in_row i) (in_col i) x (cells_in (o_fc2cc r0) k).
Proof.
  intros HG Hsi Hc He0 He Hsmall Hx Hng y k k' Hy Hk Hyx Hb.
  destruct (C41_lem _ _ _ _ _ _ HG Hsi Hc He0 He) as (_ & _ & [(sing & f1 & R & Hs & Hsing & Ha & HR & Hf) _ _]).
  set (f := o_fc2cc r0) in *.
  assert (∀ j, j ∈ sing ↔ j = k0) as Hs0 by (intros j; by rewrite Hsing, Hsmall).
  assert (sing = [k0]) as ->.
  { destruct sing as [|a [|b l]].
    - destruct (Hs0 k0) as [_ Hd]. specialize (Hd eq_refl). by apply elem_of_nil in Hd.
    - f_equal. apply Hs0. by left.
    - assert (a = k0) as -> by (apply Hs0; by left). assert (b = k0) as -> by (apply Hs0; right; by left).
      apply StronglySorted_inv in Hs as [_ Hall]. inversion Hall; lia. }
  assert (absorbed (in_row i) (in_col i) (iso_id i o r0) f k0 f1) as Hab.
  { inversion Ha as [|? ? ? ? ? H1 H2]; subst. by inversion H2; subst. }
  assert (f !! x = Some k0) as Hfx by (apply elem_of_cells_in; rewrite Hx; set_solver).
  assert (x < length f) as Hxl by (by apply lookup_lt_Some in Hfx).
  unfold absorbed in Hab. cbv zeta in Hab. rewrite Hx in Hab.
  destruct Hab as [[Hsz _]|[_ (l & Hnd & Hl & Hobo)]]; [rewrite size_singleton in Hsz; lia|].
  assert (l = [x]) as ->.
  { destruct l as [|a [|b l]].
    - destruct (Hl x) as [_ Hd]. assert (x ∈ ([] : list nat)) as Hd' by (apply Hd; set_solver). by apply elem_of_nil in Hd'.
    - f_equal. assert (a ∈ ({[x]} : gset nat)) by (apply Hl; by left). set_solver.
    - assert (a ∈ ({[x]} : gset nat)) as Ha1 by (apply Hl; by left).
      assert (b ∈ ({[x]} : gset nat)) as Hb1 by (apply Hl; right; by left).
      apply elem_of_singleton in Ha1, Hb1. subst. apply NoDup_cons in Hnd as [Hnd _]. exfalso. apply Hnd. by left. }
  inversion Hobo as [|x1 j l1 g1 g2 Hj Hobo'|x1 l1 g1 g2 Hj Hobo']; subst x1 l1 g1 g2.
  2:{ by apply Hj in Hb. }
  assert (f1 = <[x:=j]> f) as -> by (by inversion Hobo'; subst). clear Hobo' Hobo Ha.
  assert (j ≠ k0) as Hj0 by apply Hj.
  assert (∀ c, c ∈ R ↔ c = k0) as HR0.
  { intros c. rewrite HR, Hs0. split; [tauto|]. intros ->. split; [done|]. exists x. split; [done|].
    rewrite list_lookup_insert by done. congruence. }
  assert (y ≠ x) as Hyne by congruence.
  rewrite Hf, !list_lookup_fmap, list_lookup_insert, list_lookup_insert_ne, Hy in Hyx by done. simpl in Hyx.
  rewrite !decide_False in Hyx by (rewrite HR0; done). injection Hyx as Hyx.
  apply rank_inj in Hyx; [|by rewrite HR0..]. subst k.
  destruct (decide (k' = j)) as [-> |Hne]; [done|].
  destruct Hj as [Hjb Hj]. destruct (Hj k' Hb Hne) as [[Hg _]|[_ [Hlt|[Heq _]]]]; [|lia..].
  by apply Hng in Hjb.
Qed.
End run.
