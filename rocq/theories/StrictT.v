(** * StrictT: iterators invalidated while renumbering (C65) *)

From Verif Require Import MainP CorrectP ApiP ApiT GraphP MoveP SpecSub SpecMove MoveT Strict SpecStrict.

Section steps.
Context {A : Arith} {H : HashOrder}.
Context (g : graph) (WF : wfg g) (HS : simple_graph g).
Implicit Types (ct : container) (R : gset nat).
Notation n := (g_n g).
Notation row := (g_row g).
Notation col := (g_col g).
Context (ct0 : container) (HI0 : cont_inv n ct0).
Notation f0 := (ct_fc2cc ct0).
Notation sing := (ct_sing ct0).
Context (Hfull : ∀ x, x < n → ∃ k, f0 !! x = Some (Some k)).
Context (Hfront : ∀ k cc x y, k ∈ sing → ct_ccs ct0 !! k = Some cc → x ∈ cc_fcs cc →
  y ∈ adj g x → y ∉ cc_fcs cc → ∃ k', k' < k ∧ f0 !! y = Some (Some k')).
Context (Hcpt0 : ∀ k cc, ct_ccs ct0 !! k = Some cc → cc_iso cc = true → is_compactness g (cc_fcs cc) (cc_cpt cc)).
Notation iso := (is_iso ct0).
Notation corr := (corr g ct0).
Notation corr_loop := (corr_loop g ct0).

(** As [correct_moves], before the renumbering. *)
Lemma loop_moves v : view ct0 v →
  (∀ k cc, k ∈ sing → ct_ccs ct0 !! k = Some cc → connected (gedge g) (λ z, z ∈ cc_fcs cc)) →
  wp (foldM (λ '(rem, ct) old, correct_step g ct rem old) sing (∅, ct0)) (λ r, ∃ v1, corr_loop sing r.1 r.2 ∧
    view r.2 v1 ∧ absorbed_all row col iso sing v v1 ∧
    ∀ k, k ∈ r.1 ↔ k ∈ sing ∧ ∃ x, v !! x = Some k ∧ v1 !! x ≠ Some k).
Proof.
  intros Hv Hsc. eapply wp_mono.
  { apply (wp_foldM _ (λ (pre : list nat) (r : gset nat * container), corr_loop pre r.1 r.2 ∧
      ∃ v1, view r.2 v1 ∧ absorbed_all row col iso pre v v1 ∧
        ∀ k, k ∈ r.1 ↔ k ∈ pre ∧ ∃ x, v !! x = Some k ∧ v1 !! x ≠ Some k)).
    { split.
      - split; simpl; [by apply corr_init|set_solver|set_solver|]. intros k cc i Hk. by apply elem_of_nil in Hk.
      - exists v. split; [done|]. split; [constructor|]. simpl. set_solver. }
    intros pre old post [R ct] Heq [HL (v1 & Hv1 & Ha & HR)]. cbn [fst snd] in *.
    assert (old ∉ pre) as Hop.
    { pose proof (ci_sing_nd _ _ HI0) as Hs. rewrite Heq in Hs. intros Hp.
      assert (old < old); [|lia]. eapply (elem_of_StronglySorted_app (<)); [exact Hs|done|by left]. }
    assert (old ∈ sing) as Ho by (rewrite Heq; set_solver).
    assert (old ∉ R) as HoR by (intros Hd; by apply HR in Hd as [? _]).
    pose proof (cl_corr _ _ _ _ _ HL) as HC.
    assert (∀ x, v !! x = Some old ↔ v1 !! x = Some old) as Hold.
    { intros x. rewrite <- (view_lookup ct0 v x old Hv), <- (view_lookup ct v1 x old Hv1). split.
      - by apply (cv_same _ _ _ _ HC).
      - intros Hx. assert (x < n) as Hxn by (apply lookup_lt_Some in Hx; by rewrite (cv_len _ _ _ _ HC) in Hx).
        destruct (Hfull x Hxn) as [k Hk]. destruct (decide (k ∈ R)) as [HkR|HkR].
        + destruct (cv_mv _ _ _ _ HC x k HkR Hk) as [Hx'|(k' & Hk' & _ & Hx')]; [congruence|].
          assert (k' = old) as -> by congruence. done.
        + apply (cv_same _ _ _ _ HC) in Hk as Hx'; [|done]. congruence. }
    eapply wp_mono.
    { apply wp_and; [by apply (correct_step_ok g WF ct0 HI0 Hfull Hfront pre R ct old post)|].
      by apply (correct_step_moves g WF HS ct0 HI0 Hfull Hfront Hcpt0 pre R ct v1 old post). }
    intros [R' ct'] [HL' (v2 & Hv2 & Hab & HR')]. cbn [fst snd] in *. split; [done|].
    exists v2. split; [done|]. split; [by eapply absorbed_snoc|]. intros k. rewrite HR', HR, elem_of_app, elem_of_list_singleton.
    split.
    - intros [[Hk (x & Hx & Hx1)]|[-> (x & Hx & Hx2)]].
      + split; [by left|]. exists x. split; [done|]. intros Hx2. apply Hx1.
        assert (k ≠ old) as Hko by (intros ->; done).
        destruct (v1 !! x) as [c|] eqn:Hc.
        * destruct (decide (c = old)) as [-> |Hne].
          -- apply Hold in Hc. congruence.
          -- rewrite (absorbed_other g ct0 _ _ _ _ _ Hab Hc Hne) in Hx2. congruence.
        * exfalso. apply lookup_ge_None in Hc. apply lookup_lt_Some in Hx.
          assert (length v = n ∧ length v1 = n) as [E1 E2]; [|lia].
          pose proof (cv_len _ _ _ _ HC) as E2. pose proof (ci_flen _ _ HI0) as E1.
          rewrite (Hv1 : ct_fc2cc ct = _), fmap_length in E2. rewrite (Hv : f0 = _), fmap_length in E1. done.
      + split; [by right|]. exists x. split; [by apply Hold|done].
    - intros [[Hk| ->] (x & Hx & Hx2)].
      + left. split; [done|]. exists x. split; [done|]. intros Hx1. apply Hx2.
        apply (absorbed_other g ct0 _ _ _ _ _ Hab Hx1). by intros ->.
      + right. split; [done|]. exists x. split; [by apply Hold|done]. }
  intros [R ct1] [HL (v1 & Hv1 & Ha & HR)]. cbn [fst snd] in *. by exists v1.
Qed.

(** The renumbering is defined if no coarse cell is left behind the first removed one. *)
Lemma renumber_strict R ct1 ct' : corr R ct1 → (∀ k, k ∈ R → ct_ccs ct1 !! k = None) → correct_renumber ct1 R = Ok ct' →
  ((∀ k k', k ∈ R → k' < ct_n ct0 → k' ∉ R → k' < k) → correct_renumber_s ct1 R = Ok ct') ∧
  (∀ k k', k ∈ R → k' < ct_n ct0 → k' ∉ R → ¬ k' < k → correct_renumber_s ct1 R = Err EUB).
Proof using.
  clear WF HS HI0 Hfull Hfront Hcpt0.
  intros HC HR. unfold correct_renumber, correct_renumber_s. destruct (sset R) as [|first rest] eqn:HsR.
  { intros [= <-]. split; [done|]. apply sset_nil in HsR as ->. set_solver. }
  assert (first ∈ R) as Hfirst by (rewrite <- elem_of_sset, HsR; left).
  assert (∀ r, r ∈ R → first ≤ r) as Hmin.
  { intros r Hr. rewrite <- elem_of_sset, HsR in Hr. pose proof (sset_sorted R) as Hs. rewrite HsR in Hs.
    apply StronglySorted_inv in Hs as [_ Hall]. rewrite Forall_forall in Hall.
    apply elem_of_cons in Hr as [->|Hr]; [lia|]. apply Hall in Hr. lia. }
  intros He. apply bind_Ok_inv in He as (st & Hst & He). rewrite Hst, bind_ok in *.
  assert (st = first) as ->.
  { case_bool_decide; [|injection Hst as <-; lia]. destruct (ct_ccs ct1 !! (first - 1)); by simplify_eq. }
  clear Hst. set (keys := filter (λ k, first ≤ k) (skeys (ct_ccs ct1))) in *.
  assert (∀ k, k ∈ keys ↔ is_Some (ct_ccs ct1 !! k) ∧ first ≤ k) as Hkeys.
  { intros k. unfold keys, skeys. rewrite elem_of_list_filter, elem_of_sset, elem_of_dom. tauto. }
  apply bind_Ok_inv in He as (r & He & E). clearbody keys. destruct keys as [|k0 keys].
  - cbn [renumber] in He. simplify_eq. simpl. split; [done|]. intros k k' Hk Hk' HkR Hlt. exfalso.
    assert (k' ∈ @nil nat) as Hin; [|by apply elem_of_nil in Hin]. apply Hkeys. split; [by apply (cv_dom _ _ _ _ HC)|].
    pose proof (Hmin k Hk). lia.
  - cbn [renumber renumber_s] in *. apply bind_Ok_inv in He as (cc & -> & He). rewrite !bind_ok.
    apply bind_Ok_inv in He as (f' & -> & He). rewrite !bind_ok. simpl. split; [|done].
    intros Hall. exfalso. assert (k0 ∈ k0 :: keys) as Hin by left. apply Hkeys in Hin as [Hs Hle].
    assert (k0 ∉ R) as HkR. { intros Hk. apply HR in Hk. rewrite Hk in Hs. by destruct Hs. }
    assert (k0 < ct_n ct0) as Hn by (by apply (cv_dom _ _ _ _ HC)).
    pose proof (Hall first k0 Hfirst Hn HkR). lia.
Qed.
End steps.

Section run.
Context {A : Arith} {H : HashOrder}.
Implicit Types (i : input) (o r : outs).

Lemma C65_rule_lem i o r0 e0 r e : good_call i o → simple_csr (in_row i) (in_col i) → in_corr i = true →
  agglomerate_one_level (uncorrected i) o = (r0, e0) → agglomerate_one_level i o = (r, e) →
  e0 = Ok () ∧ e = Ok () ∧ ∃ R, corrected_by i o r0 r R ∧
    ((∀ k k' x, k ∈ R → o_fc2cc r0 !! x = Some k' → k' ∉ R → k' < k) → agglomerate_strict i o = (r, Ok ())) ∧
    (∀ k k' x, k ∈ R → o_fc2cc r0 !! x = Some k' → k' ∉ R → k < k' → (agglomerate_strict i o).2 = Err EUB).
Proof.
  intros HG Hsi Hc He0 He. pose proof (good_uncorrected i o HG) as HG0.
  destruct (ran_ok i o HG) as (r' & He' & _). destruct (ran_ok _ o HG0) as (r0' & He0' & _).
  split; [congruence|]. split; [congruence|]. clear He' He0' r' r0'.
  destruct (ran_inv _ _ _ _ HG He) as (ctA & p & lo & ct & ct' & HR).
  destruct (ran_inv _ _ _ _ HG0 He0) as (ctA0 & p0 & lo0 & ct0 & ct0' & HR0).
  assert (phase1 (uncorrected i) o = phase1 i o) as Hp1 by done.
  assert (ctA0 = ctA ∧ p0 = p ∧ lo0 = lo) as (-> & -> & ->).
  { pose proof (ra_e1 _ _ _ _ _ _ _ _ HR) as E1. pose proof (ra_e1 _ _ _ _ _ _ _ _ HR0) as E2.
    rewrite Hp1 in E2. rewrite E1 in E2. by simplify_eq. }
  assert (ct0' = ct0) as -> by (apply (ra_corr _ _ _ _ _ _ _ _ HR0)).
  pose proof (ra_iso _ _ _ _ _ _ _ _ HR0) as HD. pose proof (id_inv _ _ _ HD) as HI.
  pose proof (ra_p1 _ _ _ _ _ _ _ _ HR0) as H1.
  destruct (sing_front _ _ _ _ _ _ HG0 H1 HD) as (Hle & Hge & Hfr & Hcn).
  pose proof (mesh_wfg i (gc_mesh _ _ HG)) as WF.
  pose proof (simple_csr_graph i (wf_sym _ (gc_mesh _ _ HG)) Hsi) as HS.
  assert (∀ x, x < in_n i → ∃ k, ct_fc2cc ct0 !! x = Some (Some k)) as Hfull.
  { intros x Hx. destruct (id_full _ _ _ HD x Hx) as (k & _ & Hk). eauto. }
  assert (∀ k cc, ct_ccs ct0 !! k = Some cc → cc_iso cc = true → is_compactness (graph_of i) (cc_fcs cc) (cc_cpt cc)) as Hcpt.
  { intros k0 cc0 Hc0 Hi0. destruct (id_iso _ _ _ HD) as (ip & _ & _ & Hiso).
    destruct (decide (ct_n ctA ≤ k0)) as [Hk|Hk]; [by apply (Hiso k0 cc0)|].
    rewrite (ex_ccs _ _ (id_ext _ _ _ HD)) in Hc0 by lia.
    rewrite (aniso_cell_iso _ _ _ _ _ _ _ H1 Hc0) in Hi0. done. }
  pose proof (ra_fin _ _ _ _ _ _ _ _ HR0) as HF0. pose proof (ra_fin _ _ _ _ _ _ _ _ HR) as HF.
  set (v := o_fc2cc r0) in *.
  assert (view ct0 v) as Hv.
  { unfold view. apply list_eq. intros x. rewrite list_lookup_fmap. destruct (v !! x) as [k|] eqn:Hx; simpl.
    - by apply (fi_f _ _ _ _ _ HF0).
    - apply lookup_ge_None in Hx. apply lookup_ge_None. rewrite (ci_flen _ _ HI).
      by rewrite (fi_len _ _ _ _ _ HF0) in Hx. }
  assert (∀ k, is_iso ct0 k ↔ iso_id i o r0 k) as Hiso.
  { intros k. unfold is_iso, iso_id.
    change (aniso_id i o r0 k) with (aniso_id (uncorrected i) o r0 k). rewrite (aniso_id_lt _ _ _ _ _ _ _ _ k HR0).
    fold v. split.
    - intros (cc & Hcc & Hi). split.
      + destruct (ci_card _ _ HI k cc Hcc) as [_ Hne]. destruct (set_choose_L _ Hne) as [x Hx]. exists x.
        apply (fi_f _ _ _ _ _ HF0). apply (ci_cell _ _ HI). eauto.
      + intros Hlt. rewrite (ex_ccs _ _ (id_ext _ _ _ HD)) in Hcc by done.
        rewrite (aniso_cell_iso _ _ _ _ _ _ _ H1 Hcc) in Hi. done.
    - intros [[x Hx] Hge']. apply (fi_f _ _ _ _ _ HF0) in Hx. apply (ci_cell _ _ HI) in Hx as (cc & Hcc & Hxc).
      exists cc. split; [done|]. destruct (id_iso _ _ _ HD) as (ip & _ & _ & Hi).
      apply (Hi k cc); [lia|done]. }
  assert (∀ k cc, ct_ccs ct0 !! k = Some cc → cc_fcs cc = cells_in v k) as Hcells.
  { intros k cc Hcc. apply set_eq. intros x. rewrite elem_of_cells_in, <- (view_lookup ct0 v x k Hv).
    rewrite (ci_cell _ _ HI). naive_solver. }
  pose proof (loop_moves (graph_of i) WF HS ct0 HI Hfull Hfr Hcpt v Hv Hcn) as HW.
  pose proof (ra_e2 _ _ _ _ _ _ _ _ HR) as E2. pose proof (ra_e2 _ _ _ _ _ _ _ _ HR0) as E20.
  rewrite (phase2_correct i ctA p ct0 Hc E20) in E2. unfold correct in E2. apply bind_Ok_inv in E2 as ([R ct1] & EL & E2).
  rewrite EL in HW. cbn [wp fst snd] in HW, E2.
  destruct HW as (v1 & HL & Hv1 & Ha & HRk).
  assert (∀ k, k ∈ R → ct_ccs ct1 !! k = None) as HRN by (intros k Hk; by apply (cl_R _ _ _ _ _ HL)).
  pose proof (correct_renumber_ok (graph_of i) WF ct0 HI Hfull Hfr R ct1 (cl_corr _ _ _ _ _ HL) HRN) as HW.
  rewrite E2 in HW. cbn [wp] in HW. destruct HW as (rho & nc & HRn).
  exists R. split.
  2:{ destruct (renumber_strict (graph_of i) ct0 R ct1 ct' (cl_corr _ _ _ _ _ HL) HRN E2) as [S1 S2].
    assert (∀ k, k < ct_n ct0 ↔ ∃ x, v !! x = Some k) as Hnum.
    { intros k. rewrite <- (ci_dom _ _ HI). split.
      - intros [cc Hcc]. destruct (ci_card _ _ HI k cc Hcc) as [_ Hne]. destruct (set_choose_L _ Hne) as [x Hx]. exists x.
        apply (view_lookup ct0 v x k Hv). apply (ci_cell _ _ HI). eauto.
      - intros [x Hx]. apply (view_lookup ct0 v x k Hv) in Hx. apply (ci_cell _ _ HI) in Hx as (cc & Hcc & _). eauto. }
    assert (phase2_s i ctA p = correct_renumber_s ct1 R) as ES.
    { unfold phase2_s, iso_agglomerate_s. unfold phase2, iso_agglomerate in E20.
      change (iso_params_of (uncorrected i)) with (iso_params_of i) in E20.
      change (graph_of (uncorrected i)) with (graph_of i) in E20. change (in_prio (uncorrected i)) with (in_prio i) in E20.
      change (in_corr (uncorrected i)) with false in E20. rewrite Hc.
      apply bind_Ok_inv in E20 as (ip & -> & E20). rewrite bind_ok.
      apply bind_Ok_inv in E20 as (rr & -> & E20). rewrite bind_ok.
      apply bind_Ok_inv in E20 as (ct2 & -> & E20). rewrite bind_ok. simplify_eq.
      unfold correct_s. rewrite EL. by rewrite bind_ok. }
    pose proof He as He'. unfold agglomerate_strict. unfold agglomerate_one_level in He'.
    rewrite (ra_e1 _ _ _ _ _ _ _ _ HR) in He' |- *. rewrite ES. rewrite (ra_e2 _ _ _ _ _ _ _ _ HR) in He'. split.
    - intros Hall. rewrite S1. { rewrite He'. destruct (ran_ok i o HG) as (r' & He'' & _). congruence. }
      intros k k' Hk Hk' HkR. apply Hnum in Hk' as [x Hx]. by eapply Hall.
    - intros k k' x Hk Hx HkR Hlt. rewrite (S2 k k' Hk); [done|apply Hnum; eauto|done|lia]. }
  exists (ct_sing ct0), v1. split; [apply HI|]. split.
  { intros k. rewrite (ci_sing _ _ HI), <- Hiso. fold v.
    assert (ct_thresh ct0 = corr_size i) as ->.
    { rewrite (ex_th _ _ (id_ext _ _ _ HD)), (p1_th _ _ _ _ _ H1). unfold sing_thresh, corr_size. cbn.
      case_bool_decide; case_decide; lia. }
    unfold is_iso. split.
    - intros (cc & Hcc & Hi & Hth). rewrite <- (Hcells k cc Hcc). rewrite <- (proj1 (ci_card _ _ HI k cc Hcc)). eauto.
    - intros [(cc & Hcc & Hi) Hth]. rewrite <- (Hcells k cc Hcc) in Hth.
      rewrite <- (proj1 (ci_card _ _ HI k cc Hcc)) in Hth. eauto. }
  split; [by eapply absorbed_all_iff|]. split; [done|].
  apply list_eq. intros x. rewrite list_lookup_fmap. destruct (v1 !! x) as [k|] eqn:Hx; simpl.
  - pose proof (proj2 (view_lookup ct1 v1 x k Hv1) Hx) as Hx1. apply (fi_f _ _ _ _ _ HF). case_decide as Hk.
    + by apply (rn_orphan _ _ _ _ _ _ _ HRn).
    + assert (k < ct_n ct0) as Hkn.
      { pose proof (cl_corr _ _ _ _ _ HL) as HC.
        assert (x < in_n i) as Hxn by (apply lookup_lt_Some in Hx1; by rewrite (cv_len _ _ _ _ HC) in Hx1).
        destruct (Hfull x Hxn) as [k' Hk']. destruct (decide (k' ∈ R)) as [HkR|HkR].
        - destruct (cv_mv _ _ _ _ HC x k' HkR Hk') as [Hx'|(k2 & _ & Hk2 & Hx')]; [congruence|].
          by assert (k2 = k) as -> by congruence.
        - apply (cv_same _ _ _ _ HC) in Hk' as Hx'; [|done]. assert (k' = k) as -> by congruence.
          apply (ci_cell _ _ HI) in Hk' as (cc & Hcc & _). apply (ci_dom _ _ HI). eauto. }
      rewrite <- (rho_rank _ _ _ _ _ _ _ _ HRn Hkn Hk). by apply (rn_fc _ _ _ _ _ _ _ HRn).
  - apply lookup_ge_None in Hx. apply lookup_ge_None. rewrite (fi_len _ _ _ _ _ HF).
    pose proof (cv_len _ _ _ _ (cl_corr _ _ _ _ _ HL)) as E. rewrite (Hv1 : ct_fc2cc ct1 = _), fmap_length in E.
    change (g_n (graph_of i)) with (in_n i) in E. lia.
Qed.


(** Without correction the iterators are not used. *)
Lemma C65_off_lem i o : in_corr i = false → agglomerate_strict i o = agglomerate_one_level i o.
Proof.
  intros Hc. unfold agglomerate_strict, agglomerate_one_level.
  assert (∀ ct p, phase2_s i ct p = phase2 i ct p) as E.
  { intros ct p. unfold phase2_s, phase2, iso_agglomerate_s, iso_agglomerate. by rewrite Hc. }
  destruct (phase1 i o) as [[[ct p] l]|]; [|done]. by rewrite E.
Qed.
(** In any case the result is the same or undefined. *)
Lemma C65_either_lem i o : agglomerate_strict i o = agglomerate_one_level i o ∨ (agglomerate_strict i o).2 = Err EUB.
Proof.
  unfold agglomerate_strict, agglomerate_one_level. destruct (phase1 i o) as [[[ct p] l]|]; [|by left].
  assert (phase2_s i ct p = phase2 i ct p ∨ phase2_s i ct p = Err EUB) as [E|E]; [|rewrite E; by left|rewrite E; by right].
  unfold phase2_s, phase2. destruct (iso_params_of i); [|by left]. rewrite !bind_ok.
  unfold iso_agglomerate_s, iso_agglomerate. destruct (iso_loop _ _ _ _ _ _); [|by left]. rewrite !bind_ok.
  destruct (create_all_delayed _) as [ct1|]; [|by left]. rewrite !bind_ok. destruct (in_corr i); [|by left].
  unfold correct_s, correct. destruct (foldM _ _ _) as [[R ct2]|]; [|by left]. rewrite !bind_ok. simpl.
  unfold correct_renumber_s, correct_renumber. destruct (sset R) as [|first rest]; [by left|].
  destruct (if bool_decide (0 < first) then _ else _) as [st|]; [|by left]. rewrite !bind_ok.
  destruct (filter _ _) as [|k keys]; [by left|]. cbn [renumber renumber_s].
  destruct (mapat _ _); [|by left]. rewrite !bind_ok. destruct (set_ids _ _ _); [by right|by left].
Qed.
End run.
