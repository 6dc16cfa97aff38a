(** * ReordV: the correction with the faces listed in another order (C58) *)

From Verif Require Import Features Iso Main Spec SpecSub SpecFeat SpecAR SpecBest SpecFront SpecPool SpecGrow SpecFeed SpecHash
  SpecLine SpecMove SpecWhole SpecReord GraphP ContainerP AnisoP IsoP MainP FeatT ApiP ApiT RuleT MoveT WholeU ReordT ReordU.
From Verif Require CoarseT.

(** ** Steps which return normally for both *)
Lemma foldM_mono {X Y} (f f' : Y → X → res Y) l b c :
  (∀ a x a', f a x = Ok a' → f' a x = Ok a') → foldM f l b = Ok c → foldM f' l b = Ok c.
Proof.
  intros Hf. revert b. induction l as [|x l IH]; intros b; simpl; [done|].
  intros (b' & E & E')%bind_Ok_inv. rewrite (Hf _ _ _ E), bind_ok. by apply IH.
Qed.
Lemma foldM_perm {X Y} (f : Y → X → res Y) l l' b c :
  (∀ a x y a1 a2, f a x = Ok a1 → f a1 y = Ok a2 → ∃ a3, f a y = Ok a3 ∧ f a3 x = Ok a2) →
  l ≡ₚ l' → foldM f l b = Ok c → foldM f l' b = Ok c.
Proof.
  intros Hf HP. revert b. induction HP as [|x l l' HP IH|x y l|l1 l2 l3 _ IH1 _ IH2]; intros b; simpl; [done| | |].
  - intros (b' & E & E')%bind_Ok_inv. rewrite E, bind_ok. by apply IH.
  - intros (b' & E & E')%bind_Ok_inv. apply bind_Ok_inv in E' as (b2 & E2 & E3).
    destruct (Hf _ _ _ _ _ E E2) as (b3 & F1 & F2). by rewrite F1, bind_ok, F2, bind_ok.
  - intros E. by apply IH2, IH1.
Qed.

Section correction.
Context {A : Arith} {H : HashOrder} (g g' : graph).
Context (T : ∀ i l, nbrs g i = Ok l → ∃ l', nbrs g' i = Ok l' ∧ l ≡ₚ l').

Lemma neighs_same ct i k s : get_neighs_cc g ct i k = Ok s → get_neighs_cc g' ct i k = Ok s.
Proof.
  unfold get_neighs_cc. intros (l & E & Hf)%bind_Ok_inv. destruct (T _ _ E) as (l' & -> & HP). rewrite bind_ok.
  revert HP Hf. apply foldM_perm. intros a x y a1 a2 E1 E2.
  apply bind_Ok_inv in E1 as (ox & Ex & E1). apply bind_Ok_inv in E1 as (cx & Ecx & E1). injection E1 as <-.
  apply bind_Ok_inv in E2 as (oy & Ey & E2). apply bind_Ok_inv in E2 as (cy & Ecy & E2). injection E2 as <-.
  rewrite Ey, bind_ok, Ecy, bind_ok. eexists. split; [done|]. rewrite Ex, bind_ok, Ecx, bind_ok. f_equal.
  repeat case_bool_decide; set_solver.
Qed.

Lemma shared_same x cc s : get_shared_faces g x cc = Ok s → get_shared_faces g' x cc = Ok s.
Proof.
  unfold get_shared_faces. apply foldM_mono. intros a y a' (l & E & Hf)%bind_Ok_inv. injection Hf as <-.
  destruct (T _ _ E) as (l' & -> & HP). rewrite bind_ok. unfold count_occ_nat. by rewrite HP.
Qed.

Lemma compactness_same s v : min_compactness g s = Ok v → min_compactness g' s = Ok v.
Proof.
  unfold min_compactness. case_bool_decide; [|done]. intros (d & E & Hd)%bind_Ok_inv.
  enough (fc_compactness g' s = Ok d) as -> by exact Hd. clear Hd. revert E. unfold fc_compactness.
  case_bool_decide; [done|]. case_bool_decide; [done|]. apply foldM_mono.
  intros a x a' (l & E & Hf)%bind_Ok_inv. injection Hf as <-.
  destruct (T _ _ E) as (l' & -> & HP). rewrite bind_ok. unfold count_in. by rewrite HP.
Qed.

Lemma cands_same ct fcs sf sf' nb l : (∀ cc s, sf cc = Ok s → sf' cc = Ok s) →
  cands g ct fcs sf nb = Ok l → cands g' ct fcs sf' nb = Ok l.
Proof.
  intros Hsf. unfold cands. apply foldM_mono. intros a k a' (cc & E & Ef)%bind_Ok_inv. rewrite E, bind_ok. clear E.
  destruct (cc_iso cc); [|done]. apply bind_Ok_inv in Ef as (s & Es & Ef). rewrite (Hsf _ _ Es), bind_ok.
  apply bind_Ok_inv in Ef as (c & Ec & Ef). by rewrite (compactness_same _ _ Ec), bind_ok.
Qed.

Lemma whole_same ct fcs nb o : select_best_whole g ct fcs nb = Ok o → select_best_whole g' ct fcs nb = Ok o.
Proof.
  unfold select_best_whole. intros (l & E & Ef)%bind_Ok_inv.
  rewrite (cands_same _ _ _ (λ _, Ok 0%Z) _ _ (λ _ _ e, e) E), bind_ok. exact Ef.
Qed.
Lemma best_same ct x nb o : select_best g ct x nb = Ok o → select_best g' ct x nb = Ok o.
Proof.
  unfold select_best. intros (l & E & Ef)%bind_Ok_inv.
  rewrite (cands_same _ _ _ (get_shared_faces g' x) _ _ (shared_same x) E), bind_ok. exact Ef.
Qed.
Lemma insert_same ccs k s c ccs' : insert_cells g ccs k s c = Ok ccs' → insert_cells g' ccs k s c = Ok ccs'.
Proof.
  unfold insert_cells. destruct (ccs !! k) as [cc|]; [|done]. intros (c' & E & Ef)%bind_Ok_inv.
  destruct c as [c|]; [by injection E as ->|]. by rewrite (compactness_same _ _ E), bind_ok.
Qed.

Lemma correct_whole_same ct fcs nb r : correct_whole g ct fcs nb = Ok r → correct_whole g' ct fcs nb = Ok r.
Proof.
  unfold correct_whole. cbn zeta. case_bool_decide; [done|]. intros (o & E & Ef)%bind_Ok_inv.
  rewrite (whole_same _ _ _ _ E), bind_ok. destruct o as [[k c]|]; [|done].
  apply bind_Ok_inv in Ef as (f & E1 & Ef). rewrite E1, bind_ok. apply bind_Ok_inv in Ef as (ccs & E2 & Ef).
  by rewrite (insert_same _ _ _ _ _ E2), bind_ok.
Qed.
Lemma correct_cells_same ct nb l r : correct_cells g ct nb l = Ok r → correct_cells g' ct nb l = Ok r.
Proof.
  unfold correct_cells. apply foldM_mono. intros [rm a] x a' (s & E & Ef)%bind_Ok_inv. rewrite E, bind_ok.
  case_bool_decide; [done|]. apply bind_Ok_inv in Ef as (o & E1 & Ef). rewrite (best_same _ _ _ _ E1), bind_ok.
  destruct o as [[k c]|]; [|done].
  apply bind_Ok_inv in Ef as (f & E2 & Ef). rewrite E2, bind_ok. apply bind_Ok_inv in Ef as (ccs & E3 & Ef).
  by rewrite (insert_same _ _ _ _ _ E3), bind_ok.
Qed.
Lemma correct_step_same ct rem k r : correct_step g ct rem k = Ok r → correct_step g' ct rem k = Ok r.
Proof.
  unfold correct_step. intros (cur & E & Ef)%bind_Ok_inv. rewrite E, bind_ok. clear E.
  case_bool_decide; [|done]. cbn zeta in *. apply bind_Ok_inv in Ef as (nb & E & Ef).
  assert (foldM (λ m i, s ← get_neighs_cc g' ct i k; Ok (<[i := s]> m)) (hset s_corr_fcs (cc_fcs cur)) ∅ = Ok nb) as ->.
  { revert E. apply foldM_mono. intros a x a' (s & E & E')%bind_Ok_inv. by rewrite (neighs_same _ _ _ _ E), bind_ok. }
  rewrite bind_ok. apply bind_Ok_inv in Ef as (w & E1 & Ef).
  assert ((if bool_decide (1 < cc_card cur)%Z then correct_whole g' ct (cc_fcs cur) nb else Ok (false, ct)) = Ok w) as ->.
  { revert E1. case_bool_decide; [apply correct_whole_same|done]. }
  rewrite bind_ok. apply bind_Ok_inv in Ef as (r1 & E2 & Ef).
  assert ((if w.1 : bool then Ok w else correct_cells g' w.2 nb (hkeys s_corr_by_fc nb)) = Ok r1) as ->.
  { revert E2. destruct (w.1); [done|]. apply correct_cells_same. }
  rewrite bind_ok. exact Ef.
Qed.
Lemma correct_same ct r : correct g ct = Ok r → correct g' ct = Ok r.
Proof.
  unfold correct. intros (r1 & E & Ef)%bind_Ok_inv.
  enough (foldM (λ '(rem, ct) old, correct_step g' ct rem old) (ct_sing ct) (∅, ct) = Ok r1) as -> by exact Ef.
  revert E. apply foldM_mono. intros [rem a] x a'. apply correct_step_same.
Qed.
End correction.

Section reord.
Context {A : Arith} {H : HashOrder}.
Implicit Types (i : input) (o r : outs).

Lemma perm_nbrs g g' : wfg g → wfg g' → g_n g' = g_n g → (∀ x, adj g x ≡ₚ adj g' x) →
  ∀ x l, nbrs g x = Ok l → ∃ l', nbrs g' x = Ok l' ∧ l ≡ₚ l'.
Proof.
  intros WF WF' Hn HP x l E. assert (x < g_n g) as Hx.
  { unfold nbrs in E. apply bind_Ok_inv in E as (a & _ & E). apply bind_Ok_inv in E as (b & Eb & _).
    unfold vget in Eb. destruct (g_row g !! S x) eqn:Er; [|done]. apply lookup_lt_Some in Er.
    rewrite (csr_len _ _ _ (wg_csr _ WF)) in Er. lia. }
  rewrite (nbrs_ok g WF x Hx) in E. injection E as <-. exists (adj g' x). split; [|apply HP].
  apply nbrs_ok; [done|]. by rewrite Hn.
Qed.

Lemma perm_compactness g g' s v : (∀ x, adj g x ≡ₚ adj g' x) → is_compactness g s v → is_compactness g' s v.
Proof.
  intros HP. unfold is_compactness. assert (cpt_map g' s = cpt_map g s) as ->; [|done].
  apply map_eq. intros x. rewrite !lookup_cpt_map. case_decide; [|done]. f_equal. unfold count_in. by rewrite (HP x).
Qed.
Lemma compactness_inj g s v w : is_compactness g s v → is_compactness g s w → v = w.
Proof. unfold is_compactness. case_decide; [apply is_min_inj|congruence]. Qed.

(** The state before the correction is determined by the uncorrected result. *)
Lemma same_state i i' o r ctA p lo ct ctA' p' lo' ct' :
  in_n i' = in_n i → sing_thresh i' = sing_thresh i → (aniso_on i' o ↔ aniso_on i o) →
  (∀ x, adj (graph_of i) x ≡ₚ adj (graph_of i') x) →
  simple_graph (graph_of i) → simple_graph (graph_of i') →
  ran i o r ctA p lo ct ct → ran i' o r ctA' p' lo' ct' ct' → ct' = ct.
Proof.
  intros Hn Hth Hon HP SG SG' HR HR'.
  assert (ct_n ctA' = ct_n ctA) as HnA.
  { assert (∀ c, c < ct_n ctA' ↔ c < ct_n ctA) as Hc.
    { intros c. rewrite <- (aniso_id_lt _ _ _ _ _ _ _ _ c HR), <- (aniso_id_lt _ _ _ _ _ _ _ _ c HR').
      unfold aniso_id. by rewrite Hon. }
    pose proof (Hc (ct_n ctA)). pose proof (Hc (ct_n ctA')). lia. }
  destruct HR as [P1 D1 _ F1 _ _ _ _], HR' as [P2 D2 _ F2 _ _ _ _].
  pose proof (id_inv _ _ _ D1) as I1. pose proof (id_inv _ _ _ D2) as I2.
  assert (ct_fc2cc ct' = ct_fc2cc ct) as Ef.
  { apply list_eq. intros x. destruct (decide (x < in_n i)) as [Hx|Hx].
    - destruct (id_full _ _ _ D1 x Hx) as (k & _ & Hk). rewrite Hk. apply (fi_f _ _ _ _ _ F2), (fi_f _ _ _ _ _ F1), Hk.
    - rewrite !lookup_ge_None_2; [done| |]; [rewrite (ci_flen _ _ I1)|rewrite (ci_flen _ _ I2)]; lia. }
  assert (∀ k cc, ct_ccs ct !! k = Some cc → cc_iso cc = negb (bool_decide (k < ct_n ctA)) ∧
    if cc_iso cc then is_compactness (graph_of i) (cc_fcs cc) (cc_cpt cc) else cc_cpt cc = 1%Z) as C1.
  { intros k cc Hc. case_bool_decide as Hk.
    - rewrite (ex_ccs _ _ (id_ext _ _ _ D1)) in Hc by done. destruct lo as [outs|].
      + destruct (p1_on _ _ _ _ _ P1 outs eq_refl) as (_ & lines & _ & _ & _ & HI).
        by destruct (ai_cell _ _ _ _ _ _ HI k cc Hc) as (q & l & -> & _).
      + destruct (p1_off _ _ _ _ _ P1 eq_refl) as [_ Hz]. lia.
    - destruct (id_iso _ _ _ D1) as (ip & _ & _ & Hi). destruct (Hi k cc) as [Hi1 _ _ _ Hi2 _]; [lia|done|].
      rewrite Hi1. split; [done|]. by apply Hi2. }
  assert (∀ k cc, ct_ccs ct' !! k = Some cc → cc_iso cc = negb (bool_decide (k < ct_n ctA)) ∧
    if cc_iso cc then is_compactness (graph_of i) (cc_fcs cc) (cc_cpt cc) else cc_cpt cc = 1%Z) as C2.
  { intros k cc Hc. rewrite <- HnA. case_bool_decide as Hk.
    - rewrite (ex_ccs _ _ (id_ext _ _ _ D2)) in Hc by done. destruct lo' as [outs|].
      + destruct (p1_on _ _ _ _ _ P2 outs eq_refl) as (_ & lines & _ & _ & _ & HI).
        by destruct (ai_cell _ _ _ _ _ _ HI k cc Hc) as (q & l & -> & _).
      + destruct (p1_off _ _ _ _ _ P2 eq_refl) as [_ Hz]. lia.
    - destruct (id_iso _ _ _ D2) as (ip & _ & _ & Hi). destruct (Hi k cc) as [Hi1 _ _ _ Hi2 _]; [lia|done|].
      rewrite Hi1. split; [done|]. apply (perm_compactness (graph_of i')); [intros x; symmetry; apply HP|]. by apply Hi2. }
  assert (∀ k cc cc', ct_ccs ct !! k = Some cc → ct_ccs ct' !! k = Some cc' → cc' = cc) as Ecc.
  { intros k cc cc' Hc Hc'. destruct (C1 _ _ Hc) as [J1 K1], (C2 _ _ Hc') as [J2 K2].
    destruct (ci_card _ _ I1 _ _ Hc) as [N1 _], (ci_card _ _ I2 _ _ Hc') as [N2 _].
    assert (cc_fcs cc' = cc_fcs cc) as Es.
    { apply set_eq. intros x. split; intros Hx.
      - assert (ct_fc2cc ct !! x = Some (Some k)) as Hx' by (rewrite <- Ef; apply (ci_cell _ _ I2); eauto).
        apply (ci_cell _ _ I1) in Hx' as (q & Hq & Hx'). congruence.
      - assert (ct_fc2cc ct' !! x = Some (Some k)) as Hx' by (rewrite Ef; apply (ci_cell _ _ I1); eauto).
        apply (ci_cell _ _ I2) in Hx' as (q & Hq & Hx'). congruence. }
    destruct cc as [s n c b], cc' as [s' n' c' b']. cbn [cc_fcs cc_card cc_cpt cc_iso] in *. subst s'.
    rewrite <- J1 in J2. subst b' n n'. f_equal. destruct b; [by eapply compactness_inj|congruence]. }
  assert (∀ k, is_Some (ct_ccs ct !! k) ↔ is_Some (ct_ccs ct' !! k)) as Edom.
  { intros k. split; intros [cc Hc].
    - destruct (ci_card _ _ I1 _ _ Hc) as [_ Hne]. destruct (set_choose_L _ Hne) as [x Hx].
      assert (ct_fc2cc ct' !! x = Some (Some k)) as Hx' by (rewrite Ef; apply (ci_cell _ _ I1); eauto).
      apply (ci_cell _ _ I2) in Hx' as (q & Hq & _). eauto.
    - destruct (ci_card _ _ I2 _ _ Hc) as [_ Hne]. destruct (set_choose_L _ Hne) as [x Hx].
      assert (ct_fc2cc ct !! x = Some (Some k)) as Hx' by (rewrite <- Ef; apply (ci_cell _ _ I2); eauto).
      apply (ci_cell _ _ I1) in Hx' as (q & Hq & _). eauto. }
  assert (ct_ccs ct' = ct_ccs ct) as Eccs.
  { apply map_eq. intros k. destruct (ct_ccs ct !! k) as [cc|] eqn:E1.
    - destruct (proj1 (Edom k)) as [cc' E2]; [eauto|]. rewrite E2. f_equal. by eapply Ecc.
    - destruct (ct_ccs ct' !! k) as [cc'|] eqn:E2; [|done]. destruct (proj2 (Edom k)) as [cc E3]; [eauto|]. congruence. }
  assert (ct_n ct' = ct_n ct) as En.
  { pose proof (ci_dom _ _ I1) as B1. pose proof (ci_dom _ _ I2) as B2. rewrite Eccs in B2.
    pose proof (B1 (ct_n ct)) as [B3 B4]. pose proof (B2 (ct_n ct)) as [B5 B6].
    pose proof (B1 (ct_n ct')) as [B7 B8]. pose proof (B2 (ct_n ct')) as [B9 B10].
    destruct (lt_eq_lt_dec (ct_n ct') (ct_n ct)) as [[Hlt|]|Hlt]; [|done|].
    - apply B8, B9 in Hlt. lia.
    - apply B6, B3 in Hlt. lia. }
  assert (ct_aggl ct' = ct_aggl ct) as Ea.
  { apply list_eq_same_length with (in_n i).
    - by rewrite (ci_alen _ _ I1).
    - by rewrite (ci_alen _ _ I2), Hn.
    - intros x b b' _ Hb Hb'. pose proof (ci_aggl _ _ I1 x) as B1. pose proof (ci_aggl _ _ I2 x) as B2.
      rewrite Ef, <- B1 in B2. simplify_eq.
      destruct b, b'; [done|exfalso|exfalso|done].
      + destruct B2 as [B2 B3]. naive_solver.
      + destruct B2 as [B2 B3]. naive_solver. }
  assert (ct_thresh ct' = ct_thresh ct) as Et.
  { by rewrite (ex_th _ _ (id_ext _ _ _ D1)), (p1_th _ _ _ _ _ P1), (ex_th _ _ (id_ext _ _ _ D2)), (p1_th _ _ _ _ _ P2). }
  assert (ct_sing ct' = ct_sing ct) as Es.
  { apply CoarseT.sorted_eq; [apply I2|apply I1|]. intros k. by rewrite (ci_sing _ _ I1), (ci_sing _ _ I2), Eccs, Et. }
  pose proof (ci_nagg _ _ I1) as G1. pose proof (ci_nagg _ _ I2) as G2. rewrite Ea, <- G1 in G2.
  pose proof (ci_delayed _ _ I1) as L1. pose proof (ci_delayed _ _ I2) as L2. rewrite <- L1 in L2.
  destruct ct, ct'. simpl in *. by subst.
Qed.

Lemma adj_perm i row col val : wf_mesh i → relisted i row col val →
  ∀ x, adj (graph_of i) x ≡ₚ adj (graph_of (put_csr i row col val)) x.
Proof.
  intros WM HR x. rewrite !adj_nb_list. apply (sf_nb _ _ (relisted_same i row col val WM HR) x).
Qed.

Lemma final_fun i ctA1 ct1 ctA2 ct2 i' ct f f' : in_n i' = in_n i → final i ctA1 ct1 ct f → final i' ctA2 ct2 ct f' → f' = f.
Proof.
  intros Hn [L1 F1 _ _] [L2 F2 _ _]. apply list_eq. intros x. apply option_eq. intros k. by rewrite F1, F2.
Qed.

End reord.

Lemma C58_any_lem {A : Arith} {H : HashOrder} i o row col val :
  exact_arith → total_order A → good_call i o → simple_csr (in_row i) (in_col i) →
  sym_weights (in_row i) (in_col i) (in_val i) → extremes_fine i →
  relisted i row col val → same_along_lines i o row col →
  agglomerate_one_level (put_csr i row col val) o = agglomerate_one_level i o.
Proof.
  intros EA HO HG Hs Hsw Hex HR HL. destruct (in_corr i) eqn:Hc; [|apply C58_lem; auto].
  pose proof (gc_mesh _ _ HG) as WM. pose proof (relisted_n i row col val HR) as Hn.
  pose proof (relisted_good i row col val WM HR o HG) as HG'. pose proof (relisted_simple i row col val WM HR Hs) as Hs'.
  pose proof (gc_mesh _ _ HG') as WM'.
  set (i' := put_csr i row col val) in *.
  pose proof (good_uncorrected _ _ HG) as HG0. pose proof (good_uncorrected _ _ HG') as HG0'.
  assert (agglomerate_one_level (uncorrected i') o = agglomerate_one_level (uncorrected i) o) as E0.
  { apply (C58_lem (uncorrected i) o row col val); try done; [by left|]. destruct HR. by split. }
  destruct (agglomerate_one_level (uncorrected i) o) as [r0 e0] eqn:F0.
  destruct (agglomerate_one_level i o) as [r e] eqn:F. destruct (agglomerate_one_level i' o) as [r' e'] eqn:F'.
  assert (e = Ok ()) as ->. { destruct (C01_lem i o HG) as (r1 & E1 & _). rewrite E1 in F. by injection F. }
  assert (e' = Ok ()) as ->. { destruct (C01_lem i' o HG') as (r1 & E1 & _). rewrite E1 in F'. by injection F'. }
  f_equal.
  destruct (ran_inv _ _ _ _ HG F) as (ctA & p & lo & ctx & ct & R1).
  destruct (ran_inv _ _ _ _ HG' F') as (ctA' & p' & lo' & ctx' & ct' & R2).
  destruct (ran_inv _ _ _ _ HG0 F0) as (ctB & q & lq & cty & ct0 & R3).
  destruct (ran_inv _ _ _ _ HG0' E0) as (ctB' & q' & lq' & cty' & ct0' & R4).
  assert (ctB = ctA ∧ q = p ∧ lq = lo) as (-> & -> & ->).
  { pose proof (ra_e1 _ _ _ _ _ _ _ _ R1) as J1. pose proof (ra_e1 _ _ _ _ _ _ _ _ R3) as J2.
    change (phase1 (uncorrected i) o) with (phase1 i o) in J2. rewrite J1 in J2. by simplify_eq. }
  assert (ctB' = ctA' ∧ q' = p' ∧ lq' = lo') as (-> & -> & ->).
  { pose proof (ra_e1 _ _ _ _ _ _ _ _ R2) as J1. pose proof (ra_e1 _ _ _ _ _ _ _ _ R4) as J2.
    change (phase1 (uncorrected i') o) with (phase1 i' o) in J2. rewrite J1 in J2. by simplify_eq. }
  assert (ct0 = cty) as -> by (apply (ra_corr _ _ _ _ _ _ _ _ R3)).
  assert (ct0' = cty') as -> by (apply (ra_corr _ _ _ _ _ _ _ _ R4)).
  pose proof (adj_perm i row col val WM HR) as HP.
  assert (cty' = cty) as ->.
  { apply (same_state (uncorrected i) (uncorrected i') o r0 ctA p lo cty ctA' p' lo' cty'); try done.
    - by apply simple_csr_graph; [apply (wf_sym _ WM)|].
    - by apply simple_csr_graph; [apply (wf_sym _ WM')|]. }
  pose proof (ra_e2 _ _ _ _ _ _ _ _ R1) as J1. pose proof (ra_e2 _ _ _ _ _ _ _ _ R3) as J3.
  pose proof (ra_e2 _ _ _ _ _ _ _ _ R2) as J2. pose proof (ra_e2 _ _ _ _ _ _ _ _ R4) as J4.
  rewrite (phase2_correct i ctA p cty Hc J3) in J1. rewrite (phase2_correct i' ctA' p' cty Hc J4) in J2.
  apply (correct_same (graph_of i) (graph_of i')) in J1.
  2:{ apply perm_nbrs; [by apply mesh_wfg|by apply mesh_wfg|exact Hn|exact HP]. }
  rewrite J1 in J2. injection J2 as <-.
  pose proof (final_fun _ _ _ _ _ _ _ _ _ Hn (ra_fin _ _ _ _ _ _ _ _ R1) (ra_fin _ _ _ _ _ _ _ _ R2)) as Ef.
  pose proof (ra_idx _ _ _ _ _ _ _ _ R1) as X1. pose proof (ra_idx _ _ _ _ _ _ _ _ R2) as X2.
  pose proof (ra_idx _ _ _ _ _ _ _ _ R3) as X3. pose proof (ra_idx _ _ _ _ _ _ _ _ R4) as X4.
  pose proof (ra_lines _ _ _ _ _ _ _ _ R1) as Y1. pose proof (ra_lines _ _ _ _ _ _ _ _ R2) as Y2.
  pose proof (ra_lines _ _ _ _ _ _ _ _ R3) as Y3. pose proof (ra_lines _ _ _ _ _ _ _ _ R4) as Y4.
  destruct r as [f1 a1 b1], r' as [f2 a2 b2]. simpl in *. congruence.
Qed.
