(** * FeedT: all the coarse cells of a call (C45) *)

From Verif Require Import SpecSub SpecFeat SpecAR SpecBest SpecGrow SpecPool SpecFeed GrowT GrowR ApiP ApiT.
From Verif Require Import IsoP AnisoP.
From Verif Require Export StartP.

Section loop.
Context {A : Arith} {H : HashOrder} (WO : weak_order (@wlt A) (λ _, True)).
Context (g : graph) (prio : list W) (WF : wfg g) (WD : wfd g prio) (Hpos : 0 < g_n g).
Context (dimc : nat) (MS : mesh_shape g dimc) (HS : simple_graph g).
Context (ip : iso_params).
Context (Hmin : (1 < ip_min ip)%Z) (Hgoal : (ip_min ip <= ip_goal ip)%Z)
  (Hmax : (ip_goal ip <= ip_max ip)%Z) (Hdim2 : (2 <= ip_dim ip)%Z).
Context (bp one : bool) (Hone : one = true → ∀ w, w ∈ prio → wlt w wminv = false).
Notation n := (g_n g).
Notation bnd := (g_bnd g).
Notation hist := (pool_hist prio bnd bp one).
Notation PD := (wfd_pool g prio WD Hpos).

Lemma choose_fed ct p seed r :
  pool_wf bnd p → sp_top p ≠ None → length (ct_aggl ct) = n → is_free (ct_aggl ct) seed →
  (∀ x, x ∈ r.1.1 → x < n) →
  choose_optimal ip g prio ct p seed = Ok r →
  ∃ K dn, hood ip g (is_free (ct_aggl ct)) seed K dn ∧
    fed prio bnd (λ x, dn !! x)
      (λ y, is_free (ct_aggl ct) y ∧ y ∉ r.1.1 ∧ ∃ x, x ∈ r.1.1 ∧ edge (g_row g) (g_col g) x y) p r.2.
Proof.
  intros Hw Ht Hag Hseed Hlt Hr.
  destruct (choose_optimal_both WO g prio WF WD dimc MS HS ip Hmin Hgoal Hmax Hdim2 ct p seed r Hag Hseed Hr)
    as [_ (K & dn & Hh & Hcase)].
  exists K, dn. split; [exact Hh|]. destruct Hcase as [[-> Hcl]|(dn' & Hf & Hdn)].
  - apply fed_nil; [done|done|]. intros y (Hy & HyX & x & Hx & He). apply HyX. by apply (Hcl x y).
  - pose proof (feed_pool_fed g prio WF PD (wd_bnd _ _ WD) p r.1.1 dn' (ct_aggl ct) Hw Ht Hag Hlt) as Hw'.
    rewrite Hf in Hw'. cbn [wp] in Hw'. eapply fed_ext; [| |exact Hw']; [done|].
    intros y (_ & Hy & _). by apply Hdn.
Qed.

Lemma iso_loop_made fuel ct p r :
  cont_inv n ct → hist (ct_aggl ct) p → n < fuel + ct_nagg ct → iso_loop fuel ip g prio ct p = Ok r →
  ∃ Xs, made ip g prio (is_compactness g) (ct_aggl ct) p Xs ∧ length Xs = ct_n r.1 - ct_n ct ∧
    ∀ k X, Xs !! k = Some X → ∃ cc, ct_ccs r.1 !! (ct_n ct + k) = Some cc ∧ cc_fcs cc = X.
Proof.
  revert ct p. induction fuel as [|fuel IH]; intros ct p HI Hh Hfuel Hr; [done|]. cbn [iso_loop] in Hr.
  case_bool_decide as Hn.
  2:{ injection Hr as <-. exists []. split_and!; [|simpl; lia|done]. constructor. intros x Hx.
      pose proof (lookup_lt_Some _ _ _ Hx) as Hlt. rewrite (ci_alen _ _ HI) in Hlt.
      destruct (cont_full n ct HI Hn x Hlt) as (k & _ & Hk).
      assert (ct_aggl ct !! x = Some true) as Hx' by (apply (ci_aggl _ _ HI); by exists k).
      unfold is_free in Hx. congruence. }
  apply bind_Ok_inv in Hr as ([o p1] & E1 & Hr). cbn zeta in Hr. apply bind_Ok_inv in Hr as (u & _ & Hr). clear u.
  apply bind_Ok_inv in Hr as (seed & Eo & Hr). destruct o as [seed'|]; [|done]. injection Eo as ->.
  apply bind_Ok_inv in Hr as ([[X cpt] p2] & E2 & Hr). apply bind_Ok_inv in Hr as (ct1 & E3 & Hr).
  destruct (hist_inv prio bnd PD bp one _ _ Hone Hh) as (HP & Hal & Ht & Hb).
  pose proof (choose_new_seed_ok prio bnd (pd_len _ _ PD) (pd_bnd _ _ PD) (wd_ord _ _ WD)
    (ct_aggl ct) p HP Hal Ht) as Hw. rewrite E1 in Hw. destruct Hw as (_ & _ & _ & [Hfree _] & _).
  pose proof (choose_takes prio bnd PD (ct_aggl ct) p (pi_wf _ _ _ HP) Hal Ht) as Htk. rewrite E1 in Htk. cbn [wp fst snd] in Htk.
  assert (hist (ct_aggl ct) p1) as Hh1 by (by eapply ph_seed).
  destruct (hist_inv prio bnd PD bp one _ _ Hone Hh1) as (HP1 & _ & Ht1 & _).
  destruct (choose_hist WO g prio WF WD Hpos dimc MS HS ip Hmin Hgoal Hmax Hdim2 bp one Hone ct p1 seed _ Hh1 (ci_alen _ _ HI) Hfree E2)
    as (Hh2 & Hch & Hg). cbn [fst snd] in *.
  assert (∀ x, x ∈ X → x < n) as Hlt.
  { intros x Hx. apply (ch_free _ _ _ _ _ _ Hch), lookup_lt_Some in Hx. by rewrite (ci_alen _ _ HI) in Hx. }
  destruct (choose_fed ct p1 seed (X, cpt, p2) (pi_wf _ _ _ HP1) Ht1 (ci_alen _ _ HI) Hfree Hlt E2) as (K & dn & Hhd & Hfed).
  cbn [fst snd] in Hfed.
  pose proof (create_cc_ok n ct X cpt false) as Hw.
  assert (X ≠ ∅) as HX. { intros ->. by apply ch_seed, elem_of_empty in Hch. }
  specialize (Hw HI HX (ch_free _ _ _ _ _ _ Hch)). rewrite E3 in Hw. destruct Hw as [HI1 Hcr].
  assert (hist (ct_aggl ct1) p2) as Hh3.
  { eapply ph_aggl; [exact Hh2|by rewrite (ci_alen _ _ HI), (ci_alen _ _ HI1)|]. intros c Hc.
    rewrite (cr_ag _ _ _ _ _ Hcr). by case_decide. }
  assert (n < fuel + ct_nagg ct1) as Hf1.
  { rewrite (cr_nagg _ _ _ _ _ Hcr). assert (size X ≠ 0); [|lia]. intros He. by apply size_empty_inv, leibniz_equiv in He. }
  destruct (hist_inv prio bnd PD bp one _ _ Hone Hh3) as (HP3 & _ & Ht3 & _).
  pose proof (iso_loop_ok g prio WF WD ip Hmin Hgoal Hmax Hdim2 fuel ct1 p2 HI1 HP3 Ht3 Hf1) as Hw. rewrite Hr in Hw.
  destruct Hw as (HIr & _ & Hext' & _).
  destruct (IH ct1 p2 HI1 Hh3 Hf1 Hr) as (Xs & Hmade & Hlen & Hcells).
  rewrite (cr_n _ _ _ _ _ Hcr) in Hlen, Hcells.
  pose proof (ex_n _ _ Hext') as Hnle. rewrite (cr_n _ _ _ _ _ Hcr) in Hnle.
  exists (X :: Xs). split_and!.
  - eapply made_step; [exact Htk|exact Hg|exact Hhd|exact Hfed| | |exact Hmade].
    + by rewrite (ci_alen _ _ HI), (ci_alen _ _ HI1).
    + intros x. unfold is_free. rewrite (cr_ag _ _ _ _ _ Hcr). case_decide; naive_solver.
  - simpl. lia.
  - intros [|k] Y HY; simpl in HY.
    + injection HY as <-. rewrite Nat.add_0_r, (ex_ccs _ _ Hext') by (rewrite (cr_n _ _ _ _ _ Hcr); lia).
      rewrite (cr_ccs _ _ _ _ _ Hcr), lookup_insert. eauto.
    + destruct (Hcells k Y HY) as (cc & Hc & Hf). exists cc. split; [|done]. by replace (ct_n ct + S k) with (S (ct_n ct) + k) by lia.
Qed.

Lemma made_ext (cpt cpt' : gset nat → Z → Prop) aggl p Xs : (∀ Y c, cpt Y c → cpt' Y c) →
  made ip g prio cpt aggl p Xs → made ip g prio cpt' aggl p Xs.
Proof using.
  clear. intros Hc. induction 1; [by constructor|]. eapply made_step; try done. by eapply grown_ext.
Qed.
End loop.

Lemma filter_eq_in {B} (P Q : B → Prop) `{∀ x, Decision (P x), ∀ x, Decision (Q x)} (l : list B) :
  (∀ x, x ∈ l → P x ↔ Q x) → filter P l = filter Q l.
Proof.
  induction l as [|a l IH]; intros Hl; [done|]. rewrite !filter_cons.
  rewrite IH by (intros; apply Hl; by right). pose proof (Hl a (elem_of_list_here _ _)). repeat case_decide; naive_solver.
Qed.

Section run.
Context {A : Arith} {H : HashOrder}.
Implicit Types (i : input) (o r : outs).

Lemma adj_nb_list i x : adj (graph_of i) x = nb_list (in_row i) (in_col i) x.
Proof. reflexivity. Qed.

Lemma aniso_started i o lines ctA p outs : good_call i o →
  (∀ l, l ∈ lines → 2 ≤ length l ∧ line_safe (max_line i) (length l)) →
  NoDup (concat lines) → (∀ x, x ∈ concat lines → x < in_n i) →
  aniso_agglomerate (aniso_params_of i) (graph_of i) (in_prio i) lines (cont_new (in_n i) (sing_thresh i))
    (pool_new (bprio i) (onept i)) = Ok (ctA, p, outs) →
  ∃ walked, Forall2 (oriented i) lines walked ∧
    started (in_prio i) (fixed_bnd i) (bprio i) (onept i) (ct_aggl ctA)
      (line_neighbours i (ct_aggl ctA) walked) p.
Proof.
  intros HG Hls Hnd Hlt He. pose proof HG as [WM HA Hone _ _].
  pose proof (mesh_wfg i WM) as WF. pose proof (mesh_wfd i WM (ac_dim _ HA)) as WD.
  pose proof (wfd_pool (graph_of i) (in_prio i) WD (wf_pos _ WM)) as PD.
  assert (length (fixed_bnd i) = in_n i) as Hbl by (apply (wd_bnd _ _ WD)).
  assert (onept i = true → ∀ w, w ∈ in_prio i → wlt w wminv = false) as Hpos.
  { unfold onept. rewrite bool_decide_eq_true. intros Ho. by apply Hone. }
  unfold aniso_agglomerate in He. destruct lines as [|l0 ls0] eqn:Hl0.
  { apply bind_Ok_inv in He as (p0 & E0 & He). injection He as <- <- <-. exists []. split; [constructor|].
    pose proof (initialize_eq (in_prio i) (fixed_bnd i) PD (pool_new (bprio i) (onept i)) (pool_new_wf _ _ _) Hpos) as Hw.
    cbn [g_bnd graph_of] in E0. rewrite E0 in Hw. destruct Hw as (t & [?|[_ Ht]] & Hi); [done|done|]. exists t. done. }
  rewrite <- Hl0 in *. clear Hl0. apply bind_Ok_inv in He as ([[ct nb] out] & E1 & He).
  apply bind_Ok_inv in He as (p1 & E2 & He). injection He as <- <- <-.
  assert (wp (foldM (agglo_line (aniso_params_of i) (graph_of i) (in_prio i)) lines (cont_new (in_n i) (sing_thresh i), [], []))
    (λ '(ct, nb, outs), aniso_inv (graph_of i) (in_prio i) (aniso_params_of i) ct lines outs ∧ (∀ x, x ∈ nb → x < in_n i) ∧
      ∃ walked, Forall2 (oriented i) lines walked ∧
        nb = concat (adj (graph_of i) <$> filter (λ x, ct_aggl ct !! x ≠ Some false) (concat walked)))) as Hw.
  { apply (wp_foldM _ (λ (pre : list (list nat)) '((ct, nb, outs) : container * list nat * list (list nat)),
      aniso_inv (graph_of i) (in_prio i) (aniso_params_of i) ct pre outs ∧ (∀ x, x ∈ nb → x < in_n i) ∧
      ∃ walked, Forall2 (oriented i) pre walked ∧
        nb = concat (adj (graph_of i) <$> filter (λ x, ct_aggl ct !! x ≠ Some false) (concat walked)))).
    { split; [|split; [set_solver|]].
      - split; [apply cont_new_inv|constructor|done| |].
        + intros x Hx _. by apply lookup_replicate.
        + intros k cc. cbn. by rewrite lookup_empty.
      - exists []. split; [constructor|done]. }
    intros pre line post [[ct' nb'] outs'] Heq (HI & Hnb & walked & HF & Hnbe).
    assert (line ∈ lines) as Hin by (rewrite Heq; set_solver).
    destruct (Hls _ Hin) as [Hl2 Hsafe].
    rewrite Heq, concat_app in Hnd. simpl in Hnd. rewrite app_assoc in Hnd.
    apply NoDup_app in Hnd as (Hnd & _ & _). apply NoDup_app in Hnd as (_ & Hnd1 & Hnd2).
    eapply wp_mono.
    { apply (agglo_line_ok (graph_of i) (in_prio i) WF WD (aniso_params_of i) ct' nb' outs' pre); try done. intros x Hx. split.
      - apply Hlt, elem_of_concat. eauto.
      - intros Hx'. by apply (Hnd1 x). }
    intros [[ct'' nb''] outs''] (H1 & H2 & H3 & H4 & b & Hb & Hnb''). split; [done|]. split; [done|].
    exists (walked ++ [if b : bool then line else reverse line]). split.
    - apply Forall2_app; [done|]. constructor; [|constructor]. by apply forward_oriented.
    - rewrite Hnb'', Hnbe, concat_app, filter_app, fmap_app, concat_app. simpl. rewrite !app_nil_r. f_equal.
      do 2 f_equal. apply filter_eq_in. intros x Hx. enough (x ∉ line) as Hxl by (specialize (H4 x Hxl); unfold freec in H4; tauto).
      intros Hxl. apply elem_of_concat in Hx as (w & Hxw & Hw). apply elem_of_list_lookup in Hw as [k Hk].
      destruct (Forall2_lookup_r _ _ _ _ _ HF Hk) as (l & Hl & Hor). apply oriented_or in Hor.
      apply (Hnd1 x); [|done]. apply elem_of_concat. exists l. split; [|by eapply elem_of_list_lookup_2].
      destruct Hor as [->| ->]; [done|]. by rewrite elem_of_reverse in Hxw. }
  rewrite E1 in Hw. destruct Hw as (HI & Hnb & walked & HF & Hnbe). exists walked. split; [done|].
  pose proof (update_started (in_prio i) (fixed_bnd i) PD (graph_of i) ct nb (bprio i) (onept i) eq_refl) as Hw.
  rewrite E2 in Hw. cbn [wp] in Hw. unfold line_neighbours.
  replace (nb_list (in_row i) (in_col i) <$> filter (λ x, ct_aggl ct !! x ≠ Some false) (concat walked))
    with (adj (graph_of i) <$> filter (λ x, ct_aggl ct !! x ≠ Some false) (concat walked)) by reflexivity.
  rewrite <- Hnbe. apply Hw; [|by rewrite Hbl|done]. rewrite Hbl. apply (ci_alen _ _ (ai_inv _ _ _ _ _ _ HI)).
Qed.

Lemma phase1_started i o ctA p lo : good_call i o → phase1 i o = Ok (ctA, p, lo) →
  ∃ walked, (¬ aniso_on i o → walked = []) ∧
    (aniso_on i o → ∃ lines, call_lines i o = Ok lines ∧ Forall2 (oriented i) lines walked) ∧
    started (in_prio i) (fixed_bnd i) (bprio i) (onept i) (ct_aggl ctA)
      (line_neighbours i (ct_aggl ctA) walked) p.
Proof.
  intros HG He. pose proof HG as [WM HA Hone _ _]. pose proof (mesh_wfd i WM (ac_dim _ HA)) as WD.
  unfold phase1 in He. apply bind_Ok_inv in He as (b & Eb & He).
  pose proof (sanity_ok i o HG) as Hb. rewrite Eb in Hb. cbn [wp] in Hb.
  rewrite (pool_of_ok i HA), bind_ok in He. cbn zeta in He. destruct b.
  - assert (aniso_on i o) as Hon by by apply Hb.
    pose proof (lines_of_ok i o HG Hon) as Hlo. apply wp_eq in Hlo as (lines & Hlo & Hl & Hs).
    rewrite Hlo, bind_ok in He. apply bind_Ok_inv in He as ([[ct p1] out] & E1 & He). injection He as <- <- <-.
    destruct (aniso_started i o lines ct p1 out) as (walked & HF & Hst); [done| |apply Hl|apply Hl|exact E1|].
    { intros l Hin. split; [by apply Hl|by apply Hs]. }
    exists walked. split_and!; [done| |done]. intros _. by exists lines.
  - apply bind_Ok_inv in He as (p0 & E0 & He). injection He as <- <- <-. exists []. split_and!; [done| |].
    { intros Hon. apply Hb in Hon. done. }
    assert (onept i = true → ∀ w, w ∈ in_prio i → wlt w wminv = false) as Hpos.
    { unfold onept. rewrite bool_decide_eq_true. intros Ho. by apply Hone. }
    pose proof (wfd_pool (graph_of i) (in_prio i) WD (wf_pos _ WM)) as PD.
    pose proof (initialize_eq (in_prio i) (fixed_bnd i) PD (pool_new (bprio i) (onept i)) (pool_new_wf _ _ _) Hpos) as Hw.
    cbn [g_bnd graph_of] in E0. rewrite E0 in Hw. destruct Hw as (t & [?|[_ Ht]] & Hi); [done|done|]. exists t. done.
Qed.

Lemma C45_lem i o r e : good_call i o → in_corr i = false → simple_csr (in_row i) (in_col i) →
  weak_order wlt (λ _, True) → agglomerate_one_level i o = (r, e) →
  ∃ ip m aggl p walked Xs,
    ip_dim ip = in_dim i ∧ ip_min ip = in_min i ∧ ip_goal ip = in_goal i ∧ ip_max ip = in_max i ∧
    ar_kinds (bool_decide (in_dim i = 2%Z)) !! Z.to_nat (in_ar i) = Some (ip_ar ip) ∧
    ip_front ip = negb (bool_decide (in_nbh i = 0%Z)) ∧
    ip_iter ip = in_iter i ∧ ip_it ip = bool_decide (1 < in_iter i)%Z ∧
    (∀ c, aniso_id i o r c ↔ c < m) ∧
    length aggl = in_n i ∧ (∀ x, is_free aggl x ↔ ∃ c, o_fc2cc r !! x = Some c ∧ ¬ aniso_id i o r c) ∧
    (¬ aniso_on i o → walked = []) ∧
    (aniso_on i o → ∃ lines, call_lines i o = Ok lines ∧ Forall2 (oriented i) lines walked) ∧
    started (in_prio i) (fixed_bnd i) (bool_decide (in_order i = 0 ∨ in_order i = 10)%Z)
      (bool_decide (in_order i = 10 ∨ in_order i = 11)%Z) aggl (line_neighbours i aggl walked) p ∧
    made ip (graph_of i) (in_prio i) (compactness (in_row i) (in_col i)) aggl p Xs ∧
    (∀ k x, (∃ X, Xs !! k = Some X ∧ x ∈ X) ↔ o_fc2cc r !! x = Some (m + k)).
Proof.
  intros HG Hcorr Hsimple WO He. pose proof HG as [WM HA Hone _ _].
  pose proof (mesh_wfg i WM) as WF. pose proof (mesh_wfd i WM (ac_dim _ HA)) as WD.
  destruct (ran_inv i o r e HG He) as (ctA & p & lo & ct & ct' & HR).
  destruct (iso_params_ok i HA) as (ip & Hip & Hd & Hmn & Hgl & Hmx).
  assert (ar_kinds (bool_decide (in_dim i = 2%Z)) !! Z.to_nat (in_ar i) = Some (ip_ar ip) ∧ ip_front ip = negb (bool_decide (in_nbh i = 0%Z)) ∧
    ip_iter ip = in_iter i ∧ ip_it ip = bool_decide (1 < in_iter i)%Z) as (Hp1 & Hp2 & Hp3 & Hp4).
  { pose proof Hip as Hip'. unfold iso_params_of in Hip'. destruct (ar_of_Z _ _) as [k|] eqn:Ek; [|done]. injection Hip' as <-.
    split_and!; try done. revert Ek. unfold ar_of_Z. cbn zeta. pose proof (ac_ar _ HA) as Har.
    assert (in_ar i ∈ [0;1;2;3;4;5;6;7;8;9]%Z) as Hin by (rewrite !elem_of_cons; lia). clear Har.
    rewrite !elem_of_cons, elem_of_nil in Hin. repeat destruct Hin as [-> |Hin]; [by intros [= <-]..|done]. }
  pose proof HR as [R1 R2 R3 R4 R5 R6 _ _].
  unfold corrected in R3. rewrite Hcorr in R3. subst ct'.
  unfold phase2 in R6. rewrite Hip, bind_ok in R6. unfold iso_agglomerate in R6.
  apply bind_Ok_inv in R6 as (r1 & E1 & R6).
  destruct (wf_dim _ WM) as [d Hdim].
  assert (mesh_shape (graph_of i) d) as MS.
  { split; [apply WM..|done|]. apply (wd_bnd _ _ WD). }
  pose proof (simple_csr_graph i (wf_sym _ WM) Hsimple) as HS.
  pose proof (phase1_hist i o ctA p lo HG R5) as Hh.
  assert (onept i = true → ∀ w, w ∈ in_prio i → wlt w wminv = false) as Hpos.
  { unfold onept. rewrite bool_decide_eq_true. intros Ho. by apply Hone. }
  assert (1 < ip_min ip)%Z as G1 by (rewrite Hmn; apply HA).
  assert (ip_min ip <= ip_goal ip)%Z as G2 by (rewrite Hmn, Hgl; apply HA).
  assert (ip_goal ip <= ip_max ip)%Z as G3 by (rewrite Hmx, Hgl; apply HA).
  assert (2 <= ip_dim ip)%Z as G4 by (rewrite Hd; destruct (ac_dim _ HA); lia).
  pose proof (p1_inv _ _ _ _ _ R1) as HI.
  assert (g_n (graph_of i) < S (g_n (graph_of i)) + ct_nagg ctA) as Hfuel by lia.
  destruct (hist_inv (in_prio i) (fixed_bnd i) (wfd_pool (graph_of i) (in_prio i) WD (wf_pos _ WM)) _ _ _ _ Hpos Hh)
    as (HP & _ & Ht & _).
  pose proof (iso_loop_ok (graph_of i) (in_prio i) WF WD ip G1 G2 G3 G4 _ ctA p HI HP Ht Hfuel) as Hw.
  rewrite E1 in Hw. destruct Hw as (HI1 & _).
  rewrite (create_all_delayed_ok _ _ HI1), bind_ok, Hcorr in R6. injection R6 as R6.
  destruct (iso_loop_made WO (graph_of i) (in_prio i) WF WD (wf_pos _ WM) d MS HS ip G1 G2 G3 G4 _ _ Hpos
    _ ctA p r1 HI Hh Hfuel E1) as (Xs & Hmade & Hlen & Hcells). rewrite R6 in Hlen, Hcells, HI1.
  destruct (phase1_started i o ctA p lo HG R5) as (walked & Hoff & Hon & Hst).
  pose proof (λ c, aniso_id_lt _ _ _ _ _ _ _ _ c HR) as Haid.
  exists ip, (ct_n ctA), (ct_aggl ctA), p, walked, Xs. do 8 (split; [done|]). split_and!; [done| | | | | | |].
  - apply (ci_alen _ _ HI).
  - intros x. unfold is_free. rewrite (free_none _ _ _ HI). setoid_rewrite Haid. split.
    + intros Hx. destruct (id_full _ _ _ R2 x) as (k & _ & Hk).
      { apply lookup_lt_Some in Hx. by rewrite (ci_flen _ _ HI) in Hx. }
      exists k. rewrite (fi_f _ _ _ _ _ R4). split; [done|]. intros Hlt.
      apply (ex_old _ _ (id_ext _ _ _ R2)) in Hk; [congruence|done].
    + intros (k & Hk & Hlt). apply (fi_f _ _ _ _ _ R4) in Hk.
      destruct (lookup_lt_is_Some_2 (ct_fc2cc ctA) x) as [[k'|] Hx].
      { apply lookup_lt_Some in Hk. rewrite (ci_flen _ _ HI1) in Hk. by rewrite (ci_flen _ _ HI). }
      * exfalso. pose proof (ex_fc _ _ (id_ext _ _ _ R2) _ _ Hx) as Hx1. rewrite Hx1 in Hk. injection Hk as ->.
        apply (ci_cell _ _ HI) in Hx as (cc & Hc & _). apply Hlt, (ci_dom _ _ HI). eauto.
      * done.
  - done.
  - done.
  - exact Hst.
  - eapply made_ext; [|exact Hmade]. intros Y v. apply compactness_iff.
  - intros k x. rewrite (fi_f _ _ _ _ _ R4), (ci_cell _ _ HI1). split.
    + intros (X & HX & Hx). destruct (Hcells k X HX) as (cc & Hc & <-). eauto.
    + intros (cc & Hc & Hx). destruct (lookup_lt_is_Some_2 Xs k) as [X HX].
      { rewrite Hlen. assert (ct_n ctA + k < ct_n ct) by (apply (ci_dom _ _ HI1); eauto). lia. }
      destruct (Hcells k X HX) as (cc' & Hc' & <-). exists (cc_fcs cc'). split; [done|]. congruence.
Qed.
End run.
