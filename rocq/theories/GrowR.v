(** * GrowR: the isotropic coarse cells of a call (C40) *)

From Verif Require Import SpecSub SpecFeat SpecAR SpecBest SpecGrow SpecPool PoolT GrowT ApiP ApiT.

Section free.
Context {A : Arith} {H : HashOrder}.

Lemma walk_free E (P P' S : nat → Prop) k x : (∀ z, P z → P' z) → walk E P S k x → walk E P' S k x.
Proof. intros HP. induction 1; [by constructor|]. econstructor; eauto. Qed.
Lemma at_dist_free E (P P' S : nat → Prop) k x : (∀ z, P z ↔ P' z) → at_dist E P S k x ↔ at_dist E P' S k x.
Proof.
  intros HP. split; intros [H1 H2]; (split; [by eapply walk_free; [|done]; apply HP|]);
    intros k' Hk'; apply H2; (eapply walk_free; [|done]); apply HP.
Qed.
Lemma hood_free ip g (P P' : nat → Prop) seed K dn : (∀ z, P z ↔ P' z) → hood ip g P seed K dn → hood ip g P' seed K dn.
Proof.
  intros HP. assert (∀ j x, at_dist (edge (g_row g) (g_col g)) P (λ z, z = seed) j x ↔
    at_dist (edge (g_row g) (g_col g)) P' (λ z, z = seed) j x) as Hd by (intros; by apply at_dist_free).
  intros [H1 H2 H3]. split.
  - intros x v. rewrite H1. by setoid_rewrite Hd.
  - cbn zeta in *. destruct H2 as [H2|H2]; [left|by right]. intros j x Hj. apply (H2 j x). by apply Hd.
  - cbn zeta in *. destruct H3 as [?|[?|(Y & HY & Hs)]]; [by left|by right; left|right; right].
    exists Y. split; [|done]. intros x. rewrite HY. by setoid_rewrite Hd.
Qed.
Lemma grown_ext ip g prio (cpt cpt' : gset nat → Z → Prop) ext (P P' : nat → Prop) seed X :
  (∀ z, P z ↔ P' z) → (∀ Y c, cpt Y c → cpt' Y c) →
  grown_from ip g prio cpt ext P seed X → grown_from ip g prio cpt' ext P' seed X.
Proof.
  intros HP HC [H1 (K & dn & Hh & Hc)]. split; [by apply HP|]. exists K, dn. split; [by eapply hood_free|].
  cbn zeta in *. case_bool_decide; [done|]. destruct Hc as (l & C & k & G1 & G2 & G3 & G4 & G5 & G6). exists l, C, k.
  split; [done|]. split; [done|]. split; [done|]. split; [|by split]. intros j Hj. apply HC. by apply G4.
Qed.
End free.

Section loop.
Context {A : Arith} {H : HashOrder} (WO : weak_order (@wlt A) (λ _, True)).
Context (g : graph) (prio : list W) (WF : wfg g) (WD : wfd g prio) (Hpos : 0 < g_n g).
Context (dimc : nat) (MS : mesh_shape g dimc) (HS : simple_graph g).
Context (ip : iso_params).
Context (Hmin : (1 < ip_min ip)%Z) (Hgoal : (ip_min ip <= ip_goal ip)%Z)
  (Hmax : (ip_goal ip <= ip_max ip)%Z) (Hdim2 : (2 <= ip_dim ip)%Z).
Context (bp one : bool) (Hone : one = true → ∀ w, w ∈ prio → wlt w wminv = false).
Notation n := (g_n g).
Notation hist := (pool_hist prio (g_bnd g) bp one).

Lemma wfd_pool : pool_data prio (g_bnd g).
Proof using WD Hpos.
  clear -WD Hpos. split.
  - by rewrite (wd_bnd _ _ WD).
  - by rewrite (wd_bnd _ _ WD), (wd_prio _ _ WD).
  - apply WD.
  - intros x y z Hx Hy Hz. pose proof (wd_ord _ _ WD) as [O1 O2 O3]. split_and!; eauto.
Qed.

(** The history goes on while the pool is fed. *)
Lemma feed_hist p cc dn aggl p' :
  hist aggl p → length aggl = n → (∀ x, x ∈ cc → x < n) → feed_pool g prio p cc dn aggl = Ok p' → hist aggl p'.
Proof using WF WD.
  clear -WF WD. intros Hh Hag Hcc He. unfold feed_pool in He. apply bind_Ok_inv in He as (ns & E1 & He).
  pose proof (neighbourhood_of_cc_ok g cc aggl WF Hcc Hag) as Hns. rewrite E1 in Hns. cbn [wp] in Hns.
  assert (∀ y, y ∈ ns → y < length (g_bnd g)) as Hlt.
  { intros y Hy. apply Hns in Hy as (_ & Hf & _). apply lookup_lt_Some in Hf. by rewrite (wd_bnd _ _ WD), <- Hag. }
  pose proof (feed_split g prio WF WD dn (hset s_keys ns) [] ∅) as Hsp. cbn zeta in Hsp.
  destruct (foldl _ _ _) as [m lost]. cbn [fst snd] in Hsp.
  assert (∀ y, ((∃ s : Z * gset nat, s ∈ m ∧ y ∈ s.2) ∨ y ∈ lost) → y ∈ ns) as Hm.
  { intros y. rewrite Hsp, elem_of_hset. intros [?|[(? & Hx & _)|?]]; [done|by apply elem_of_nil in Hx|set_solver]. }
  clear Hsp Hns E1. apply bind_Ok_inv in He as (p1 & E2 & He).
  assert (hist aggl p1) as Hh1.
  { assert (∀ s : Z * gset nat, s ∈ m → ∀ y, y ∈ s.2 → y < length (g_bnd g)) as Hm'.
    { intros s Hs y Hy. apply Hlt, Hm. left. eauto. }
    clear Hm He. revert p Hh E2. induction m as [|[o s] m IH]; intros p Hh E2; cbn [foldM] in E2.
    { by injection E2 as <-. }
    apply bind_Ok_inv in E2 as (p2 & E3 & E2). apply (IH (λ s Hs, Hm' s (elem_of_list_further _ _ _ Hs)) p2); [|done].
    case_bool_decide; [by injection E3 as <-|]. eapply ph_new; [exact Hh| |exact E3].
    apply (Hm' (o, s)). left. }
  case_bool_decide; [by injection He as <-|]. eapply ph_new; [exact Hh1| |exact He]. intros c Hc. apply Hlt, Hm. by right.
Qed.

Lemma choose_hist ct p seed r :
  hist (ct_aggl ct) p → length (ct_aggl ct) = n → freec (ct_aggl ct) seed →
  choose_optimal ip g prio ct p seed = Ok r →
  hist (ct_aggl ct) r.2 ∧ chosen g ip (ct_aggl ct) seed r.1.1 r.1.2 ∧
  grown_from ip g prio (is_compactness g) (ext_of g) (is_free (ct_aggl ct)) seed r.1.1.
Proof.
  intros Hh Hag Hseed Hr. destruct (hist_inv prio (g_bnd g) wfd_pool bp one _ _ Hone Hh) as (HI & _ & Ht & _).
  pose proof (choose_optimal_ok g prio WF WD ip Hmin Hgoal Hmax Hdim2 ct p seed HI Ht Hag Hseed) as Hw.
  rewrite Hr in Hw. destruct Hw as (Hch & _).
  pose proof (choose_optimal_grown WO g prio WF WD dimc MS HS ip Hmin Hgoal Hmax Hdim2 ct p seed r Hag Hseed Hr) as Hg.
  split_and!; [|done|exact Hg]. clear Hg.
  assert (∀ x, x ∈ r.1.1 → x < n) as Hlt.
  { intros x Hx. apply (ch_free _ _ _ _ _ _ Hch), lookup_lt_Some in Hx. lia. }
  unfold choose_optimal in Hr. apply bind_Ok_inv in Hr as (u & _ & Hr). clear u. cbn zeta in Hr.
  apply bind_Ok_inv in Hr as ([dn z] & _ & Hr). case_bool_decide; [by injection Hr as <-|].
  case_bool_decide.
  { apply bind_Ok_inv in Hr as (cpt & _ & Hr). by injection Hr as <-. }
  apply bind_Ok_inv in Hr as (ft & _ & Hr). apply bind_Ok_inv in Hr as (nn & _ & Hr).
  apply bind_Ok_inv in Hr as (nb & _ & Hr).
  apply bind_Ok_inv in Hr as (s & _ & Hr). apply bind_Ok_inv in Hr as (p' & Ep & Hr).
  apply bind_Ok_inv in Hr as (u & _ & Hr). injection Hr as <-. cbn [fst snd] in *. by eapply feed_hist.
Qed.

(** What is known of coarse cell [k] at the end. *)
Definition cell_grown ct' (k : nat) (X : gset nat) : Prop := ∃ aggl p seed p',
  hist aggl p ∧ choose_new_seed prio (g_bnd g) aggl p = Ok (Some seed, p') ∧
  (∀ x, is_free aggl x ↔ ∃ o, ct_fc2cc ct' !! x = Some o ∧ ∀ k', o = Some k' → k ≤ k') ∧
  grown_from ip g prio (is_compactness g) (ext_of g) (is_free aggl) seed X.

Lemma iso_loop_grown fuel ct p r :
  cont_inv n ct → hist (ct_aggl ct) p → n < fuel + ct_nagg ct → iso_loop fuel ip g prio ct p = Ok r →
  ∀ k cc, ct_n ct ≤ k → ct_ccs r.1 !! k = Some cc → cell_grown r.1 k (cc_fcs cc).
Proof.
  revert ct p. induction fuel as [|fuel IH]; intros ct p HI Hh Hfuel Hr; [done|]. cbn [iso_loop] in Hr.
  case_bool_decide as Hn.
  2:{ injection Hr as <-. intros k cc Hk Hc. assert (k < ct_n ct); [|lia]. apply (ci_dom _ _ HI). eauto. }
  apply bind_Ok_inv in Hr as ([o p1] & E1 & Hr). cbn zeta in Hr. apply bind_Ok_inv in Hr as (u & _ & Hr). clear u.
  apply bind_Ok_inv in Hr as (seed & Eo & Hr). destruct o as [seed'|]; [|done]. injection Eo as ->.
  apply bind_Ok_inv in Hr as ([[X cpt] p2] & E2 & Hr). apply bind_Ok_inv in Hr as (ct1 & E3 & Hr).
  destruct (hist_inv prio (g_bnd g) wfd_pool bp one _ _ Hone Hh) as (HP & Hal & Ht & Hb).
  pose proof (choose_new_seed_ok prio (g_bnd g) (pd_len _ _ wfd_pool) (pd_bnd _ _ wfd_pool) (wd_ord _ _ WD)
    (ct_aggl ct) p HP Hal Ht) as Hw. rewrite E1 in Hw. destruct Hw as (_ & _ & _ & [Hfree _] & _).
  assert (hist (ct_aggl ct) p1) as Hh1 by (by eapply ph_seed).
  destruct (choose_hist ct p1 seed _ Hh1 (ci_alen _ _ HI) Hfree E2) as (Hh2 & Hch & Hg). cbn [fst snd] in *.
  pose proof (create_cc_ok n ct X cpt false) as Hw.
  assert (X ≠ ∅) as HX. { intros ->. by apply ch_seed, elem_of_empty in Hch. }
  specialize (Hw HI HX (ch_free _ _ _ _ _ _ Hch)). rewrite E3 in Hw. destruct Hw as [HI1 Hcr].
  pose proof (created_ext _ _ _ _ _ HI (ch_free _ _ _ _ _ _ Hch) Hcr) as Hext.
  assert (hist (ct_aggl ct1) p2) as Hh3.
  { eapply ph_aggl; [exact Hh2|by rewrite (ci_alen _ _ HI), (ci_alen _ _ HI1)|]. intros c Hc.
    rewrite (cr_ag _ _ _ _ _ Hcr). by case_decide. }
  assert (n < fuel + ct_nagg ct1) as Hf1.
  { rewrite (cr_nagg _ _ _ _ _ Hcr). assert (size X ≠ 0); [|lia]. intros He. by apply size_empty_inv, leibniz_equiv in He. }
  destruct (hist_inv prio (g_bnd g) wfd_pool bp one _ _ Hone Hh3) as (HP3 & _ & Ht3 & _).
  pose proof (iso_loop_ok g prio WF WD ip Hmin Hgoal Hmax Hdim2 fuel ct1 p2 HI1 HP3 Ht3 Hf1) as Hw. rewrite Hr in Hw.
  destruct Hw as (HIr & _ & Hext' & _). pose proof (ct_ext_trans _ _ _ Hext Hext') as Hext2.
  intros k cc Hk Hc. destruct (decide (k = ct_n ct)) as [->|Hne].
  2:{ apply (IH ct1 p2 HI1 Hh3 Hf1 Hr k cc); [|done]. rewrite (cr_n _ _ _ _ _ Hcr). lia. }
  assert (ct_n ct < ct_n ct1) as Hlt by (rewrite (cr_n _ _ _ _ _ Hcr); lia).
  rewrite (ex_ccs _ _ Hext') in Hc by done. rewrite (cr_ccs _ _ _ _ _ Hcr), lookup_insert in Hc. injection Hc as <-.
  cbn [cc_fcs]. exists (ct_aggl ct), p, seed, p1. split_and!; [done..| |exact Hg].
  intros x. split.
  - intros Hx. apply (free_none _ _ _ HI) in Hx as Hx0.
    destruct (lookup_lt_is_Some_2 (ct_fc2cc r.1) x) as [o Ho].
    { apply lookup_lt_Some in Hx0. by rewrite (ci_flen _ _ HIr), <- (ci_flen _ _ HI). }
    exists o. split; [done|]. intros k' ->. apply Nat.nlt_ge. intros Hk'.
    apply (ex_old _ _ Hext2) in Ho; [congruence|done].
  - intros (o & Ho & Hk'). apply (free_none _ _ _ HI).
    destruct (lookup_lt_is_Some_2 (ct_fc2cc ct) x) as [[k'|] Ho0].
    { apply lookup_lt_Some in Ho. by rewrite (ci_flen _ _ HI), <- (ci_flen _ _ HIr). }
    + exfalso. pose proof (ex_fc _ _ Hext2 _ _ Ho0) as Ho1. rewrite Ho1 in Ho. injection Ho as <-.
      specialize (Hk' k' eq_refl). apply (ci_cell _ _ HI) in Ho0 as (cc & Hc & _).
      assert (k' < ct_n ct); [|lia]. apply (ci_dom _ _ HI). eauto.
    + done.
Qed.
End loop.

Section run.
Context {A : Arith} {H : HashOrder}.
Implicit Types (i : input) (o r : outs).

Lemma aniso_hist i o lines ctA p outs : good_call i o →
  (∀ l, l ∈ lines → 2 ≤ length l ∧ line_safe (max_line i) (length l)) →
  NoDup (concat lines) → (∀ x, x ∈ concat lines → x < in_n i) →
  aniso_agglomerate (aniso_params_of i) (graph_of i) (in_prio i) lines (cont_new (in_n i) (sing_thresh i))
    (pool_new (bprio i) (onept i)) = Ok (ctA, p, outs) →
  pool_hist (in_prio i) (fixed_bnd i) (bprio i) (onept i) (ct_aggl ctA) p.
Proof.
  intros HG Hls Hnd Hlt He. pose proof HG as [WM HA _ _ _].
  pose proof (mesh_wfg i WM) as WF. pose proof (mesh_wfd i WM (ac_dim _ HA)) as WD.
  assert (length (fixed_bnd i) = in_n i) as Hbl by (apply (wd_bnd _ _ WD)).
  unfold aniso_agglomerate in He. destruct lines as [|l0 ls0] eqn:Hl0.
  { apply bind_Ok_inv in He as (p0 & E0 & He). injection He as <- <- <-. apply ph_start; [|done].
    rewrite Hbl. apply replicate_length. }
  rewrite <- Hl0 in *. clear Hl0. apply bind_Ok_inv in He as ([[ct nb] out] & E1 & He).
  apply bind_Ok_inv in He as (p1 & E2 & He). injection He as <- <- <-.
  assert (wp (foldM (agglo_line (aniso_params_of i) (graph_of i) (in_prio i)) lines (cont_new (in_n i) (sing_thresh i), [], []))
    (λ '(ct, nb, outs), aniso_inv (graph_of i) (in_prio i) (aniso_params_of i) ct lines outs ∧ ∀ x, x ∈ nb → x < in_n i)) as Hw.
  { apply (wp_foldM _ (λ (pre : list (list nat)) '((ct, nb, outs) : container * list nat * list (list nat)),
      aniso_inv (graph_of i) (in_prio i) (aniso_params_of i) ct pre outs ∧ ∀ x, x ∈ nb → x < in_n i)).
    { split; [|set_solver]. split; [apply cont_new_inv|constructor|done| |].
      - intros x Hx _. by apply lookup_replicate.
      - intros k cc. cbn. by rewrite lookup_empty. }
    intros pre line post [[ct' nb'] outs'] Heq (HI & Hnb).
    assert (line ∈ lines) as Hin by (rewrite Heq; set_solver).
    destruct (Hls _ Hin) as [Hl2 Hsafe].
    rewrite Heq, concat_app in Hnd. simpl in Hnd. rewrite app_assoc in Hnd.
    apply NoDup_app in Hnd as (Hnd & _ & _). apply NoDup_app in Hnd as (_ & Hnd1 & Hnd2).
    eapply wp_mono.
    { apply (agglo_line_ok (graph_of i) (in_prio i) WF WD (aniso_params_of i) ct' nb' outs' pre); try done. intros x Hx. split.
      - apply Hlt, elem_of_concat. eauto.
      - intros Hx'. by apply (Hnd1 x). }
    intros [[ct'' nb''] outs''] (H1 & H2 & H3 & _). by split. }
  rewrite E1 in Hw. destruct Hw as [HI Hnb]. eapply (ph_lines _ _ _ _ (graph_of i)); [reflexivity| | |exact E2].
  - rewrite Hbl. apply (ci_alen _ _ (ai_inv _ _ _ _ _ _ HI)).
  - by rewrite Hbl.
Qed.

Lemma phase1_hist i o ctA p lo : good_call i o → phase1 i o = Ok (ctA, p, lo) →
  pool_hist (in_prio i) (fixed_bnd i) (bprio i) (onept i) (ct_aggl ctA) p.
Proof.
  intros HG He. pose proof HG as [WM HA _ _ _]. pose proof (mesh_wfd i WM (ac_dim _ HA)) as WD.
  unfold phase1 in He. apply bind_Ok_inv in He as (b & Eb & He).
  pose proof (sanity_ok i o HG) as Hb. rewrite Eb in Hb. cbn [wp] in Hb.
  rewrite (pool_of_ok i HA), bind_ok in He. cbn zeta in He. destruct b.
  - assert (aniso_on i o) as Hon by by apply Hb.
    pose proof (lines_of_ok i o HG Hon) as Hlo. apply wp_eq in Hlo as (lines & Hlo & Hl & Hs).
    rewrite Hlo, bind_ok in He. apply bind_Ok_inv in He as ([[ct p1] out] & E1 & He). injection He as <- <- <-.
    eapply (aniso_hist i o lines); [done| |apply Hl|apply Hl|exact E1].
    intros l Hin. split; [by apply Hl|by apply Hs].
  - apply bind_Ok_inv in He as (p0 & E0 & He). injection He as <- <- <-. apply ph_start; [|done].
    transitivity (in_n i); [apply replicate_length|]. symmetry. apply (wd_bnd _ _ WD).
Qed.

Lemma C40_run i o r e : good_call i o → in_corr i = false → simple_csr (in_row i) (in_col i) →
  weak_order wlt (λ _, True) → agglomerate_one_level i o = (r, e) →
  ∃ ip, ip_dim ip = in_dim i ∧ ip_min ip = in_min i ∧ ip_goal ip = in_goal i ∧ ip_max ip = in_max i ∧
    ar_kinds (bool_decide (in_dim i = 2%Z)) !! Z.to_nat (in_ar i) = Some (ip_ar ip) ∧ ip_front ip = negb (bool_decide (in_nbh i = 0%Z)) ∧
    ip_iter ip = in_iter i ∧ ip_it ip = bool_decide (1 < in_iter i)%Z ∧
  ∀ c (X : gset nat), ¬ aniso_id i o r c → X ≠ ∅ → (∀ x, x ∈ X ↔ o_fc2cc r !! x = Some c) →
  ∃ aggl p seed p',
    pool_hist (in_prio i) (fixed_bnd i) (bool_decide (in_order i = 0 ∨ in_order i = 10)%Z)
      (bool_decide (in_order i = 10 ∨ in_order i = 11)%Z) aggl p ∧
    choose_new_seed (in_prio i) (fixed_bnd i) aggl p = Ok (Some seed, p') ∧
    (∀ x, is_free aggl x ↔ ∃ c', o_fc2cc r !! x = Some c' ∧ c ≤ c') ∧
    grown_from ip (graph_of i) (in_prio i) (compactness (in_row i) (in_col i)) (ext_of (graph_of i))
      (is_free aggl) seed X.
Proof.
  intros HG Hcorr Hsimple WO He. pose proof HG as [WM HA Hone _ _].
  pose proof (mesh_wfg i WM) as WF. pose proof (mesh_wfd i WM (ac_dim _ HA)) as WD.
  destruct (ran_inv i o r e HG He) as (ctA & p & lo & ct & ct' & HR).
  destruct (iso_params_ok i HA) as (ip & Hip & Hd & Hmn & Hgl & Hmx).
  exists ip. assert (ar_kinds (bool_decide (in_dim i = 2%Z)) !! Z.to_nat (in_ar i) = Some (ip_ar ip) ∧ ip_front ip = negb (bool_decide (in_nbh i = 0%Z)) ∧
    ip_iter ip = in_iter i ∧ ip_it ip = bool_decide (1 < in_iter i)%Z) as (Hp1 & Hp2 & Hp3 & Hp4).
  { pose proof Hip as Hip'. unfold iso_params_of in Hip'. destruct (ar_of_Z _ _) as [k|] eqn:Ek; [|done]. injection Hip' as <-.
    split_and!; try done. revert Ek. unfold ar_of_Z. cbn zeta. pose proof (ac_ar _ HA) as Har.
    assert (in_ar i ∈ [0;1;2;3;4;5;6;7;8;9]%Z) as Hin by (rewrite !elem_of_cons; lia). clear Har.
    rewrite !elem_of_cons, elem_of_nil in Hin. repeat destruct Hin as [-> |Hin]; [by intros [= <-]..|done]. }
  do 8 (split; [done|]). intros c X Hna HX0 HX. pose proof HR as [R1 R2 R3 R4 R5 R6 _ _].
  rewrite (aniso_id_lt _ _ _ _ _ _ _ _ _ HR) in Hna.
  unfold corrected in R3. rewrite Hcorr in R3. subst ct'.
  unfold phase2 in R6. rewrite Hip, bind_ok in R6. unfold iso_agglomerate in R6.
  apply bind_Ok_inv in R6 as (r1 & E1 & R6).
  destruct (wf_dim _ WM) as [d Hdim].
  assert (mesh_shape (graph_of i) d) as MS.
  { split; [apply WM..|done|]. apply (wd_bnd _ _ WD). }
  pose proof (simple_csr_graph i (wf_sym _ WM) Hsimple) as HS.
  pose proof (phase1_hist i o ctA p lo HG R5) as Hh.
  assert (onept i = true → ∀ w, w ∈ in_prio i → wlt w wminv = false) as Hpos.
  { unfold onept. rewrite bool_decide_eq_true. intros Ho. by apply Hone. }
  assert (1 < ip_min ip)%Z as G1 by (rewrite Hmn; apply HA).
  assert (ip_min ip <= ip_goal ip)%Z as G2 by (rewrite Hmn, Hgl; apply HA).
  assert (ip_goal ip <= ip_max ip)%Z as G3 by (rewrite Hmx, Hgl; apply HA).
  assert (2 <= ip_dim ip)%Z as G4 by (rewrite Hd; destruct (ac_dim _ HA); lia).
  pose proof (p1_inv _ _ _ _ _ R1) as HI.
  assert (g_n (graph_of i) < S (g_n (graph_of i)) + ct_nagg ctA) as Hfuel by lia.
  destruct (hist_inv (in_prio i) (fixed_bnd i) (wfd_pool (graph_of i) (in_prio i) WD (wf_pos _ WM)) _ _ _ _ Hpos Hh)
    as (HP & _ & Ht & _).
  pose proof (iso_loop_ok (graph_of i) (in_prio i) WF WD ip G1 G2 G3 G4 _ ctA p HI HP Ht Hfuel) as Hw.
  rewrite E1 in Hw. destruct Hw as (HI1 & _).
  rewrite (create_all_delayed_ok _ _ HI1), bind_ok, Hcorr in R6. injection R6 as R6.
  pose proof (iso_loop_grown WO (graph_of i) (in_prio i) WF WD (wf_pos _ WM) d MS HS ip G1 G2 G3 G4 _ _ Hpos
    _ ctA p r1 HI Hh Hfuel E1) as Hgr. rewrite R6 in Hgr, HI1.
  destruct (set_choose_L X HX0) as [x Hx]. apply HX, (fi_f _ _ _ _ _ R4) in Hx as Hf.
  apply (ci_cell _ _ HI1) in Hf as (cc & Hc & Hxc).
  assert (X = cc_fcs cc) as ->.
  { apply set_eq. intros y. rewrite HX, (fi_f _ _ _ _ _ R4), (ci_cell _ _ HI1). split; [|eauto].
    intros (cc' & Hc' & Hy). congruence. }
  destruct (Hgr c cc) as (aggl & q & seed & q' & F1 & F2 & F3 & F4); [lia|done|].
  exists aggl, q, seed, q'. split_and!; [exact F1|exact F2| |].
  - intros y. rewrite F3. split.
    + intros (oo & Ho & Hk). destruct (id_full _ _ _ R2 y) as (k & _ & Hk').
      { apply lookup_lt_Some in Ho. by rewrite (ci_flen _ _ HI1) in Ho. }
      exists k. rewrite (fi_f _ _ _ _ _ R4). split; [done|]. apply Hk. congruence.
    + intros (k & Hk & Hle). apply (fi_f _ _ _ _ _ R4) in Hk. exists (Some k). split; [done|]. by intros ? [= <-].
  - eapply grown_ext; [reflexivity| |exact F4]. intros Y v. apply compactness_iff.
Qed.
End run.
