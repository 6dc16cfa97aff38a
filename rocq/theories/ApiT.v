(** * ApiT: the properties of the library call in the form stated in PropsApi *)

From Verif Require Import ApiP Inst.

Section api.
Context {A : Arith} {H : HashOrder}.
Implicit Types (i : input) (o r : outs).

(** What a run gives. *)
Record ran i o r (ctA : container) p lo ct ct' : Prop := {
  ra_p1 : phase1_ok i o ctA p lo;
  ra_iso : iso_done i ctA ct;
  ra_corr : corrected i ct ct';
  ra_fin : final i ctA ct ct' (o_fc2cc r);
  ra_e1 : phase1 i o = Ok (ctA, p, lo);
  ra_e2 : phase2 i ctA p = Ok ct';
  ra_idx : o_idx r = match lo with None => o_idx o | Some l => (export_lines l).1 end;
  ra_lines : o_lines r = match lo with None => o_lines o | Some l => concat l end;
}.
Lemma ran_ok i o : good_call i o → ∃ r, agglomerate_one_level i o = (r, Ok ()) ∧
  ∃ ctA p lo ct ct', ran i o r ctA p lo ct ct'.
Proof.
  intros HG. destruct (main_run i o HG) as (ctA & p & lo & ct & ct' & f & H1 & H2 & H3 & H4 & H5 & H6 & H7).
  eexists. split; [apply H7|]. exists ctA, p, lo, ct, ct'. destruct lo as [l|]; split; try done.
  simpl. apply export_lines_ok.
Qed.
Lemma ran_inv i o r e : good_call i o → agglomerate_one_level i o = (r, e) →
  ∃ ctA p lo ct ct', ran i o r ctA p lo ct ct'.
Proof.
  intros HG He. destruct (ran_ok i o HG) as (r' & He' & Hr). rewrite He' in He. by simplify_eq.
Qed.

Lemma aniso_id_lt i o r ctA p lo ct ct' c : ran i o r ctA p lo ct ct' → aniso_id i o r c ↔ c < ct_n ctA.
Proof.
  intros []. unfold aniso_id. rewrite ra_lines0. destruct lo as [outs|].
  - destruct (p1_on _ _ _ _ _ ra_p2 outs eq_refl) as (Hon & lines & _ & _ & _ & HI).
    rewrite (ai_ids _ _ _ _ _ _ HI), elem_of_seq. split; [|split; [done|]]; lia.
  - destruct (p1_off _ _ _ _ _ ra_p2 eq_refl) as [Hoff ->]. split; [by intros [? _]|lia].
Qed.

Lemma C01_lem i o : good_call i o →
  ∃ r, agglomerate_one_level i o = (r, Ok ()) ∧ length (o_fc2cc r) = in_n i.
Proof.
  intros HG. destruct (ran_ok i o HG) as (r & He & ctA & p & lo & ct & ct' & []).
  exists r. split; [done|]. by apply (fi_len _ _ _ _ _ ra_fin0).
Qed.

Lemma C01_cells_lem i o : good_call i o → in_corr i = false ∨ thresh_one i →
  ∃ r ctA p lo ct, agglomerate_one_level i o = (r, Ok ()) ∧
    phase1 i o = Ok (ctA, p, lo) ∧ phase2 i ctA p = Ok ct ∧
    ∀ x, x < in_n i → ∃ k cc, o_fc2cc r !! x = Some k ∧ ct_ccs ct !! k = Some cc ∧ x ∈ cc_fcs cc ∧
      ∀ k' cc', ct_ccs ct !! k' = Some cc' → x ∈ cc_fcs cc' → k' = k.
Proof.
  intros HG Ht. destruct (ran_ok i o HG) as (r & He & ctA & p & lo & ct & ct' & []).
  exists r, ctA, p, lo, ct'. split_and!; [done..|]. intros x Hx.
  destruct (cells_final _ _ _ _ _ _ _ _ HG ra_p2 ra_iso0 ra_corr0 ra_fin0 Ht) as [[Hc _ _ Hin] _].
  destruct (lookup_lt_is_Some_2 (o_fc2cc r) x) as [k Hk]; [by rewrite (fi_len _ _ _ _ _ ra_fin0)|].
  destruct (Hin x k Hk) as [cc Hcc]. exists k, cc. split_and!; [done..|by apply (Hc k cc x Hcc)|].
  intros k' cc' Hcc' Hx'. apply (Hc k' cc' x Hcc') in Hx'. congruence.
Qed.

Lemma C02_lem i o r e : good_call i o → in_corr i = false ∨ thresh_one i →
  agglomerate_one_level i o = (r, e) → contiguous (o_fc2cc r).
Proof.
  intros HG Ht He. destruct (ran_inv i o r e HG He) as (ctA & p & lo & ct & ct' & []).
  destruct (cells_final _ _ _ _ _ _ _ _ HG ra_p2 ra_iso0 ra_corr0 ra_fin0 Ht) as [[Hc [nc [_ Hd]] Hne Hin] _].
  exists nc. intros c. rewrite <- Hd. split.
  - intros [cc Hcc]. destruct (set_choose_L (cc_fcs cc) (Hne _ _ Hcc)) as [x Hx]. exists x. by apply (Hc c cc x Hcc).
  - intros [x Hx]. eauto.
Qed.

Lemma C03_lem i o r e : good_call i o → given_paths i o → in_corr i = false ∨ thresh_one i →
  agglomerate_one_level i o = (r, e) → ∀ c, connected (in_edge i) (cells_of (o_fc2cc r) c).
Proof.
  intros HG Hgp Ht He c. destruct (ran_inv i o r e HG He) as (ctA & p & lo & ct & ct' & []).
  destruct (cells_final _ _ _ _ _ _ _ _ HG ra_p2 ra_iso0 ra_corr0 ra_fin0 Ht) as [[Hc _ _ Hin] Hcn].
  intros x y Hx Hy. unfold cells_of in *. destruct (Hin x c Hx) as [cc Hcc].
  destruct (Hcn Hgp c cc Hcc x y) as [k Hk]; [by apply (Hc c cc _ Hcc)..|].
  exists k. eapply walk_mono; [|done]. intros z Hz. by apply (Hc c cc z Hcc).
Qed.

(** Isotropic cells when there is no correction. *)
Lemma iso_cell i o r ctA p lo ct ct' c : in_corr i = false → ran i o r ctA p lo ct ct' → ¬ aniso_id i o r c →
  ∀ x, o_fc2cc r !! x = Some c → ∃ cc ip, ct_ccs ct !! c = Some cc ∧ ip_max ip = in_max i ∧ ip_min ip = in_min i ∧
    iso_ok (graph_of i) ip (bprio i) ct c cc ∧ (∀ y, y ∈ cc_fcs cc ↔ o_fc2cc r !! y = Some c) ∧
    (∀ y k, o_fc2cc r !! y = Some k ↔ ct_fc2cc ct !! y = Some (Some k)).
Proof.
  intros Hcorr HR Hna x Hx. rewrite (aniso_id_lt _ _ _ _ _ _ _ _ _ HR) in Hna. destruct HR.
  unfold corrected in ra_corr0. rewrite Hcorr in ra_corr0. subst ct'.
  pose proof (id_inv _ _ _ ra_iso0) as HI.
  destruct (id_iso _ _ _ ra_iso0) as (ip & Hmx & Hmn & Hiso).
  apply (fi_f _ _ _ _ _ ra_fin0) in Hx. apply (ci_cell _ _ HI) in Hx as (cc & Hc & Hx).
  exists cc, ip. split_and!; try done; [apply Hiso; [lia|done]| |apply ra_fin0].
  intros y. rewrite (fi_f _ _ _ _ _ ra_fin0), (ci_cell _ _ HI). split; [eauto|].
  intros (cc' & Hc' & Hy). congruence.
Qed.

Lemma C04_lem i o r e : good_call i o → in_corr i = false →
  agglomerate_one_level i o = (r, e) → ∀ c (X : gset nat), ¬ aniso_id i o r c →
  (∀ x, x ∈ X ↔ o_fc2cc r !! x = Some c) → (Z.of_nat (size X) <= in_max i)%Z.
Proof.
  intros HG Hc He c X Hna HX. destruct (ran_inv i o r e HG He) as (ctA & p & lo & ct & ct' & HR).
  destruct (decide (X = ∅)) as [->|Hne].
  { rewrite size_empty. pose proof (gc_acc _ _ HG) as []. lia. }
  destruct (set_choose_L X Hne) as [x Hx]. apply HX in Hx.
  destruct (iso_cell _ _ _ _ _ _ _ _ _ Hc HR Hna x Hx) as (cc & ip & _ & Hmx & _ & Hok & Hcc & _).
  assert (X = cc_fcs cc) as ->; [|rewrite <- Hmx; apply Hok].
  apply set_eq. intros y. by rewrite HX, Hcc.
Qed.

Lemma C05_lem i o r e : good_call i o → in_corr i = false →
  agglomerate_one_level i o = (r, e) → ∀ c (X : gset nat), ¬ aniso_id i o r c →
  (∀ x, x ∈ X ↔ o_fc2cc r !! x = Some c) → (Z.of_nat (size X) < in_min i)%Z →
  ∀ x y, x ∈ X → in_edge i x y → y ∉ X → ∃ c', c' < c ∧ o_fc2cc r !! y = Some c'.
Proof.
  intros HG Hc He c X Hna HX Hsz x y Hx Hxy Hy.
  destruct (ran_inv i o r e HG He) as (ctA & p & lo & ct & ct' & HR).
  pose proof Hx as Hx'. apply HX in Hx'.
  destruct (iso_cell _ _ _ _ _ _ _ _ _ Hc HR Hna x Hx') as (cc & ip & _ & _ & Hmn & Hok & Hcc & Hf).
  assert (X = cc_fcs cc) as ->. { apply set_eq. intros z. by rewrite HX, Hcc. }
  destruct (io_min _ _ _ _ _ _ Hok) with (x := x) (y := y) as (k & Hk & Hky); try done.
  - by rewrite Hmn.
  - by apply elem_of_adj.
  - exists k. split; [done|]. by apply Hf.
Qed.

Lemma C06_lem i o : good_call i o → ∀ r e, agglomerate_one_level i o ≠ (r, Err e).
Proof.
  intros HG r e He. destruct (ran_ok i o HG) as (r' & He' & _). by rewrite He' in He.
Qed.

Lemma C07_lem i o : good_call i o → ∃ r ctA p lo ct,
  agglomerate_one_level i o = (r, Ok ()) ∧ phase1 i o = Ok (ctA, p, lo) ∧ phase2 i ctA p = Ok ct ∧
  ct_n ct ≤ in_n i ∧ (∀ x c, o_fc2cc r !! x = Some c → c < ct_n ct).
Proof.
  intros HG. destruct (ran_ok i o HG) as (r & He & ctA & p & lo & ct & ct' & []).
  exists r, ctA, p, lo, ct'.
  assert (ct_n ct' = ct_n ct) as Hn.
  { unfold corrected in ra_corr0. destruct (in_corr i); [|by subst].
    destruct ra_corr0 as (R & ct1 & rho & nc & HL & HRn). rewrite (rn_n _ _ _ _ _ _ _ HRn).
    apply (cv_n _ _ _ _ (cl_corr _ _ _ _ _ HL)). }
  rewrite Hn. split_and!; try done; [apply ra_iso0|apply ra_fin0].
Qed.

Lemma C09_lem i o r e : good_call i o → in_corr i = true → thresh_one i →
  agglomerate_one_level i o = (r, e) → ∀ c x, ¬ aniso_id i o r c →
  (∀ y, o_fc2cc r !! y = Some c ↔ y = x) →
  ∀ y c', in_edge i x y → y ≠ x → o_fc2cc r !! y = Some c' → aniso_id i o r c'.
Proof.
  intros HG Hcorr Hth He c x Hna Hcx y c' Hxy Hyx Hc'.
  destruct (ran_inv i o r e HG He) as (ctA & p & lo & ct & ct' & HR).
  rewrite (aniso_id_lt _ _ _ _ _ _ _ _ c HR) in Hna. rewrite (aniso_id_lt _ _ _ _ _ _ _ _ c' HR). destruct HR.
  pose proof (id_inv _ _ _ ra_iso0) as HI.
  destruct (cells_final _ _ _ _ _ _ _ _ HG ra_p2 ra_iso0 ra_corr0 ra_fin0 (or_intror Hth)) as [HCO _].
  destruct (sing_front _ _ _ _ _ _ HG ra_p2 ra_iso0) as (Hle & Hge & _ & _).
  assert (o_fc2cc r !! x = Some c) as Hx by by apply Hcx.
  assert (∀ z k, o_fc2cc r !! z = Some k → z < in_n i) as Hlt.
  { intros z k Hz. apply lookup_lt_Some in Hz. by rewrite (fi_len _ _ _ _ _ ra_fin0) in Hz. }
  unfold corrected in ra_corr0. rewrite Hcorr in ra_corr0.
  destruct ra_corr0 as (R & ct1 & rho & nc & HL & HRn). pose proof (cl_corr _ _ _ _ _ HL) as HCv.
  destruct (id_full _ _ _ ra_iso0 x (Hlt _ _ Hx)) as (k0 & Hk0 & Hf0).
  (* the coarse cell in which [x] ends *)
  assert (∃ k, k < ct_n ct ∧ ct_fc2cc ct1 !! x = Some (Some k)) as (k & Hk & Hfk).
  { destruct (decide (k0 ∈ R)) as [HkR|HkR].
    - destruct (cv_mv _ _ _ _ HCv x k0 HkR Hf0) as [Hm|(k' & _ & Hk'n & Hm)]; eauto.
    - exists k0. split; [done|]. by apply (cv_same _ _ _ _ HCv). }
  assert (k ∉ R) as HkR by by eapply no_orphan.
  assert (o_fc2cc r !! x = Some (rho k)) as Hxk.
  { apply (fi_f _ _ _ _ _ ra_fin0). by apply (rn_fc _ _ _ _ _ _ _ HRn). }
  assert (c = rho k) as -> by congruence.
  destruct (proj2 (ci_dom _ _ HI k) Hk) as [cc0 Hc0].
  destruct (proj2 (cv_dom _ _ _ _ HCv k HkR) Hk) as [cc Hc].
  assert (cc_fcs cc = {[x]}) as Hcc.
  { apply set_eq. intros z. rewrite elem_of_singleton, <- Hcx.
    apply (co_cell _ _ _ HCO). by rewrite (rn_ccs _ _ _ _ _ _ _ HRn). }
  assert (ct_n ctA ≤ k) as HkA.
  { apply Nat.nlt_ge. intros Hl. rewrite (rn_low _ _ _ _ _ _ _ HRn) in Hna; [lia|].
    intros r' Hr'. apply (cv_R _ _ _ _ HCv) in Hr'. apply Hge in Hr'. lia. }
  assert (k ∈ ct_sing ct) as Hs.
  { destruct (decide (k ∈ ct_sing ct)) as [?|Hs]; [done|]. exfalso.
    destruct (cv_keep _ _ _ _ HCv k cc0 Hs Hc0) as (cc' & Hc2 & Hg). assert (cc' = cc) as -> by congruence.
    destruct (id_iso _ _ _ ra_iso0) as (ip & _ & _ & Hiso).
    apply Hs, (ci_sing _ _ HI). exists cc0. split_and!; [done|by apply (Hiso k cc0 HkA Hc0)|].
    destruct (ci_card _ _ HI _ _ Hc0) as [-> _]. pose proof (gn_sub _ _ _ Hg) as Hsub.
    apply subseteq_size in Hsub. rewrite Hcc, size_singleton in Hsub.
    rewrite (ex_th _ _ (id_ext _ _ _ ra_iso0)), (p1_th _ _ _ _ _ ra_p2).
    apply (sing_thresh_one i (gc_acc _ _ HG)) in Hth. lia. }
  assert (cc0 = cc) as ->.
  { rewrite (cv_sing _ _ _ _ HCv) in Hc by done. congruence. }
  pose proof (cl_kept _ _ _ _ _ HL k cc x Hs HkR Hc0 ltac:(set_solver)) as Hisol.
  destruct (id_full _ _ _ ra_iso0 y (Hlt _ _ Hc')) as (ky & Hky & Hfy).
  destruct (proj2 (ci_dom _ _ HI ky) Hky) as [ccy Hccy].
  assert (cc_iso ccy = false) as Hni.
  { eapply Hisol; [|done]. split.
    - intros ->. assert (y ∈ cc_fcs cc) as Hyc.
      { apply (ci_cell _ _ HI) in Hfy as (cc2 & ? & ?). congruence. }
      rewrite Hcc in Hyc. set_solver.
    - exists y. split; [by apply elem_of_adj|done]. }
  assert (ky < ct_n ctA) as Hl.
  { apply Nat.nle_gt. intros Hl. destruct (id_iso _ _ _ ra_iso0) as (ip & _ & _ & Hiso).
    rewrite (io_iso _ _ _ _ _ _ (Hiso ky ccy Hl Hccy)) in Hni. done. }
  assert (c' = ky); [|by subst].
  apply (fi_aniso _ _ _ _ _ ra_fin0 y ky Hl) in Hfy. congruence.
Qed.

Lemma good_call_corr b i o : good_call i o → good_call (with_corr b i) o.
Proof. intros [[] [] ? ? ?]. split; try done. Qed.

Lemma C10_lem i o : good_call i o →
  ∃ r0 r1, agglomerate_one_level (with_corr false i) o = (r0, Ok ()) ∧
    agglomerate_one_level (with_corr true i) o = (r1, Ok ()) ∧
    o_idx r0 = o_idx r1 ∧ o_lines r0 = o_lines r1 ∧
    ∀ c, aniso_id i o r0 c → ∀ x, o_fc2cc r0 !! x = Some c ↔ o_fc2cc r1 !! x = Some c.
Proof.
  intros HG. pose proof (good_call_corr false i o HG) as HG0. pose proof (good_call_corr true i o HG) as HG1.
  destruct (ran_ok _ _ HG0) as (r0 & He0 & ctA & p & lo & ct & ct' & HR0).
  destruct (ran_ok _ _ HG1) as (r1 & He1 & ctA1 & p1 & lo1 & ct1 & ct1' & HR1).
  assert (phase1 (with_corr false i) o = phase1 (with_corr true i) o) as Hp by done.
  rewrite (ra_e1 _ _ _ _ _ _ _ _ HR0), (ra_e1 _ _ _ _ _ _ _ _ HR1) in Hp. simplify_eq.
  exists r0, r1. split_and!; [done..| | |].
  - by rewrite (ra_idx _ _ _ _ _ _ _ _ HR0), (ra_idx _ _ _ _ _ _ _ _ HR1).
  - by rewrite (ra_lines _ _ _ _ _ _ _ _ HR0), (ra_lines _ _ _ _ _ _ _ _ HR1).
  - intros c Hc x. apply (aniso_id_lt _ _ _ _ _ _ _ _ _ HR0) in Hc. destruct HR0, HR1.
    by rewrite (aniso_back _ _ _ _ _ _ _ _ x c ra_p2 ra_iso0 ra_fin0 Hc),
      (aniso_back _ _ _ _ _ _ _ _ x c ra_p3 ra_iso1 ra_fin1 Hc).
Qed.

(** The lines agglomerated by a call. *)
Definition call_lines i o : res (list (list nat)) :=
  lines_of (in_build i) (aniso_params_of i) (graph_of i) (in_prio i) (in_thr i) (o_idx o) (o_lines o).

Lemma lines_run i o r e : good_call i o → aniso_on i o → agglomerate_one_level i o = (r, e) →
  ∃ lines, call_lines i o = Ok lines ∧ run_lines i o lines ∧
    (∀ l, l ∈ lines → line_safe (max_line i) (length l)) ∧
    Forall2 (line_cut i (o_fc2cc r)) lines (split_lines (o_idx r) (o_lines r)) ∧
    concat (split_lines (o_idx r) (o_lines r)) = o_lines r ∧
    o_lines r = seq 0 (length (o_lines r)) ∧
    (∀ c, c ∈ o_lines r → ∃ x, o_fc2cc r !! x = Some c) ∧
    (lines = [] ∧ o_idx r = [] ∨
     o_idx r !! 0 = Some 0 ∧ (∀ k a b, o_idx r !! k = Some a → o_idx r !! S k = Some b → a ≤ b) ∧
     last (o_idx r) = Some (length (o_lines r))).
Proof.
  intros HG Hon He. destruct (ran_inv i o r e HG He) as (ctA & p & lo & ct & ct' & []).
  destruct lo as [outs|]; [|by destruct (p1_off _ _ _ _ _ ra_p2 eq_refl)].
  destruct (p1_on _ _ _ _ _ ra_p2 outs eq_refl) as (_ & lines & Hlo & Hrl & Hs & HI).
  exists lines. destruct (export_lines_ok outs) as (E1 & E2 & E3).
  assert (split_lines (o_idx r) (o_lines r) = outs) as ->.
  { rewrite ra_idx0, ra_lines0, <- E1. done. }
  split_and!; try done.
  - by eapply aniso_result.
  - by rewrite ra_lines0, (ai_ids _ _ _ _ _ _ HI), seq_length.
  - intros c Hc. rewrite ra_lines0, (ai_ids _ _ _ _ _ _ HI), elem_of_seq in Hc.
    pose proof (p1_inv _ _ _ _ _ ra_p2) as HIA.
    destruct (proj2 (ci_dom _ _ HIA c)) as [cc Hcc]; [lia|].
    destruct (ci_card _ _ HIA _ _ Hcc) as [_ Hne]. destruct (set_choose_L _ Hne) as [x Hx].
    exists x. apply (aniso_back _ _ _ _ _ _ _ _ x c ra_p2 ra_iso0 ra_fin0); [lia|]. eauto.
  - rewrite ra_idx0, ra_lines0. rewrite E1 in E3. destruct E3 as [[-> ->]|E3]; [left|by right].
    split; [|done]. pose proof (ai_res _ _ _ _ _ _ HI) as HF. by apply Forall2_nil_inv_r in HF.
Qed.

Lemma line_cut_spec i f line ids : line_cut i f line ids → ∃ l parts rest,
  oriented i line l ∧
  cut_spec (in_odd i) (take (eff (max_line i) (length line)) l) parts rest ∧
  Forall2 (λ p id, ∀ x, f !! x = Some id ↔ x ∈ p) parts ids.
Proof.
  intros (l & Hl & HF). destruct (cut_ok (in_odd i) (take (eff (max_line i) (length line)) l)) as [rest Hr].
  by exists l, (cut (in_odd i) (take (eff (max_line i) (length line)) l)), rest.
Qed.

(** Cells of a line outside the pieces are not in anisotropic cells. *)
Lemma line_left i o r lines line ids j l parts x c :
  NoDup (concat lines) →
  Forall2 (line_cut i (o_fc2cc r)) lines (split_lines (o_idx r) (o_lines r)) →
  concat (split_lines (o_idx r) (o_lines r)) = o_lines r →
  lines !! j = Some line → split_lines (o_idx r) (o_lines r) !! j = Some ids →
  (l = line ∨ l = reverse line) →
  Forall2 (λ p id, ∀ x, o_fc2cc r !! x = Some id ↔ x ∈ p) parts ids →
  x ∈ l → x ∉ concat parts → o_fc2cc r !! x = Some c → ¬ aniso_id i o r c.
Proof.
  intros Hnd HF Hcat Hj Hids Hl HP Hx Hnp Hc [_ Hin]. rewrite <- Hcat in Hin.
  assert (x ∈ line) as Hxl. { destruct Hl as [->| ->]; [done|]. by rewrite elem_of_reverse in Hx. }
  pose proof (line_cut_own _ _ _ _ _ _ _ _ _ Hnd HF Hj Hids Hxl Hc Hin) as Hid.
  apply elem_of_list_lookup in Hid as [k Hk].
  destruct (Forall2_lookup_r _ _ _ _ _ HP Hk) as (q & Hq & Hqx). apply Hnp, elem_of_concat.
  exists q. split; [by apply Hqx|]. by eapply elem_of_list_lookup_2.
Qed.

Lemma cut_nodup odd l parts rest x : NoDup l → cut_spec odd l parts rest → x ∈ rest → x ∉ concat parts.
Proof.
  intros Hnd HC Hx Hp. rewrite <- (cs_concat _ _ _ _ HC) in Hnd.
  apply NoDup_app in Hnd as (_ & Hnd & _). by apply (Hnd x).
Qed.
Lemma line_nodup (lines : list (list nat)) j line l : NoDup (concat lines) → lines !! j = Some line →
  l = line ∨ l = reverse line → NoDup l.
Proof.
  intros Hnd Hj Hl. assert (NoDup line) as Hn.
  { apply elem_of_list_lookup_2, elem_of_list_split in Hj as (l1 & l2 & ->). rewrite concat_app in Hnd.
    apply NoDup_app in Hnd as (_ & _ & Hnd). simpl in Hnd. by apply NoDup_app in Hnd as (? & _ & _). }
  destruct Hl as [->| ->]; [done|]. by rewrite reverse_Permutation.
Qed.

Lemma C11_lem i o r e : good_call i o → aniso_on i o →
  in_maxline i = None ∨ in_build i = true ∧ (∃ m, in_maxline i = Some m ∧ m <= 0)%Z →
  agglomerate_one_level i o = (r, e) →
  ∃ lines, call_lines i o = Ok lines ∧
    (in_build i = false → lines = filter (λ l, 2 ≤ length l) (split_lines (o_idx o) (o_lines o))) ∧
    Forall2 (λ line ids, ∃ l parts rest, oriented i line l ∧
      cut_spec (in_odd i) l parts rest ∧
      Forall2 (λ p id, ∀ x, o_fc2cc r !! x = Some id ↔ x ∈ p) parts ids ∧
      ∀ x c, x ∈ rest → o_fc2cc r !! x = Some c → ¬ aniso_id i o r c)
      lines (split_lines (o_idx r) (o_lines r)).
Proof.
  intros HG Hon Hmx He. destruct (lines_run i o r e HG Hon He) as (lines & Hlo & (_ & Hnd & _ & _) & _ & HF & Hcat & _).
  exists lines. split_and!; [done| |].
  - intros Hb. unfold call_lines, lines_of in Hlo. rewrite Hb in Hlo. by apply input_lines_eq.
  - apply Forall2_same_length_lookup_2; [by eapply Forall2_length|]. intros j line ids Hj Hids.
    pose proof (Forall2_lookup_lr _ _ _ _ _ _ HF Hj Hids) as Hcut.
    destruct (line_cut_spec _ _ _ _ Hcut) as (l & parts & rest & Hol & HC & HP).
    pose proof (oriented_or _ _ _ Hol) as Hl.
    assert (max_line i = None) as Hm.
    { unfold max_line. destruct Hmx as [->|(Hb & m & -> & Hm)]; [done|]. destruct Hon as [Ha _].
      by rewrite Ha, Hb, bool_decide_true. }
    rewrite Hm in HC. simpl in HC. rewrite take_ge in HC by (destruct Hl as [->| ->]; rewrite ?reverse_length; lia).
    exists l, parts, rest. split_and!; [done..|]. intros x c Hx.
    eapply (line_left i o r lines line ids j l parts); try done.
    + rewrite <- (cs_concat _ _ _ _ HC). set_solver.
    + eapply cut_nodup; [|done..]. by eapply line_nodup.
Qed.

Lemma C12_lem i o r e m : good_call i o → aniso_on i o → in_maxline i = Some m → (0 < m)%Z ∨ in_build i = false →
  agglomerate_one_level i o = (r, e) →
  ∃ lines, call_lines i o = Ok lines ∧
    (in_build i = false → lines = filter (λ l, 2 ≤ length l) (split_lines (o_idx o) (o_lines o))) ∧
    Forall2 (λ line ids, ∃ l K parts rest, oriented i line l ∧
      Z.of_nat K = (if bool_decide (Z.even m = true ∧ Z.of_nat (length l) = m + 1) then m + 1
                    else Z.max 0 (Z.min m (Z.of_nat (length l))))%Z ∧
      cut_spec (in_odd i) (take K l) parts rest ∧
      Forall2 (λ p id, ∀ x, o_fc2cc r !! x = Some id ↔ x ∈ p) parts ids ∧
      ∀ x c, x ∈ l → x ∉ concat parts → o_fc2cc r !! x = Some c → ¬ aniso_id i o r c)
      lines (split_lines (o_idx r) (o_lines r)).
Proof.
  intros HG Hon Hmx Hpos He. destruct (lines_run i o r e HG Hon He) as (lines & Hlo & (_ & Hnd & _ & _) & _ & HF & Hcat & _).
  exists lines. split_and!; [done| |].
  { intros Hb. unfold call_lines, lines_of in Hlo. rewrite Hb in Hlo. by apply input_lines_eq. }
  apply Forall2_same_length_lookup_2; [by eapply Forall2_length|]. intros j line ids Hj Hids.
  pose proof (Forall2_lookup_lr _ _ _ _ _ _ HF Hj Hids) as Hcut.
  destruct (line_cut_spec _ _ _ _ Hcut) as (l & parts & rest & Hol & HC & HP).
  pose proof (oriented_or _ _ _ Hol) as Hl.
  assert (max_line i = Some m) as Hm.
  { unfold max_line. rewrite Hmx. destruct Hpos as [Hpos| ->].
    - by rewrite bool_decide_false, andb_false_r by lia.
    - by rewrite andb_false_r. }
  assert (length l = length line) as Hlen by (destruct Hl as [->| ->]; rewrite ?reverse_length; lia).
  rewrite Hm in HC. exists l, (eff (Some m) (length line)), parts, rest. rewrite Hlen.
  split_and!; try done.
  - unfold eff. case_bool_decide as Hd; [naive_solver lia|lia].
  - intros x c Hx Hnx. by eapply (line_left i o r lines line ids j l parts).
Qed.

Lemma C13_lem i o r e : good_call i o → aniso_on i o → agglomerate_one_level i o = (r, e) →
  (o_idx r = [] ∧ o_lines r = [] ∨
   o_idx r !! 0 = Some 0 ∧ (∀ k a b, o_idx r !! k = Some a → o_idx r !! S k = Some b → a ≤ b) ∧
   last (o_idx r) = Some (length (o_lines r))) ∧
  NoDup (o_lines r) ∧ (∀ c, c ∈ o_lines r → ∃ x, o_fc2cc r !! x = Some c) ∧
  concat (split_lines (o_idx r) (o_lines r)) = o_lines r.
Proof.
  intros HG Hon He. destruct (lines_run i o r e HG Hon He) as (lines & _ & _ & _ & HF & Hcat & Hseq & Hids & Hidx).
  split_and!; [|rewrite Hseq; apply NoDup_seq|done|done].
  destruct Hidx as [[_ Hidx]|Hidx]; [left|by right]. split; [done|].
  rewrite <- Hcat, Hidx. done.
Qed.

Lemma C14_lem i o r e : good_call i o → aniso_on i o → in_build i = true →
  agglomerate_one_level i o = (r, e) →
  ∃ lines, call_lines i o = Ok lines ∧
    length lines = length (split_lines (o_idx r) (o_lines r)) ∧
    (∀ l, l ∈ lines → 2 ≤ length l ∧ path (in_edge i) l) ∧
    NoDup (concat lines) ∧ (∀ x, x ∈ concat lines → x ∈ in_compl i).
Proof.
  intros HG Hon Hb He. destruct (lines_run i o r e HG Hon He) as (lines & Hlo & (H1 & H2 & H3 & H4) & _ & HF & _).
  rewrite Hb in H4. destruct H4 as [H4 H5]. exists lines. split_and!; try done; [by eapply Forall2_length|naive_solver].
Qed.

Lemma C16_run_lem i o r e : good_call i o → in_corr i = false → in_order i = 0%Z ∨ in_order i = 10%Z →
  agglomerate_one_level i o = (r, e) → ∀ c x0, ¬ aniso_id i o r c → o_fc2cc r !! x0 = Some c →
  ∃ s b, o_fc2cc r !! s = Some c ∧ in_bnd i !! s = Some b ∧
    ∀ x cx bx, o_fc2cc r !! x = Some cx → c ≤ cx → in_bnd i !! x = Some bx →
      (Z.min bx (in_dim i) <= Z.min b (in_dim i))%Z.
Proof.
  intros HG Hc Hord He c x0 Hna Hx0. destruct (ran_inv i o r e HG He) as (ctA & p & lo & ct & ct' & HR).
  destruct (iso_cell _ _ _ _ _ _ _ _ _ Hc HR Hna x0 Hx0) as (cc & ip & _ & _ & _ & Hok & Hcc & Hf).
  destruct (io_seed _ _ _ _ _ _ Hok) as (s & b & Hs & Hb & Hmax).
  { unfold bprio. by apply bool_decide_eq_true. }
  simpl in Hb. apply fixed_bnd_lookup in Hb as (b0 & Hb0 & ->).
  exists s, b0. split_and!; [by apply Hcc|done|]. intros x cx bx Hx Hle Hbx.
  apply (Hmax x).
  - simpl. apply fixed_bnd_lookup. eauto.
  - intros k' Hk' Hfx. apply Hf in Hfx. assert (k' = cx) by congruence. lia.
Qed.

Lemma adj_nb_list i x : adj (graph_of i) x = nb_list (in_row i) (in_col i) x.
Proof. done. Qed.
Lemma count_occ_nodup x l : NoDup l → count_occ_nat x l = if decide (x ∈ l) then 1%Z else 0%Z.
Proof.
  induction 1 as [|y l Hy Hnd IH]; [done|]. rewrite count_occ_cons, IH.
  destruct (decide (y = x)) as [->|Hne].
  - rewrite decide_False, decide_True by set_solver. done.
  - destruct (decide (x ∈ l)).
    + rewrite decide_True by set_solver. done.
    + rewrite decide_False by set_solver. done.
Qed.
Lemma simple_csr_graph i : csr_sym (in_row i) (in_col i) → simple_csr (in_row i) (in_col i) → simple_graph (graph_of i).
Proof.
  intros Hs Hsi. split.
  - intros x Hx. apply elem_of_adj in Hx. by apply (Hsi x).
  - intros x y. rewrite !adj_nb_list. rewrite !count_occ_nodup by apply Hsi.
    rewrite <- !adj_nb_list. destruct (decide (x ∈ adj (graph_of i) y)) as [Hx|Hx].
    + rewrite decide_True; [done|]. apply elem_of_adj, Hs. by apply elem_of_adj in Hx.
    + rewrite decide_False; [done|]. intros Hy. apply Hx, elem_of_adj, Hs. by apply elem_of_adj in Hy.
Qed.
Lemma compactness_iff i X c : is_compactness (graph_of i) X c ↔ compactness (in_row i) (in_col i) X c.
Proof.
  unfold is_compactness, compactness. cbn zeta. destruct (decide (1 < size X)); [|done].
  unfold is_min. split; intros [(x & Hx) Hm]; split.
  - exists x. rewrite lookup_cpt_map in Hx. destruct (decide (x ∈ X)); [|done]. split; [done|].
    injection Hx as <-. done.
  - intros y Hy. apply (Hm y). by rewrite lookup_cpt_map, decide_True.
  - exists x. destruct Hx as [Hx <-]. by rewrite lookup_cpt_map, decide_True.
  - intros y v Hy. rewrite lookup_cpt_map in Hy. destruct (decide (y ∈ X)); [|done].
    injection Hy as <-. by apply Hm.
Qed.

Lemma C27_run_lem i o : good_call i o → simple_csr (in_row i) (in_col i) →
  ∃ r ctA p lo ct, agglomerate_one_level i o = (r, Ok ()) ∧
    phase1 i o = Ok (ctA, p, lo) ∧ phase2 i ctA p = Ok ct ∧
    ∀ k cc, ct_ccs ct !! k = Some cc → cc_iso cc = true →
      compactness (in_row i) (in_col i) (cc_fcs cc) (cc_cpt cc) ∧
      min_compactness (graph_of i) (cc_fcs cc) = Ok (cc_cpt cc).
Proof.
  intros HG Hsi. destruct (ran_ok i o HG) as (r & He & ctA & p & lo & ct & ct' & []).
  exists r, ctA, p, lo, ct'. split_and!; [done..|]. intros k cc Hc Hi.
  pose proof (mesh_wfg i (gc_mesh _ _ HG)) as WF. pose proof (id_inv _ _ _ ra_iso0) as HI.
  pose proof (simple_csr_graph i (wf_sym _ (gc_mesh _ _ HG)) Hsi) as HS.
  assert (∀ k cc, ct_ccs ct !! k = Some cc → cc_iso cc = true → is_compactness (graph_of i) (cc_fcs cc) (cc_cpt cc)) as H0.
  { intros k0 cc0 Hc0 Hi0. destruct (id_iso _ _ _ ra_iso0) as (ip & _ & _ & Hiso).
    destruct (decide (ct_n ctA ≤ k0)) as [Hk|Hk]; [by apply (Hiso k0 cc0)|].
    rewrite (ex_ccs _ _ (id_ext _ _ _ ra_iso0)) in Hc0 by lia.
    rewrite (aniso_cell_iso _ _ _ _ _ _ _ ra_p2 Hc0) in Hi0. done. }
  assert (∀ k cc x, ct_ccs ct !! k = Some cc → x ∈ cc_fcs cc → x < in_n i) as Hlt.
  { intros k0 cc0 x Hc0 Hx. assert (ct_fc2cc ct !! x = Some (Some k0)) as Hl.
    { apply (ci_cell _ _ HI). eauto. }
    apply lookup_lt_Some in Hl. by rewrite (ci_flen _ _ HI) in Hl. }
  assert (is_compactness (graph_of i) (cc_fcs cc) (cc_cpt cc) ∧ ∀ x, x ∈ cc_fcs cc → x < in_n i) as [HA Hx].
  { unfold corrected in ra_corr0. destruct (in_corr i); [|subst ct'; eauto].
    destruct ra_corr0 as (R & ct1 & rho & nc & HL & HRn). pose proof (cl_corr _ _ _ _ _ HL) as HCv.
    destruct (rn_surj _ _ _ _ _ _ _ HRn k) as (k0 & Hk & HkR & <-).
    { apply (rn_dom _ _ _ _ _ _ _ HRn). eauto. }
    rewrite (rn_ccs _ _ _ _ _ _ _ HRn) in Hc by done. split.
    2:{ intros x Hx. apply (cv_mem _ _ _ _ HCv _ _ HkR Hc) in Hx. apply lookup_lt_Some in Hx.
        by rewrite (cv_len _ _ _ _ HCv) in Hx. }
    destruct (proj2 (ci_dom _ _ HI k0) Hk) as [cc0 Hc0]. destruct (decide (k0 ∈ ct_sing ct)) as [Hs|Hs].
    - rewrite (cv_sing _ _ _ _ HCv) in Hc by done. eauto.
    - destruct (cv_keep _ _ _ _ HCv k0 cc0 Hs Hc0) as (cc2 & Hc2 & Hg). assert (cc2 = cc) as -> by congruence.
      destruct (gn_cpt _ _ _ Hg) as [->|?]; [eauto|done]. }
  split; [by apply compactness_iff|].
  pose proof (min_compactness_ok (graph_of i) (cc_fcs cc) WF Hx) as Hw.
  apply wp_eq in Hw as (v & -> & Hv). f_equal. apply compactness_iff in HA, Hv.
  unfold compactness in *. destruct (decide _); [|congruence].
  destruct HA as [(x & Hx1 & <-) Hm1], Hv as [(y & Hy1 & <-) Hm2].
  apply Z.le_antisymm; [by apply Hm2|by apply Hm1].
Qed.

Lemma C36_lem i o : good_call i o → in_corr i = false →
  ∃ r ctA p lo ct, agglomerate_one_level i o = (r, Ok ()) ∧
    phase1 i o = Ok (ctA, p, lo) ∧ phase2 i ctA p = Ok ct ∧
    (∀ c, c < ct_n ctA ↔ aniso_id i o r c) ∧
    (∀ c, c < ct_n ct ↔ ∃ x, o_fc2cc r !! x = Some c).
Proof.
  intros HG Hcorr. destruct (ran_ok i o HG) as (r & He & ctA & p & lo & ct & ct' & HR).
  pose proof HR as []. exists r, ctA, p, lo, ct'. split_and!; [done..| |].
  { intros c. symmetry. by eapply aniso_id_lt. }
  destruct (cells_final _ _ _ _ _ _ _ _ HG ra_p2 ra_iso0 ra_corr0 ra_fin0 (or_introl Hcorr)) as [[Hc _ Hne Hin] _].
  unfold corrected in ra_corr0. rewrite Hcorr in ra_corr0. subst ct'. pose proof (id_inv _ _ _ ra_iso0) as HI.
  intros c. rewrite <- (ci_dom _ _ HI). split.
  - intros [cc Hcc]. destruct (set_choose_L (cc_fcs cc) (Hne _ _ Hcc)) as [x Hx]. exists x. by apply (Hc c cc x Hcc).
  - intros [x Hx]. eauto.
Qed.

End api.
