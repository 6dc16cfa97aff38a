(** * ApiP: consequences of [main_run] used by the property statements *)

From Verif Require Export MainP SpecLine.

Lemma NoDup_concat_idx {B} (ls : list (list B)) j k l l' x :
  NoDup (concat ls) → ls !! j = Some l → ls !! k = Some l' → x ∈ l → x ∈ l' → j = k.
Proof.
  revert j k. induction ls as [|m ls IH]; intros j k; [done|]. simpl.
  rewrite NoDup_app. intros (H1 & H2 & H3) Hj Hk Hx Hx'.
  destruct j as [|j], k as [|k]; simpl in *; simplify_eq.
  - done.
  - exfalso. apply (H2 x Hx), elem_of_concat. exists l'. split; [done|]. by eapply elem_of_list_lookup_2.
  - exfalso. apply (H2 x Hx'), elem_of_concat. exists l. split; [done|]. by eapply elem_of_list_lookup_2.
  - f_equal. eauto.
Qed.

(** ** The exported lines *)

Lemma export_fold ls idx cells :
  (∀ k a b, idx !! k = Some a → idx !! S k = Some b → a ≤ b) → last idx = Some (length cells) →
  let r := foldl (λ '(idx, cells) (l : list nat), (idx ++ [length l + length cells], cells ++ l)) (idx, cells) ls in
  r.2 = cells ++ concat ls ∧ (∃ t, r.1 = idx ++ t) ∧
  (∀ k a b, r.1 !! k = Some a → r.1 !! S k = Some b → a ≤ b) ∧ last r.1 = Some (length r.2) ∧
  split_lines r.1 r.2 = split_lines idx cells ++ ls.
Proof.
  revert idx cells. induction ls as [|l ls IH]; intros idx cells Hm Hl; simpl.
  { rewrite !app_nil_r. split_and!; try done. exists []. by rewrite app_nil_r. }
  destruct (IH (idx ++ [length l + length cells]) (cells ++ l)) as (H1 & [t H2] & H3 & H4 & H5).
  - intros k a b Ha Hb. destruct (decide (S k < length idx)) as [Hk|Hk].
    + rewrite lookup_app_l in Ha, Hb by lia. eauto.
    + pose proof (lookup_lt_Some _ _ _ Hb) as Hlt. rewrite app_length in Hlt. simpl in Hlt.
      assert (S k = length idx) as Hk' by lia.
      rewrite lookup_app_l in Ha by lia. rewrite last_lookup, <- Hk' in Hl. simpl in Hl.
      rewrite lookup_app_r, Hk', Nat.sub_diag in Hb by lia. simpl in Hb. simplify_eq. lia.
  - rewrite last_snoc, app_length. f_equal. lia.
  - split_and!; try done.
    + by rewrite H1, <- app_assoc.
    + eexists. rewrite H2, <- app_assoc. done.
    + rewrite H5. rewrite (cons_middle l), app_assoc. f_equal. clear -Hm Hl. unfold split_lines.
      destruct idx as [|a idx]; [done|]. simpl.
      assert (∀ k c, (a :: idx) !! k = Some c → c ≤ length cells) as Hle.
      { intros k c Hc. rewrite last_lookup in Hl. simpl in Hl.
        assert (∀ d, k + d ≤ length idx → ∀ e, (a :: idx) !! (k + d) = Some e → c ≤ e) as Hd.
        { induction d as [|d IHd]; intros Hd e He.
          - rewrite Nat.add_0_r in He. simplify_eq. lia.
          - destruct (lookup_lt_is_Some_2 (a :: idx) (k + d)) as [e' He']; [simpl; lia|].
            specialize (IHd ltac:(lia) e' He'). rewrite Nat.add_succ_r in He.
            specialize (Hm _ _ _ He' He). lia. }
        pose proof (lookup_lt_Some _ _ _ Hc) as Hk. simpl in Hk.
        apply (Hd (length idx - k)); [lia|]. by replace (k + (length idx - k)) with (length idx) by lia. }
      clear Hm. revert a Hl Hle. induction idx as [|b idx IH]; intros a Hl Hle; simpl.
      * simpl in Hl. simplify_eq. f_equal.
        rewrite drop_app_ge, Nat.sub_diag, drop_0 by lia.
        rewrite take_ge by lia. done.
      * assert (a ≤ length cells) by by apply (Hle 0). assert (b ≤ length cells) by by apply (Hle 1).
        f_equal.
        -- rewrite drop_app_le by lia. rewrite take_app_le; [done|]. rewrite drop_length. lia.
        -- apply IH; [done|]. intros k. apply (Hle (S k)).
Qed.

Lemma export_lines_ok ls : let r := export_lines ls in
  r.2 = concat ls ∧ split_lines r.1 r.2 = ls ∧
  (ls = [] ∧ r.1 = [] ∨ r.1 !! 0 = Some 0 ∧
   (∀ k a b, r.1 !! k = Some a → r.1 !! S k = Some b → a ≤ b) ∧ last r.1 = Some (length r.2)).
Proof.
  destruct ls as [|l ls]; simpl.
  { split_and!; [done..|]. by left. }
  destruct (export_fold (l :: ls) [0] []) as (H1 & [t H2] & H3 & H4 & H5); [|done|].
  { intros [|k] a b; simpl; done. }
  simpl in *. split_and!; [done..|]. right. split_and!; [|done..]. by rewrite H2.
Qed.

Section api.
Context {A : Arith} {H : HashOrder}.
Implicit Types (i : input) (o : outs).

(** ** Anisotropic coarse cells *)

Lemma aniso_back i o ctA p lo ct ct' f x k :
  phase1_ok i o ctA p lo → iso_done i ctA ct → final i ctA ct ct' f → k < ct_n ctA →
  f !! x = Some k ↔ ∃ cc, ct_ccs ctA !! k = Some cc ∧ x ∈ cc_fcs cc.
Proof.
  intros H1 HD HF Hk. rewrite (fi_aniso _ _ _ _ _ HF x k Hk).
  rewrite <- (ci_cell _ _ (p1_inv _ _ _ _ _ H1)). split.
  - by apply (ex_old _ _ (id_ext _ _ _ HD)).
  - apply (ex_fc _ _ (id_ext _ _ _ HD)).
Qed.

(** The pieces of one line and their identifiers. *)
Definition line_cut i (f line ids : list nat) : Prop :=
  ∃ l, oriented i line l ∧
    Forall2 (λ p id, ∀ x, f !! x = Some id ↔ x ∈ p)
      (cut (in_odd i) (take (eff (max_line i) (length line)) l)) ids.

Lemma oriented_or i line l : oriented i line l → l = line ∨ l = reverse line.
Proof. intros (x & y & _ & _ & [[_ ->]|[_ ->]]); auto. Qed.
Lemma clipped_fixed i x b : fixed_bnd i !! x = Some b → clipped i x = b.
Proof.
  intros Hb. apply fixed_bnd_lookup in Hb as (b0 & Hb0 & ->). unfold clipped. by rewrite Hb0.
Qed.
Lemma forward_oriented i line b : forward_line (graph_of i) (in_prio i) line = Ok b →
  oriented i line (if b : bool then line else reverse line).
Proof.
  unfold forward_line. destruct line as [|x line]; [done|]. destruct (last (x :: line)) as [y|] eqn:Hl; [|done].
  intros Hok. apply bind_Ok_inv in Hok as (bf & Hbf & Hok). apply bind_Ok_inv in Hok as (bb & Hbb & Hok).
  apply bind_Ok_inv in Hok as (wf & Hwf & Hok). apply bind_Ok_inv in Hok as (wb & Hwb & [= <-]).
  apply vget_inv in Hbf, Hbb, Hwf, Hwb. simpl in Hbf, Hbb.
  exists x, y. split_and!; [done..|].
  assert (comes_first i x y ↔ bool_decide (bb < bf)%Z
    || (bool_decide (bf = bb) && (wlt wb wf || (weq wf wb && bool_decide (x < y)))) = true) as Hcf.
  { unfold comes_first. rewrite (clipped_fixed _ _ _ Hbf), (clipped_fixed _ _ _ Hbb). unfold prio_of.
    rewrite Hwf, Hwb. simpl. rewrite orb_true_iff, andb_true_iff, orb_true_iff, andb_true_iff, !bool_decide_eq_true.
    done. }
  destruct (_ || _); [left|right]; (split; [|done]); rewrite Hcf; done.
Qed.

Lemma aniso_result i o ctA p outs ct ct' f lines :
  phase1_ok i o ctA p (Some outs) → iso_done i ctA ct → final i ctA ct ct' f →
  aniso_inv (graph_of i) (in_prio i) (aniso_params_of i) ctA lines outs →
  Forall2 (line_cut i f) lines outs.
Proof.
  intros H1 HD HF HI. eapply Forall2_impl; [apply HI|].
  intros line ids (b & Hb & Hlen & Hp). simpl in *. exists (if b : bool then line else reverse line).
  split; [by apply forward_oriented|].
  apply Forall2_same_length_lookup_2; [done|]. intros k q id Hq Hid x.
  destruct (Hp k q Hq) as (id' & Hid' & Hlt & Hc). simplify_eq.
  rewrite (aniso_back _ _ _ _ _ _ _ _ _ _ H1 HD HF Hlt), Hc. split.
  - intros (cc & [= <-] & Hx). by apply elem_of_list_to_set in Hx.
  - intros Hx. eexists. split; [done|]. by apply elem_of_list_to_set.
Qed.

Lemma line_cut_in i f line ids id x : line_cut i f line ids → id ∈ ids → f !! x = Some id → x ∈ line.
Proof.
  intros (l & Hl%oriented_or & HF) Hid Hx. apply elem_of_list_lookup in Hid as [k Hk].
  destruct (Forall2_lookup_r _ _ _ _ _ HF Hk) as (q & Hq & Hqx).
  apply Hqx in Hx. destruct (cut_ok (in_odd i) (take (eff (max_line i) (length line)) l)) as (rest & HC).
  assert (x ∈ l) as Hxl.
  { apply (elem_of_sublist (take (eff (max_line i) (length line)) l)); [apply sublist_take|]. rewrite <- (cs_concat _ _ _ _ HC).
    apply elem_of_app. left. apply elem_of_concat. exists q. split; [done|]. by eapply elem_of_list_lookup_2. }
  destruct Hl as [->| ->]; [done|]. by rewrite elem_of_reverse in Hxl.
Qed.

(** An anisotropic identifier on a cell of a line is one of that line. *)
Lemma line_cut_own i f lines outs line ids id x j :
  NoDup (concat lines) → Forall2 (line_cut i f) lines outs →
  lines !! j = Some line → outs !! j = Some ids → x ∈ line → f !! x = Some id →
  id ∈ concat outs → id ∈ ids.
Proof.
  intros Hnd HF Hl Ho Hx Hf Hid. apply elem_of_concat in Hid as (ids' & Hid & Hin).
  apply elem_of_list_lookup in Hin as [k Hk].
  destruct (Forall2_lookup_r _ _ _ _ _ HF Hk) as (line' & Hl' & Hc).
  pose proof (line_cut_in _ _ _ _ _ _ Hc Hid Hf) as Hx'.
  rewrite <- (NoDup_concat_idx _ _ _ _ _ _ Hnd Hl Hl' Hx Hx') in Hk. congruence.
Qed.

(** ** The final coarse cells *)

Record cells_ok (ctA ct' : container) (f : list nat) : Prop := {
  co_cell : ∀ k cc x, ct_ccs ct' !! k = Some cc → x ∈ cc_fcs cc ↔ f !! x = Some k;
  co_dom : ∃ nc, ct_n ctA ≤ nc ∧ ∀ k, is_Some (ct_ccs ct' !! k) ↔ k < nc;
  co_ne : ∀ k cc, ct_ccs ct' !! k = Some cc → cc_fcs cc ≠ ∅;
  co_in : ∀ x k, f !! x = Some k → is_Some (ct_ccs ct' !! k);
}.

Lemma no_orphan i o ctA p lo ct R ct1 x k : good_call i o → phase1_ok i o ctA p lo → iso_done i ctA ct →
  thresh_one i → corr_loop (graph_of i) ct (ct_sing ct) R ct1 →
  ct_fc2cc ct1 !! x = Some (Some k) → k ∉ R.
Proof.
  intros HG H1 HD Ht [HC HR Ho _] Hx HkR. pose proof (id_inv _ _ _ HD) as HI.
  assert (x < in_n i) as Hxn.
  { apply lookup_lt_Some in Hx. by rewrite (cv_len _ _ _ _ HC) in Hx. }
  destruct (id_full _ _ _ HD x Hxn) as (k0 & Hk0 & Hf0).
  destruct (decide (k0 ∈ R)) as [H0R|H0R].
  - destruct (cv_mv _ _ _ _ HC x k0 H0R Hf0) as [Hm|(k' & Hs & _ & Hm)].
    + simplify_eq. apply (ci_cell _ _ HI) in Hf0 as (cc & Hc & Hxc).
      pose proof (Ho k x cc HkR Hc Hxc Hx) as Hsz.
      pose proof (cv_R _ _ _ _ HC _ HkR) as Hs. apply (ci_sing _ _ HI) in Hs as (cc' & Hc' & _ & Hth).
      simplify_eq. rewrite (proj1 (ci_card _ _ HI _ _ Hc)) in Hth.
      rewrite (ex_th _ _ (id_ext _ _ _ HD)), (p1_th _ _ _ _ _ H1) in Hth.
      apply (sing_thresh_one i (gc_acc _ _ HG)) in Ht. lia.
    + simplify_eq. apply Hs. by apply (cv_R _ _ _ _ HC).
  - pose proof (cv_same _ _ _ _ HC x k0 H0R Hf0) as Hm. by simplify_eq.
Qed.

Lemma cells_final i o ctA p lo ct ct' f : good_call i o →
  phase1_ok i o ctA p lo → iso_done i ctA ct → corrected i ct ct' → final i ctA ct ct' f →
  in_corr i = false ∨ thresh_one i →
  cells_ok ctA ct' f ∧
  (given_paths i o → ∀ k cc, ct_ccs ct' !! k = Some cc → connected (in_edge i) (λ x, x ∈ cc_fcs cc)).
Proof.
  intros HG H1 HD HC HF Hth. pose proof (id_inv _ _ _ HD) as HI.
  pose proof (mesh_wfg i (gc_mesh _ _ HG)) as WF.
  assert (given_paths i o → ∀ k cc, ct_ccs ct !! k = Some cc → connected (in_edge i) (λ x, x ∈ cc_fcs cc)) as Hcn.
  { intros Hgp k cc Hc. destruct (decide (k < ct_n ctA)) as [Hk|Hk].
    - rewrite (ex_ccs _ _ (id_ext _ _ _ HD)) in Hc by done. destruct lo as [outs|].
      2:{ destruct (p1_off _ _ _ _ _ H1 eq_refl). lia. }
      destruct (p1_on _ _ _ _ _ H1 outs eq_refl) as (Hon & lines & _ & Hrl & _ & HAI).
      destruct (ai_cell _ _ _ _ _ _ HAI k cc Hc) as (q & l & -> & _ & _ & Hl & _ & Hpath).
      apply path_connected; [apply WF|]. apply Hpath. destruct Hrl as (_ & _ & _ & Hb).
      destruct (in_build i) eqn:Hbd; [by apply Hb|]. destruct (Hb l Hl) as [j Hj]. by eapply Hgp.
    - destruct (id_iso _ _ _ HD) as (ip & _ & _ & Hiso). apply Hiso in Hc; [|lia]. apply Hc. }
  destruct (sing_front _ _ _ _ _ _ HG H1 HD) as (Hle & Hge & Hfr & Hcs).
  unfold corrected in HC. destruct (in_corr i) eqn:Hcorr.
  - destruct Hth as [?|Hth]; [done|]. destruct HC as (R & ct1 & rho & nc & HL & HRn).
    pose proof (cl_corr _ _ _ _ _ HL) as HCv.
    assert (∀ x, x < in_n i → ∃ k, k < ct_n ct ∧ k ∉ R ∧ ct_fc2cc ct1 !! x = Some (Some k) ∧ f !! x = Some (rho k)) as Htot.
    { intros x Hx. assert (is_Some (ct_fc2cc ct1 !! x)) as [ok Hok].
      { apply lookup_lt_is_Some_2. rewrite (cv_len _ _ _ _ HCv). done. }
      destruct (id_full _ _ _ HD x Hx) as (k0 & Hk0 & Hf0).
      assert (∃ k, k < ct_n ct ∧ ct_fc2cc ct1 !! x = Some (Some k)) as (k & Hk & Hfk).
      { destruct (decide (k0 ∈ R)) as [HkR|HkR].
        - destruct (cv_mv _ _ _ _ HCv x k0 HkR Hf0) as [Hm|(k' & _ & Hk'n & Hm)]; eauto.
        - exists k0. split; [done|]. by apply (cv_same _ _ _ _ HCv). }
      assert (k ∉ R) as HkR by by eapply no_orphan.
      exists k. split_and!; [done..|]. apply (fi_f _ _ _ _ _ HF). by apply (rn_fc _ _ _ _ _ _ _ HRn). }
    assert (∀ k k', k < ct_n ct → k' < ct_n ct → k ∉ R → k' ∉ R → rho k = rho k' → k = k') as Hinj.
    { intros k k' Hk Hk' HR HR' He. destruct (decide (k < k')) as [Hl|Hl].
      - pose proof (rn_mono _ _ _ _ _ _ _ HRn k k' Hl Hk Hk' HR HR'). lia.
      - destruct (decide (k' < k)) as [Hl'|Hl']; [|lia].
        pose proof (rn_mono _ _ _ _ _ _ _ HRn k' k Hl' Hk' Hk HR' HR). lia. }
    assert (∀ j cc, ct_ccs ct' !! j = Some cc → ∃ k, k < ct_n ct ∧ k ∉ R ∧ j = rho k ∧ ct_ccs ct1 !! k = Some cc) as Hback.
    { intros j cc Hj. destruct (rn_surj _ _ _ _ _ _ _ HRn j) as (k & Hk & HkR & <-).
      - apply (rn_dom _ _ _ _ _ _ _ HRn). eauto.
      - exists k. split_and!; [done..|]. by rewrite <- (rn_ccs _ _ _ _ _ _ _ HRn). }
    assert (∀ k cc, k < ct_n ct → k ∉ R → ct_ccs ct1 !! k = Some cc → ∃ cc0, ct_ccs ct !! k = Some cc0 ∧
      (cc = cc0 ∨ grown (graph_of i) cc0 cc)) as Horig.
    { intros k cc Hk HkR Hc. destruct (proj2 (ci_dom _ _ HI k) Hk) as [cc0 Hc0]. exists cc0. split; [done|].
      destruct (decide (k ∈ ct_sing ct)) as [Hs|Hs].
      - left. rewrite (cv_sing _ _ _ _ HCv) in Hc by done. congruence.
      - right. destruct (cv_keep _ _ _ _ HCv k cc0 Hs Hc0) as (cc' & Hc' & Hg). congruence. }
    split.
    + split.
      * intros j cc x Hj. destruct (Hback j cc Hj) as (k & Hk & HkR & -> & Hc).
        rewrite (cv_mem _ _ _ _ HCv k cc HkR Hc). split.
        -- intros Hx. apply (fi_f _ _ _ _ _ HF). by apply (rn_fc _ _ _ _ _ _ _ HRn).
        -- intros Hx. destruct (Htot x) as (k' & Hk' & HkR' & Hf1 & Hfx).
           { apply lookup_lt_Some in Hx. by rewrite (fi_len _ _ _ _ _ HF) in Hx. }
           rewrite Hfx in Hx. injection Hx as Hx. apply Hinj in Hx; try done. by subst.
      * exists nc. split; [|apply HRn].
        apply Nat.nlt_ge. intros Hlt.
        assert (nc < ct_n ct) as Hnc by lia.
        assert (∀ r, r ∈ R → ct_n ctA ≤ r) as HRr.
        { intros r Hr. apply Hge. by apply (cv_R _ _ _ _ HCv). }
        assert (nc ∉ R) as HncR by (intros Hr; apply HRr in Hr; lia).
        pose proof (rn_lt _ _ _ _ _ _ _ HRn nc Hnc HncR) as Hl.
        rewrite (rn_low _ _ _ _ _ _ _ HRn) in Hl; [lia|]. intros r Hr. apply HRr in Hr. lia.
      * intros j cc Hj. destruct (Hback j cc Hj) as (k & Hk & HkR & -> & Hc).
        destruct (Horig k cc Hk HkR Hc) as (cc0 & Hc0 & Hg).
        destruct (ci_card _ _ HI _ _ Hc0) as [_ Hne].
        destruct Hg as [->|Hg]; [done|]. pose proof (gn_sub _ _ _ Hg). set_solver.
      * intros x j Hx. destruct (Htot x) as (k' & Hk' & HkR' & Hf1 & Hfx).
        { apply lookup_lt_Some in Hx. by rewrite (fi_len _ _ _ _ _ HF) in Hx. }
        apply (rn_dom _ _ _ _ _ _ _ HRn). rewrite Hfx in Hx. injection Hx as <-.
        by apply (rn_lt _ _ _ _ _ _ _ HRn).
    + intros Hgp j cc Hj. destruct (Hback j cc Hj) as (k & Hk & HkR & -> & Hc).
      destruct (Horig k cc Hk HkR Hc) as (cc0 & Hc0 & Hg). specialize (Hcn Hgp k cc0 Hc0).
      destruct Hg as [->|Hg]; [done|]. by apply (gn_conn _ _ _ Hg).
  - subst ct'. split; [|done]. split.
    + intros k cc x Hc. rewrite (fi_f _ _ _ _ _ HF), (ci_cell _ _ HI). split; [eauto|].
      intros (cc' & Hc' & Hx). congruence.
    + exists (ct_n ct). split; [done|]. apply HI.
    + intros k cc Hc. by apply (ci_card _ _ HI) in Hc as [_ ?].
    + intros x k Hx. apply (fi_f _ _ _ _ _ HF), (ci_cell _ _ HI) in Hx as (cc & ? & _). eauto.
Qed.

End api.
