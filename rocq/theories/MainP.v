(** * MainP: the whole of [agglomerate_one_level] *)

From Verif Require Export LinesP AnisoP CorrectP.

Lemma path_connected (E : nat → nat → Prop) (p : list nat) :
  (∀ x y, E x y → E y x) → path E p →
  connected E (λ x, x ∈ (list_to_set p : gset nat)).
Proof.
  intros Hs Hp.
  assert (∀ i x y, p !! 0 = Some x → p !! i = Some y →
    walk E (λ x, x ∈ (list_to_set p : gset nat)) (λ z, z = x) i y) as Hw.
  { induction i as [|i IH]; intros x y Hx Hy; [constructor; congruence|].
    destruct (lookup_lt_is_Some_2 p i) as [z Hz]; [apply lookup_lt_Some in Hy; lia|].
    econstructor; [by apply IH| |].
    - by eapply Hp.
    - apply elem_of_list_to_set. by eapply elem_of_list_lookup_2. }
  intros x y Hx Hy. apply elem_of_list_to_set, elem_of_list_lookup in Hx as [i Hi].
  apply elem_of_list_to_set, elem_of_list_lookup in Hy as [j Hj].
  destruct (lookup_lt_is_Some_2 p 0) as [z Hz]; [apply lookup_lt_Some in Hi; lia|].
  exists (j + i). eapply walk_trans; [|by apply (Hw j z y)].
  apply walk_rev; [done| |by apply Hw]. apply elem_of_list_to_set. by eapply elem_of_list_lookup_2.
Qed.

Lemma fill_ok (v : list (option nat)) :
  (∀ x, x < length v → ∃ k, v !! x = Some (Some k)) →
  ∃ f, fill v = (f, Ok ()) ∧ length f = length v ∧ ∀ x k, f !! x = Some k ↔ v !! x = Some (Some k).
Proof.
  induction v as [|o v IH]; intros Hv.
  { exists []. split_and!; [done..|]. intros x k. by rewrite !lookup_nil. }
  destruct (Hv 0) as [k Hk]; [simpl; lia|]. simpl in Hk. simplify_eq.
  destruct IH as (f & Hf & Hl & Hfx).
  { intros x Hx. apply (Hv (S x)). simpl. lia. }
  exists (k :: f). simpl. rewrite Hf. split_and!; [done|congruence|].
  intros [|x] k'; simpl; [|apply Hfx]. split; congruence.
Qed.

Section main.
Context {A : Arith} {H : HashOrder}.
Implicit Types (i : input) (o : outs).

Lemma mesh_wfg i : wf_mesh i → wfg (graph_of i).
Proof. intros []. by split. Qed.
Lemma fixed_bnd_lookup i k b : fixed_bnd i !! k = Some b ↔
  ∃ b0, in_bnd i !! k = Some b0 ∧ b = Z.min b0 (in_dim i).
Proof.
  unfold fixed_bnd. rewrite list_lookup_fmap. destruct (in_bnd i !! k) as [b0|]; simpl; [|naive_solver].
  case_bool_decide; split.
  - intros [= <-]. exists b0. split; [done|lia].
  - intros (? & [= <-] & ->). f_equal. lia.
  - intros [= <-]. exists b0. split; [done|lia].
  - intros (? & [= <-] & ->). f_equal. lia.
Qed.
Lemma mesh_wfd i : wf_mesh i → in_dim i = 2%Z ∨ in_dim i = 3%Z → wfd (graph_of i) (in_prio i).
Proof.
  intros [] Hd. split; try done.
  - simpl. unfold fixed_bnd. by rewrite map_length.
  - simpl. intros k b Hb. apply fixed_bnd_lookup in Hb as (b0 & Hb0 & ->).
    apply wf_bnd_pos in Hb0. lia.
Qed.

Lemma sanity_ok i o : good_call i o →
  wp (sanity i o) (λ b, b = true ↔ aniso_on i o).
Proof.
  intros [[] [] _ _ Hgiven]. unfold sanity.
  assert (negb (bool_decide (in_dim i = 2%Z) || bool_decide (in_dim i = 3%Z)) = false) as ->.
  { destruct ac_dim as [-> | ->]; done. }
  rewrite (bool_decide_false (in_min i <= 1)%Z), (bool_decide_false (in_goal i <= 1)%Z),
    (bool_decide_false (in_max i <= 1)%Z), (bool_decide_true (in_min i <= in_goal i)%Z),
    (bool_decide_true (in_goal i <= in_max i)%Z), (bool_decide_false (in_iter i < 1)%Z),
    (bool_decide_false (iter_agglo_max_iter < in_iter i)%Z), (bool_decide_false (in_sing i <= 0)%Z)
    by (unfold iter_agglo_max_iter; lia).
  assert (last (in_row i) = Some (length (in_col i))) as ->.
  { rewrite last_lookup, (csr_len _ _ _ wf_csr). simpl. apply wf_csr. }
  simpl. rewrite (bool_decide_true (length _ = length (in_col i))), (bool_decide_true (_ = length (in_val i))) by done.
  simpl.
  unfold aniso_on. destruct (in_aniso i) eqn:Han; simpl.
  2:{ split; [done|]. by intros [? _]. }
  destruct (in_build i) eqn:Hb; simpl.
  { done. }
  destruct (last (o_idx o)) as [b|] eqn:Hl; simpl.
  2:{ split; [done|]. intros [_ Hx].
      apply last_None in Hl. rewrite Hl in Hx. simpl in Hx. destruct (Hx eq_refl). lia. }
  destruct (bool_decide (length (o_idx o) < 2)) eqn:H1; simpl.
  { apply bool_decide_eq_true in H1. split; [done|].
    intros [_ Hx]. destruct (Hx eq_refl). lia. }
  destruct (bool_decide (o_lines o = [])) eqn:H2; simpl.
  { apply bool_decide_eq_true in H2. split; [done|].
    intros [_ Hx]. destruct (Hx eq_refl). done. }
  apply bool_decide_eq_false in H1, H2.
  destruct Hgiven as [Hgiven _]; [split; [done|]; intros _; split; [lia|done]|done|].
  rewrite (ul_last _ _ _ Hgiven) in Hl. injection Hl as <-.
  rewrite bool_decide_true by done. simpl.
  split; [|done]. intros _. split; [done|]. intros _. split; [lia|done].
Qed.

Definition bprio i : bool := bool_decide (in_order i = 0%Z ∨ in_order i = 10%Z).
Definition onept i : bool := bool_decide (in_order i = 10%Z ∨ in_order i = 11%Z).
Lemma pool_of_ok i : accepted i → pool_of i = Ok (pool_new (bprio i) (onept i)).
Proof.
  intros [_ _ _ _ _ _ Ho _]. unfold pool_of, bprio, onept.
  rewrite !elem_of_cons, elem_of_nil in Ho. by destruct Ho as [-> |[-> |[-> |[-> |[]]]]].
Qed.
Lemma iso_params_ok i : accepted i → ∃ ip, iso_params_of i = Ok ip ∧
  ip_dim ip = in_dim i ∧ ip_min ip = in_min i ∧ ip_goal ip = in_goal i ∧ ip_max ip = in_max i.
Proof.
  intros []. unfold iso_params_of.
  assert (∃ k, ar_of_Z (in_ar i) (in_dim i) = Some k) as [k ->].
  { unfold ar_of_Z. cbn zeta. assert (in_ar i ∈ [0;1;2;3;4;5;6;7;8;9]%Z) as Hin.
    { rewrite !elem_of_cons. lia. }
    rewrite !elem_of_cons, elem_of_nil in Hin. repeat destruct Hin as [-> |Hin]; eauto. done. }
  eexists. split; [done|]. simpl. rewrite !bool_decide_false by lia. done.
Qed.
Lemma sing_thresh_lt i : accepted i → (sing_thresh i < in_min i)%Z.
Proof. unfold sing_thresh. intros []. case_bool_decide; lia. Qed.
Lemma sing_thresh_one i : accepted i → thresh_one i ↔ sing_thresh i = 1%Z.
Proof. unfold sing_thresh, thresh_one. intros []. case_bool_decide; lia. Qed.

(** The lines which are agglomerated. *)
Definition run_lines i o (lines : list (list nat)) : Prop :=
  (∀ l, l ∈ lines → 2 ≤ length l) ∧ NoDup (concat lines) ∧
  (∀ x, x ∈ concat lines → x < in_n i) ∧
  (if in_build i then
     (∀ l, l ∈ lines → path (in_edge i) l) ∧ ∀ x, x ∈ concat lines → x ∈ in_compl i
   else ∀ l, l ∈ lines → ∃ k, line_at (o_idx o) (o_lines o) k l).

Lemma lines_of_ok i o : good_call i o → aniso_on i o →
  wp (lines_of (in_build i) (aniso_params_of i) (graph_of i) (in_prio i) (in_thr i) (o_idx o) (o_lines o))
    (λ lines, run_lines i o lines ∧ ∀ l, l ∈ lines → line_safe (max_line i) (length l)).
Proof.
  intros [WM HA _ Hb Hg] Hon. specialize (Hb Hon). specialize (Hg Hon).
  pose proof (mesh_wfg i WM) as WF. pose proof (mesh_wfd i WM (ac_dim _ HA)) as WD.
  assert (∀ L, limit_safe i L → line_safe (max_line i) L) as Hls.
  { intros L HL m Hm. apply HL. unfold max_line in Hm. destruct (in_maxline i) as [m'|]; [|done].
    by destruct (_ && _). }
  unfold lines_of, run_lines. destruct (in_build i).
  - destruct (Hb eq_refl) as [Hbuild Hlim]. destruct (wf_dim _ WM) as [d Hd].
    assert (∀ c, c ∈ g_compl (graph_of i) ↔ c ∈ in_compl i) as Hcm.
    { intros c. simpl. apply elem_of_list_to_set. }
    eapply wp_mono.
    { apply (build_anisotropic_lines_ok (graph_of i) (in_prio i) WF WD) with (dimc := d).
      - intros c Hc. apply (wf_compl _ WM). by apply Hcm.
      - done.
      - intros Hmd Hneg c Hc. apply Hcm in Hc. simpl in Hmd. apply bool_decide_eq_false in Hmd.
        destruct Hbuild as [?|[Hall|[H1 H2]]]; [done| |].
        + destruct (Hall c Hc) as [j Hj]. apply (elem_of_adj (graph_of i)) in Hj. intros He. rewrite He in Hj. set_solver.
        + exfalso. destruct (wlt w1 (in_thr i)) eqn:H3; simpl in Hneg; [congruence|].
          rewrite H1 in Hneg. destruct H2; congruence. }
    intros lines [[] Hcl]. split.
    + split_and!; [done..| |]; [done|]. intros x Hx. by apply Hcm, Hcl.
    + intros l Hl. apply Hls, Hlim. split; [auto|].
      assert (NoDup l) as Hnd.
      { apply elem_of_list_split in Hl as (l1 & l2 & ->). rewrite concat_app in gl_nd.
        apply NoDup_app in gl_nd as (_ & _ & gl_nd). simpl in gl_nd.
        by apply NoDup_app in gl_nd as (? & _ & _). }
      rewrite <- (seq_length (in_n i) 0). apply submseteq_length, NoDup_submseteq; [done|].
      intros x Hx. apply elem_of_seq. split; [lia|]. simpl. apply gl_lt, elem_of_concat. eauto.
  - destruct (Hg eq_refl) as [HU Hlim]. eapply wp_mono.
    { by apply (input_lines_ok (graph_of i) (in_prio i)). }
    intros lines (H1 & H2 & H3).
    assert (∀ l, l ∈ lines → ∃ k, line_at (o_idx o) (o_lines o) k l) as Hla.
    { intros l Hl. destruct (H3 l Hl) as (_ & k & a & b & ? & ? & ->). exists k, a, b. done. }
    split.
    + split_and!; [|done..]. intros l Hl. by apply H3.
    + intros l Hl. destruct (Hla l Hl) as [k Hk]. apply Hls. eapply Hlim; [done|]. by apply H3.
Qed.

(** The state after the anisotropic phase. *)
Record phase1_ok i o (ct : container) (p : pool) (lo : option (list (list nat))) : Prop := {
  p1_inv : cont_inv (in_n i) ct;
  p1_th : ct_thresh ct = sing_thresh i;
  p1_pool : pool_inv (fixed_bnd i) (ct_aggl ct) p;
  p1_top : sp_top p ≠ None;
  p1_bp : sp_bp p = bprio i;
  p1_off : lo = None → ¬ aniso_on i o ∧ ct_n ct = 0;
  p1_on : ∀ outs, lo = Some outs → aniso_on i o ∧ ∃ lines,
    lines_of (in_build i) (aniso_params_of i) (graph_of i) (in_prio i) (in_thr i)
      (o_idx o) (o_lines o) = Ok lines ∧ run_lines i o lines ∧
    (∀ l, l ∈ lines → line_safe (max_line i) (length l)) ∧
    aniso_inv (graph_of i) (in_prio i) (aniso_params_of i) ct lines outs;
}.

Lemma phase1_wp i o : good_call i o →
  wp (phase1 i o) (λ '(ct, p, lo), phase1_ok i o ct p lo).
Proof.
  intros HG. pose proof HG as [WM HA Hone _ _].
  pose proof (mesh_wfg i WM) as WF. pose proof (mesh_wfd i WM (ac_dim _ HA)) as WD.
  unfold phase1. wstep. eapply wp_mono; [by apply sanity_ok|]. intros b Hb.
  rewrite (pool_of_ok i HA), bind_ok. cbn zeta.
  assert (onept i = true → ∀ w, w ∈ in_prio i → wlt w wminv = false) as Hpos.
  { unfold onept. rewrite bool_decide_eq_true. intros Ho. by apply Hone. }
  destruct b.
  - assert (aniso_on i o) as Hon by by apply Hb.
    pose proof (lines_of_ok i o HG Hon) as Hlo. apply wp_eq in Hlo as (lines & Hlo & Hl & Hs).
    rewrite Hlo, bind_ok.
    wstep. eapply wp_mono.
    { apply (aniso_agglomerate_ok (graph_of i) (in_prio i) WF WD (aniso_params_of i) lines
        (sing_thresh i) (bprio i) (onept i)); [apply WM|done|..|apply Hl].
      - intros l Hin. split; [by apply Hl|]. by apply Hs.
      - apply Hl. }
    intros [[ct p] outs] (H1 & H2 & H3 & H4 & H5 & H6). simpl. split; try done.
    + apply H1.
    + intros outs' [= <-]. split; [done|]. exists lines. done.
  - wstep. eapply wp_mono.
    { apply (pool_initialize_ok (in_prio i) (fixed_bnd i)) with (aggl := replicate (in_n i) false).
      - change (fixed_bnd i) with (g_bnd (graph_of i)). by rewrite (wd_bnd _ _ WD), (wd_prio _ _ WD).
      - apply WD.
      - apply WD.
      - by apply (pool_new_inv _ (replicate (in_n i) false)).
      - change (fixed_bnd i) with (g_bnd (graph_of i)). rewrite (wd_bnd _ _ WD). apply WM.
      - done.
      - done.
      - apply (pool_new_inv (fixed_bnd i) (replicate (in_n i) false) (bprio i) (onept i)).
      - apply (pool_new_inv (fixed_bnd i) (replicate (in_n i) false) (bprio i) (onept i)). }
    intros p (H1 & H2 & H3 & H4). simpl. split; try done.
    + apply cont_new_inv.
    + intros _. split; [|done]. rewrite <- Hb. done.
Qed.

(** The state before the correction. *)
Record iso_done i (ctA ct : container) : Prop := {
  id_inv : cont_inv (in_n i) ct;
  id_full : ∀ x, x < in_n i → ∃ k, k < ct_n ct ∧ ct_fc2cc ct !! x = Some (Some k);
  id_n : ct_n ct ≤ in_n i;
  id_ext : ct_ext ctA ct;
  id_iso : ∃ ip, ip_max ip = in_max i ∧ ip_min ip = in_min i ∧
    ∀ k cc, ct_n ctA ≤ k → ct_ccs ct !! k = Some cc → iso_ok (graph_of i) ip (bprio i) ct k cc;
}.

Definition corrected i (ct ct' : container) : Prop :=
  if in_corr i then
    ∃ R ct1 rho nc, corr_loop (graph_of i) ct (ct_sing ct) R ct1 ∧
      renumbered (graph_of i) ct R ct1 ct' rho nc
  else ct' = ct.

Lemma aniso_cell_iso i o ctA p lo k cc : phase1_ok i o ctA p lo → ct_ccs ctA !! k = Some cc → cc_iso cc = false.
Proof.
  intros H1 Hc. destruct lo as [outs|].
  - destruct (p1_on _ _ _ _ _ H1 outs eq_refl) as (_ & lines & _ & _ & _ & HI).
    by destruct (ai_cell _ _ _ _ _ _ HI k cc Hc) as (q & l & -> & _).
  - destruct (p1_off _ _ _ _ _ H1 eq_refl) as [_ Hn].
    assert (k < ct_n ctA); [|lia]. apply (ci_dom _ _ (p1_inv _ _ _ _ _ H1)). eauto.
Qed.

Lemma sing_front i o ctA p lo ct : good_call i o → phase1_ok i o ctA p lo → iso_done i ctA ct →
  ct_n ctA ≤ ct_n ct ∧
  (∀ k, k ∈ ct_sing ct → ct_n ctA ≤ k) ∧
  (∀ k cc x y, k ∈ ct_sing ct → ct_ccs ct !! k = Some cc → x ∈ cc_fcs cc →
    y ∈ adj (graph_of i) x → y ∉ cc_fcs cc → ∃ k', k' < k ∧ ct_fc2cc ct !! y = Some (Some k')) ∧
  (∀ k cc, k ∈ ct_sing ct → ct_ccs ct !! k = Some cc → connected (in_edge i) (λ z, z ∈ cc_fcs cc)).
Proof.
  intros HG H1 [HI Hfull Hn Hext (ip & Hmx & Hmn & Hiso)].
  assert (∀ k, k ∈ ct_sing ct → ct_n ctA ≤ k) as Hge.
  { intros k Hk. apply (ci_sing _ _ HI) in Hk as (cc & Hc & Hi & _).
    apply Nat.nlt_ge. intros Hlt. rewrite (ex_ccs _ _ Hext) in Hc by done.
    eapply aniso_cell_iso in Hc; [|done]. congruence. }
  split_and!; [apply Hext|done|..].
  - intros k cc x y Hk Hc Hx Hy Hyc. destruct (Hiso k cc (Hge k Hk) Hc) as [_ _ _ Hmin _ _].
    apply (Hmin ltac:(apply (ci_sing _ _ HI) in Hk as (cc' & Hc' & _ & Hth);
      assert (cc' = cc) as -> by congruence; rewrite <- (proj1 (ci_card _ _ HI k cc Hc)), Hmn;
      rewrite (ex_th _ _ Hext), (p1_th _ _ _ _ _ H1) in Hth;
      pose proof (sing_thresh_lt i (gc_acc _ _ HG)); lia) x y Hx Hy Hyc).
  - intros k cc Hk Hc. by destruct (Hiso k cc (Hge k Hk) Hc).
Qed.

Lemma phase2_wp i o ctA p lo : good_call i o → phase1_ok i o ctA p lo →
  wp (phase2 i ctA p) (λ ct', ∃ ct, iso_done i ctA ct ∧ corrected i ct ct').
Proof.
  intros HG H1. pose proof HG as [WM HA _ _ _].
  pose proof (mesh_wfg i WM) as WF. pose proof (mesh_wfd i WM (ac_dim _ HA)) as WD.
  unfold phase2. destruct (iso_params_ok i HA) as (ip & Hip & Hd & Hmn & Hgl & Hmx).
  rewrite Hip, bind_ok. unfold iso_agglomerate. wstep. eapply wp_mono.
  { apply (iso_loop_ok (graph_of i) (in_prio i) WF WD ip).
    - rewrite Hmn. apply HA.
    - rewrite Hmn, Hgl. apply HA.
    - rewrite Hmx, Hgl. apply HA.
    - rewrite Hd. destruct (ac_dim _ HA); lia.
    - apply H1.
    - apply H1.
    - apply H1.
    - change (g_n (graph_of i)) with (in_n i). lia. }
  intros [ct p'] (HI & Hn & Hext & Hiso). simpl in *. fold (in_n i) in *.
  rewrite (create_all_delayed_ok _ _ HI), bind_ok.
  assert (iso_done i ctA ct) as HD.
  { split; [done| |rewrite <- Hn; apply HI|done|].
    - intros x Hx. apply (cont_full _ _ HI); [|done]. lia.
    - exists ip. split_and!; [done..|]. by rewrite (p1_bp _ _ _ _ _ H1) in Hiso. }
  destruct (sing_front _ _ _ _ _ _ HG H1 HD) as (Hle & Hge & Hfr & Hcn).
  unfold corrected. destruct (in_corr i).
  - eapply wp_mono.
    { apply (correct_ok (graph_of i) WF ct); try done.
      intros x Hx. destruct (id_full _ _ _ HD x Hx) as (k & _ & Hk). eauto. }
    intros ct' Hct'. by exists ct.
  - simpl. by exists ct.
Qed.

(** The cells of every final coarse cell and the numbering. *)
Record final i (ctA ct ct' : container) (f : list nat) : Prop := {
  fi_len : length f = in_n i;
  fi_f : ∀ x k, f !! x = Some k ↔ ct_fc2cc ct' !! x = Some (Some k);
  fi_lt : ∀ x k, f !! x = Some k → k < ct_n ct;
  fi_aniso : ∀ x k, k < ct_n ctA → f !! x = Some k ↔ ct_fc2cc ct !! x = Some (Some k);
}.

Lemma main_run i o : good_call i o → ∃ ctA p lo ct ct' f,
  phase1_ok i o ctA p lo ∧ iso_done i ctA ct ∧ corrected i ct ct' ∧ final i ctA ct ct' f ∧
  phase1 i o = Ok (ctA, p, lo) ∧ phase2 i ctA p = Ok ct' ∧
  agglomerate_one_level i o =
    (match lo with
     | None => Outs f (o_idx o) (o_lines o)
     | Some l => Outs f (export_lines l).1 (export_lines l).2
     end, Ok ()).
Proof.
  intros HG. pose proof (phase1_wp i o HG) as HP1. apply wp_eq in HP1 as ([[ctA p] lo] & Hp1 & H1).
  pose proof (phase2_wp i o ctA p lo HG H1) as HP2. apply wp_eq in HP2 as (ct' & Hp2 & ct & HD & HC).
  destruct (sing_front _ _ _ _ _ _ HG H1 HD) as (Hle & Hge & Hfr & Hcn).
  pose proof (mesh_wfg i (gc_mesh _ _ HG)) as WF.
  assert (length (ct_fc2cc ct') = in_n i ∧
    (∀ x, x < in_n i → ∃ k, ct_fc2cc ct' !! x = Some (Some k)) ∧
    (∀ x k, ct_fc2cc ct' !! x = Some (Some k) → k < ct_n ct) ∧
    (∀ x k, k < ct_n ctA → ct_fc2cc ct' !! x = Some (Some k) ↔ ct_fc2cc ct !! x = Some (Some k))) as (Hlen & Htot & Hlt & Han).
  { unfold corrected in HC. pose proof (id_inv _ _ _ HD) as HI.
    assert (∀ x k, ct_fc2cc ct !! x = Some (Some k) → k < ct_n ct) as Hf0.
    { intros x k Hx. apply (ci_cell _ _ HI) in Hx as (cc & Hc & _). apply (ci_dom _ _ HI). eauto. }
    destruct (in_corr i).
    - destruct HC as (R & ct1 & rho & nc & [HCv HR _ _] & HRn).
      assert (∀ r, r ∈ R → ct_n ctA ≤ r ∧ r < ct_n ct) as HRr.
      { intros r Hr. apply (cv_R _ _ _ _ HCv) in Hr. split; [auto|].
        apply (ci_sing _ _ HI) in Hr as (cc & Hc & _). apply (ci_dom _ _ HI). eauto. }
      assert (nc ≤ ct_n ct) as Hnc.
      { apply Nat.nlt_ge. intros Hlt.
        assert (∀ k, k < ct_n ct → k ∉ R → ∀ j, rho k = j → j ≤ k) as Hrk.
        { induction k as [k IH] using lt_wf_ind. intros Hk HkR j Hj. subst j.
          apply Nat.nlt_ge. intros Hlt'.
          pose proof (rn_lt _ _ _ _ _ _ _ HRn k Hk HkR) as Hkn.
          assert (k < nc) as Hk1 by lia.
          destruct (rn_surj _ _ _ _ _ _ _ HRn k Hk1) as (k' & Hk' & HkR' & Hrho).
          destruct (decide (k' < k)) as [Hkk|Hkk].
          - specialize (IH k' Hkk Hk' HkR' k Hrho). lia.
          - destruct (decide (k' = k)) as [->|Hne]; [lia|].
            pose proof (rn_mono _ _ _ _ _ _ _ HRn k k' ltac:(lia) Hk Hk' HkR HkR'). lia. }
        destruct (rn_surj _ _ _ _ _ _ _ HRn (ct_n ct) Hlt) as (k & Hk & HkR & Hrho).
        specialize (Hrk k Hk HkR _ Hrho). lia. }
      assert (∀ x, x < in_n i → ∃ k, ct_fc2cc ct1 !! x = Some (Some k) ∧ k < ct_n ct ∧
        (k ∈ R → ct_fc2cc ct !! x = Some (Some k))) as Htot1.
      { intros x Hx. destruct (id_full _ _ _ HD x Hx) as (k & Hk & Hfx).
        destruct (decide (k ∈ R)) as [HkR|HkR].
        - destruct (cv_mv _ _ _ _ HCv x k HkR Hfx) as [Hm|(k' & Hk' & Hk'n & Hm)]; [eauto|].
          exists k'. split_and!; [done..|]. intros HkR'. by apply (cv_R _ _ _ _ HCv) in HkR'.
        - exists k. split_and!; [by apply (cv_same _ _ _ _ HCv)|done..]. }
      assert (∀ x k, ct_fc2cc ct' !! x = Some (Some k) → x < in_n i) as Hxn.
      { intros x k Hx. apply lookup_lt_Some in Hx. by rewrite (rn_len _ _ _ _ _ _ _ HRn) in Hx. }
      split_and!.
      + apply HRn.
      + intros x Hx. destruct (Htot1 x Hx) as (k & Hk & Hkn & _). destruct (decide (k ∈ R)) as [HkR|HkR].
        * exists k. by apply (rn_orphan _ _ _ _ _ _ _ HRn).
        * exists (rho k). by apply (rn_fc _ _ _ _ _ _ _ HRn).
      + intros x k Hx. destruct (Htot1 x (Hxn _ _ Hx)) as (k' & Hk' & Hkn & _). destruct (decide (k' ∈ R)) as [HkR|HkR].
        * rewrite (rn_orphan _ _ _ _ _ _ _ HRn _ _ HkR Hk') in Hx. by simplify_eq.
        * rewrite (rn_fc _ _ _ _ _ _ _ HRn _ _ Hkn HkR Hk') in Hx. simplify_eq.
          pose proof (rn_lt _ _ _ _ _ _ _ HRn k' Hkn HkR). lia.
      + intros x k Hk. assert (rho k = k) as Hrk.
        { apply (rn_low _ _ _ _ _ _ _ HRn). intros r Hr. apply HRr in Hr as [? _]. lia. }
        assert (k ∉ R) as HkR by (intros Hr; apply HRr in Hr as [? _]; lia).
        assert (k ∉ ct_sing ct) as Hks by (intros Hs; apply Hge in Hs; lia).
        assert (k < ct_n ct) as Hkn by lia.
        destruct (proj2 (ci_dom _ _ HI k) Hkn) as [cc0 Hc0].
        assert (cc_iso cc0 = false) as Hni.
        { eapply aniso_cell_iso; [done|]. by rewrite <- (ex_ccs _ _ (id_ext _ _ _ HD)). }
        destruct (cv_keep _ _ _ _ HCv k cc0 Hks Hc0) as (cc & Hc & Hg).
        assert (cc = cc0) as -> by by apply Hg.
        assert (∀ x, ct_fc2cc ct1 !! x = Some (Some k) ↔ ct_fc2cc ct !! x = Some (Some k)) as Hsame.
        { intros z. rewrite <- (cv_mem _ _ _ _ HCv k cc0 HkR Hc), (ci_cell _ _ HI). naive_solver. }
        rewrite <- Hsame. split.
        * intros Hx. destruct (Htot1 x (Hxn _ _ Hx)) as (k' & Hk' & Hk'n & _). destruct (decide (k' ∈ R)) as [Hk'R|Hk'R].
          -- rewrite (rn_orphan _ _ _ _ _ _ _ HRn _ _ Hk'R Hk') in Hx. by simplify_eq.
          -- rewrite (rn_fc _ _ _ _ _ _ _ HRn _ _ Hk'n Hk'R Hk') in Hx. simplify_eq.
             destruct (decide (k' = rho k')) as [He|Hne]; [congruence|].
             destruct (decide (k' < rho k')) as [Hl'|Hl'].
             ++ pose proof (rn_mono _ _ _ _ _ _ _ HRn k' (rho k') Hl' Hk'n Hkn Hk'R HkR). lia.
             ++ pose proof (rn_mono _ _ _ _ _ _ _ HRn (rho k') k' ltac:(lia) Hkn Hk'n HkR Hk'R). lia.
        * intros Hx. rewrite <- Hrk. by apply (rn_fc _ _ _ _ _ _ _ HRn).
    - subst ct'. split_and!; [apply HI| |done|done].
      intros x Hx. destruct (id_full _ _ _ HD x Hx) as (k & _ & Hk). eauto. }
  destruct (fill_ok (ct_fc2cc ct')) as (f & Hf & Hfl & Hfx); [by rewrite Hlen|].
  exists ctA, p, lo, ct, ct', f. split_and!; try done.
  - split; [congruence|done|..].
    + intros x k Hx. apply Hfx in Hx. eauto.
    + intros x k Hk. rewrite Hfx. auto.
  - unfold agglomerate_one_level. rewrite Hp1, Hp2, Hf. destruct lo as [l|]; [|done].
    by destruct (export_lines l).
Qed.

End main.
