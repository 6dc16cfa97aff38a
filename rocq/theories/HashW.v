(** * HashW: anisotropic tagging and the whole library call under two iteration
    orders (C26) *)

From Verif Require Import Lib PairsP GraphP MainP ApiP Spec Main SpecHash HashT HashU HashV.

(** Consecutive writes. *)
Fixpoint wr {X} (pos : nat) (vs : list X) (alt : list X) : list X :=
  match vs with [] => alt | v :: vs => wr (S pos) vs (<[pos := v]> alt) end.
Lemma wr_length {X} pos (vs alt : list X) : length (wr pos vs alt) = length alt.
Proof. revert pos alt. induction vs as [|v vs IH]; intros pos alt; [done|]. simpl. by rewrite IH, insert_length. Qed.
Lemma wr_insert {X} p (v : X) pos vs alt : p < pos → <[p := v]> (wr pos vs alt) = wr pos vs (<[p := v]> alt).
Proof.
  revert pos alt. induction vs as [|u vs IH]; intros pos alt Hp; [done|]. simpl.
  rewrite IH by lia. f_equal. apply list_insert_commute. lia.
Qed.
Lemma wr_swap {X} p (us : list X) q vs alt : p + length us ≤ q → wr p us (wr q vs alt) = wr q vs (wr p us alt).
Proof.
  revert p alt. induction us as [|u us IH]; intros p alt Hp; [done|]. simpl in *.
  rewrite wr_insert by lia. apply IH. lia.
Qed.

Section hash.
Context {A : Arith} (H1 H2 : HashOrder).

(** What [tag_cell] writes for a cell does not depend on the state. *)
Definition inv_step (g : graph) (ci : list W) : list W * W * nat → nat → res (list W * W * nat) := λ '(alt, m, pos) n,
  cn ← vget (g_cen g) n; d ← sqdist ci cn;
  alt ← vset alt pos (wdiv w1 d); Ok (alt, if wlt m (wdiv w1 d) then wdiv w1 d else m, S pos).
Lemma inv_loop (g : graph) ci l alt m pos r : foldM (inv_step g ci) l (alt, m, pos) = Ok r →
  ∃ vs, length vs = length l ∧ ∀ alt2, length alt2 = length alt →
    foldM (inv_step g ci) l (alt2, m, pos) = Ok (wr pos vs alt2, r.1.2, r.2).
Proof using.
  clear. revert alt m pos. induction l as [|n l IH]; intros alt m pos Hr; simpl in Hr.
  - injection Hr as <-. exists []. by split.
  - apply bind_Ok_inv in Hr as ([[a1 m1] p1] & Hs & Hr). unfold inv_step in Hs.
    apply bind_Ok_inv in Hs as (cn & Hcn & Hs). apply bind_Ok_inv in Hs as (d & Hd & Hs).
    apply bind_Ok_inv in Hs as (a & Ha & Hs). injection Hs as <- <- <-.
    destruct (IH _ _ _ Hr) as (vs & Hl & Hvs).
    unfold vset in Ha. destruct (decide (pos < length alt)) as [Hp|]; [|done]. injection Ha as <-.
    exists (wdiv w1 d :: vs). split; [simpl; by f_equal|]. intros alt2 Hl2. cbn [foldM].
    assert (inv_step g ci (alt2, m, pos) n = Ok (<[pos := wdiv w1 d]> alt2, if wlt m (wdiv w1 d) then wdiv w1 d else m, S pos)) as ->.
    { unfold inv_step. rewrite Hcn, bind_ok, Hd, bind_ok. unfold vset. by rewrite decide_True by lia. }
    rewrite bind_ok. cbn [wr]. apply Hvs. by rewrite !insert_length.
Qed.
Lemma inv_dists_h g i alt r : inv_dists g i alt = Ok r →
  ∃ off l vs, g_row g !! i = Some off ∧ nbrs g i = Ok l ∧ length vs = length l ∧
    ∀ alt2, length alt2 = length alt → inv_dists g i alt2 = Ok (wr off vs alt2, r.2).
Proof using.
  clear. unfold inv_dists. intros Hr. apply bind_Ok_inv in Hr as (off & Ho & Hr). apply bind_Ok_inv in Hr as (l & Hl & Hr).
  apply bind_Ok_inv in Hr as (ci & Hc & Hr). apply bind_Ok_inv in Hr as (x & Hx & Hr). injection Hr as <-.
  destruct (inv_loop g ci l alt w0 off x Hx) as (vs & Hlen & Hvs). exists off, l, vs.
  split_and!; [by apply vget_inv|done|done|]. intros alt2 Ha. rewrite Ho, bind_ok, Hl, bind_ok, Hc, bind_ok.
  pose proof (Hvs alt2 Ha) as Hv. unfold inv_step in Hv. by rewrite Hv.
Qed.

Lemma tag_cell_h ap g prio thr alt mw aw i r : wfg g → tag_cell ap g prio thr (alt, mw, aw) i = Ok r →
  ∃ off vs m ins p, (vs = [] ∨ g_row g !! i = Some off ∧ g_row g !! S i = Some (off + length vs)) ∧
    (ins = true → p ∈ prio) ∧ ∀ alt2 mw2 aw2, length alt2 = length alt →
      tag_cell ap g prio thr (alt2, mw2, aw2) i
      = (mw3 ← vset mw2 i m; Ok (wr off vs alt2, mw3, if ins : bool then pset_insert (i, p) aw2 else aw2)).
Proof using.
  clear. intros WF Hr. unfold tag_cell in Hr. apply bind_Ok_inv in Hr as (aw1 & Haw & Hr).
  assert (∃ ins p, (ins = true → p ∈ prio) ∧ ∀ aw2, (if wlt thr w0 then p ← vget prio i; Ok (pset_insert (i, p) aw2)
        else mm ← minmax_weight g i;
             if wle thr (compute_AR g mm.1 mm.2) then p ← vget prio i; Ok (pset_insert (i, p) aw2) else Ok aw2)
      = Ok (if ins : bool then pset_insert (i, p) aw2 else aw2)) as (ins & p & Pin & Hins).
  { destruct (wlt thr w0).
    - apply bind_Ok_inv in Haw as (p & Hp & Haw). exists true, p. split; [by intros _; eapply elem_of_list_lookup_2, vget_inv|]. intros aw2. by rewrite Hp.
    - apply bind_Ok_inv in Haw as (mm & Hm & Haw). destruct (wle thr (compute_AR g mm.1 mm.2)) eqn:Ew.
      + apply bind_Ok_inv in Haw as (p & Hp & Haw). exists true, p. split; [by intros _; eapply elem_of_list_lookup_2, vget_inv|]. intros aw2. by rewrite Hm, bind_ok, Ew, Hp.
      + exists false, w0. split; [done|]. intros aw2. by rewrite Hm, bind_ok, Ew. }
  destruct (ap_mindist ap) eqn:Eap.
  - apply bind_Ok_inv in Hr as (x & Hx & Hr). destruct (inv_dists_h _ _ _ _ Hx) as (off & l & vs & Hrow & Hn & Hl & Hv).
    exists off, vs, x.2, ins, p. split_and!; [|done|].
    + right. split; [done|]. unfold nbrs in Hn. rewrite (vget_ok _ _ _ Hrow), bind_ok in Hn.
      apply bind_Ok_inv in Hn as (b & Hb & Hn). apply vget_inv in Hb. rewrite Hb. f_equal.
      apply vrange_inv in Hn as (? & ? & ->). rewrite Hl. unfold slice.
      rewrite take_length, drop_length. lia.
    + intros alt2 mw2 aw2 Hal. unfold tag_cell. rewrite Hins, bind_ok, Eap, (Hv _ Hal), bind_ok. done.
  - apply bind_Ok_inv in Hr as (m & Hm & Hr). exists 0, [], m, ins, p. split_and!; [by left|done|].
    intros alt2 mw2 aw2 Hal. unfold tag_cell. rewrite Hins, bind_ok, Eap, Hm, bind_ok. done.
Qed.
Lemma tag_cell_P ap g prio thr st i r :
  Forall (λ p, p.2 ∈ prio) st.2 → tag_cell ap g prio thr st i = Ok r → Forall (λ p, p.2 ∈ prio) r.2.
Proof using.
  clear. destruct st as [[alt mw] aw]. simpl. intros Haw Hr. unfold tag_cell in Hr.
  apply bind_Ok_inv in Hr as (aw1 & Ha & Hr).
  assert (∀ p, vget prio i = Ok p → Forall (λ p, p.2 ∈ prio) (pset_insert (i, p) aw)) as Hins.
  { intros p Hp. apply (pset_P (λ w, w ∈ prio)); [|done]. apply vget_inv in Hp. by eapply elem_of_list_lookup_2. }
  assert (Forall (λ p, p.2 ∈ prio) aw1) as Haw1.
  { destruct (wlt thr w0); [apply bind_Ok_inv in Ha as (p & Hp & [= <-]); by apply Hins|].
    apply bind_Ok_inv in Ha as (mm & _ & Ha). destruct (wle thr _); [|by injection Ha as <-].
    apply bind_Ok_inv in Ha as (p & Hp & [= <-]); by apply Hins. }
  destruct (ap_mindist ap).
  - apply bind_Ok_inv in Hr as (x & _ & Hr). by apply bind_Ok_inv in Hr as (mw' & _ & [= <-]).
  - apply bind_Ok_inv in Hr as (x & _ & Hr). by apply bind_Ok_inv in Hr as (mw' & _ & [= <-]).
Qed.
Lemma tag_swap ap g prio thr st x y b1 b2 : wfg g → weak_order wlt (λ w, w ∈ prio) → Forall (λ p, p.2 ∈ prio) st.2 → x ≠ y →
  tag_cell ap g prio thr st x = Ok b1 → tag_cell ap g prio thr b1 y = Ok b2 →
  ∃ b', tag_cell ap g prio thr st y = Ok b' ∧ tag_cell ap g prio thr b' x = Ok b2.
Proof using.
  clear. destruct st as [[alt mw] aw]. cbn [snd]. intros WF WO Haw Hxy E1 E2.
  destruct (tag_cell_h _ _ _ _ _ _ _ _ _ WF E1) as (o1 & v1 & m1 & i1 & p1 & R1 & P1 & F1).
  rewrite F1 in E1 by done. apply bind_Ok_inv in E1 as (mw1 & S1 & [= <-]).
  destruct (tag_cell_h _ _ _ _ _ _ _ _ _ WF E2) as (o2 & v2 & m2 & i2 & p2 & R2 & P2 & F2).
  rewrite F2 in E2 by done. apply bind_Ok_inv in E2 as (mw2 & S2 & [= <-]). rewrite wr_length in F2.
  destruct (vset_swap _ _ _ _ _ _ _ Hxy S1 S2) as (mw3 & S3 & S4).
  eexists. rewrite F2 by done. rewrite S3, bind_ok. split; [done|]. rewrite F1 by apply wr_length.
  rewrite S4, bind_ok. f_equal. f_equal; [f_equal|].
  - destruct R1 as [-> |[Ra Rb]]; [done|]. destruct R2 as [-> |[Rc Rd]]; [done|].
    destruct (decide (x < y)).
    + apply wr_swap. by apply (row_mono_le g WF (S x) y).
    + symmetry. apply wr_swap. eapply (row_mono_le g WF (S y) x); [lia|done..].
  - destruct i1, i2; try done. apply (pset_swap _ WO); simpl; [by apply P1|by apply P2|done|done].
Qed.
Lemma tag_anisotropic_h ap g prio thr : wfg g → weak_order wlt (λ w, w ∈ prio) →
  le_ok (@tag_anisotropic_cells A H1 ap g prio thr) (@tag_anisotropic_cells A H2 ap g prio thr).
Proof using.
  intros WF WO. unfold tag_anisotropic_cells. apply le_bind; [|intros; apply le_refl].
  intros r. apply (foldM_perm_in (λ st : tag_state, Forall (λ p, p.2 ∈ prio) st.2)); [| |constructor|apply hset_nd|apply hset_12].
  - intros st x b1 _ Hst. by apply tag_cell_P.
  - intros st x y b1 b2 Hst _ _. by apply tag_swap.
Qed.
Lemma lines_of_h b ap g prio thr idx cells : wfg g → weak_order wlt (λ w, w ∈ prio) →
  le_ok (@lines_of A H1 b ap g prio thr idx cells) (@lines_of A H2 b ap g prio thr idx cells).
Proof using.
  intros WF WO. unfold lines_of. destruct b; [|apply le_refl]. unfold build_anisotropic_lines.
  apply le_bind; [by apply tag_anisotropic_h|]. intros; apply le_refl.
Qed.

Lemma phase1_h i o : wf_mesh i → le_ok (@phase1 A H1 i o) (@phase1 A H2 i o).
Proof using.
  intros WM. unfold phase1. do 2 (apply le_bind; [apply le_refl|]; intros ? _). cbv zeta.
  destruct x; [|apply le_refl].
  apply le_bind; [by apply lines_of_h; [apply mesh_wfg|apply WM]|]. intros lines _.
  apply le_bind; [apply aniso_agglomerate_h|]. intros; apply le_refl.
Qed.
Lemma phase1_small (H : HashOrder) i o : (sing_thresh i <= 1)%Z → okp (phase1 i o) (λ r, small_corr r.1.1).
Proof using.
  clear. intros HT.
  assert (small_corr (cont_new (g_n (graph_of i)) (sing_thresh i))) as HS by by split.
  unfold phase1. apply okp_bind, okp_True. intros b. apply okp_bind, okp_True. intros p. cbv zeta. destruct b.
  - apply okp_bind, okp_True. intros lines. apply okp_bind.
    eapply okp_mono; [by apply aniso_agglomerate_small|]. by intros [[c p'] out].
  - apply okp_bind, okp_True. done.
Qed.
End hash.

Lemma total_dist_order {A : Arith} : total_order A → dist_order A.
Proof.
  intros [WO TO]. split.
  - intros x. by apply (wo_irr _ _ WO).
  - intros x y z. by apply (wo_tr _ _ WO).
  - intros a b m _ _ _. apply TO.
Qed.

Lemma phase2_h {A : Arith} (H1 H2 : HashOrder) i ct p : wf_mesh i → (dist_ratio i → dist_order A) →
  (in_corr i = true → small_corr ct) → le_ok (@phase2 A H1 i ct p) (@phase2 A H2 i ct p).
Proof.
  intros WM HT HS. unfold phase2. apply le_bind; [apply le_refl|]. intros ip Hip.
  apply iso_agglomerate_h; [apply WM| |done]. intros Hd. apply HT. unfold iso_params_of in Hip.
  destruct (ar_of_Z _ _) as [k|] eqn:Ek; [|done]. injection Hip as <-. simpl in Hd.
  unfold dist_ratio. revert Ek. unfold ar_of_Z.
  destruct (in_ar i) as [|z|z]; [set_solver| |done].
  do 4 (destruct z as [z|z|]; try (intros [= <-]; first [done|set_solver]); try done).
Qed.
Lemma C26_lem {A : Arith} (H1 H2 : HashOrder) i o : good_call i o → (dist_ratio i → dist_order A) →
  in_corr i = false ∨ thresh_one i →
  @agglomerate_one_level A H1 i o = @agglomerate_one_level A H2 i o.
Proof.
  intros HG HT HC. destruct (@main_run A H1 i o HG) as (ctA & p & lo & ct & ct' & f & _ & _ & _ & _ & Hp1 & Hp2 & _).
  unfold agglomerate_one_level. rewrite Hp1. rewrite (phase1_h H1 H2 i o (gc_mesh _ _ HG) _ Hp1).
  rewrite Hp2. rewrite (phase2_h H1 H2 i ctA p (gc_mesh _ _ HG) HT) with (x := ct'); [done| |done].
  intros Hc. destruct HC as [HC|HC]; [congruence|].
  apply (sing_thresh_one i (gc_acc _ _ HG)) in HC.
  pose proof (phase1_small H1 i o) as Hs. rewrite Hp1 in Hs. apply Hs. lia.
Qed.
