(** * AloneT: the coarse cells of lines do not depend on the isotropic arguments (C84) *)

From Verif Require Import Features Iso Main Spec SpecLine SpecAlone GraphP ApiP ApiT MainP AnisoP UseT GeoT.

Lemma same_shape (xs ys : list (list nat)) : Forall2 (λ a b : list nat, length a = length b) xs ys → concat xs = concat ys → xs = ys.
Proof.
  induction 1 as [|a b xs ys Hl HF IH]; cbn [concat]; [done|]. intros [-> E]%app_inj_1; [|done]. by rewrite IH.
Qed.
Lemma same_total (xs ys : list (list nat)) : Forall2 (λ a b : list nat, length a = length b) xs ys → length (concat xs) = length (concat ys).
Proof. induction 1 as [|a b xs ys Hl HF IH]; cbn [concat]; [done|]. by rewrite !app_length, Hl, IH. Qed.

(** The volumes are not used for the lines. *)
Section vol.
Context {A : Arith} (g : graph) (vol' : list W).
Definition revol : graph := Graph _ (g_n g) (g_row g) (g_col g) (g_val g) vol' (g_cen g) (g_bnd g) (g_compl g) (g_2d g).
Lemma line_loop_vol ap ws mw primal fuel : ∀ s, line_loop fuel ap revol ws mw primal s = line_loop fuel ap g ws mw primal s.
Proof.
  induction fuel as [|fuel IH]; intros s; simpl; [done|].
  change (line_step ap revol ws mw primal s) with (line_step ap g ws mw primal s).
  destruct (line_step ap g ws mw primal s) as [[s'|]|]; simpl; [apply IH|done|done].
Qed.
Lemma lines_of_vol {H : HashOrder} b ap prio thr idx cells : lines_of b ap revol prio thr idx cells = lines_of b ap g prio thr idx cells.
Proof.
  unfold lines_of. destruct b; [|done]. unfold build_anisotropic_lines.
  change (tag_anisotropic_cells ap revol prio) with (tag_anisotropic_cells ap g prio).
  match goal with |- (t ← ?e; _) = _ => destruct e as [[[[alt mw] tr] seeds]|] end; simpl; [|done].
  destruct seeds as [|s seeds]; [done|]. destruct (vget (g_cen g) 0) as [c|]; cbn [mbind res_bind]; [|done].
  rewrite (foldM_ext_eq (build_line ap revol (if ap_mindist ap then alt else g_val g) mw (length c))
    (build_line ap g (if ap_mindist ap then alt else g_val g) mw (length c))); [done|].
  intros [tr' lines] i. unfold build_line. destruct (vget tr' i) as [b|]; simpl; [|done]. destruct b; [|done].
  destruct (vset tr' i false) as [tr2|]; cbn [mbind res_bind]; [|done]. by rewrite line_loop_vol.
Qed.
End vol.

(** Two calls with the same lines, which are cut in the same way. *)
Lemma C84_core {A : Arith} (H H' : HashOrder) i i' o r e r' e' :
  good_call i o → good_call i' o → aniso_on i o → aniso_on i' o →
  (∀ lines lines1, @lines_of A H (in_build i) (aniso_params_of i) (graph_of i) (in_prio i) (in_thr i) (o_idx o) (o_lines o) = Ok lines →
    @lines_of A H' (in_build i') (aniso_params_of i') (graph_of i') (in_prio i') (in_thr i') (o_idx o) (o_lines o) = Ok lines1 → lines1 = lines) →
  in_odd i' = in_odd i → max_line i' = max_line i → (∀ x y, comes_first i' x y ↔ comes_first i x y) →
  @agglomerate_one_level A H i o = (r, e) → @agglomerate_one_level A H' i' o = (r', e') →
  o_idx r' = o_idx r ∧ o_lines r' = o_lines r ∧
  ∀ x c, c ∈ o_lines r → o_fc2cc r' !! x = Some c ↔ o_fc2cc r !! x = Some c.
Proof.
  intros HG HG' Ha Ha' HL Hodd Hmax Hcf E E'.
  assert (∀ x y (P Q : Prop), comes_first i' x y ∧ P ∨ ¬ comes_first i' x y ∧ Q → comes_first i x y ∧ P ∨ ¬ comes_first i x y ∧ Q) as HO.
  { intros x y P Q. by rewrite Hcf. }
  destruct (@ran_inv A H i o r e HG E) as (ctA & p & lo & ct & ct' & R). destruct (@ran_inv A H' i' o r' e' HG' E') as (ctA1 & p1 & lo1 & ct1 & ct1' & R').
  destruct lo as [outs|]; [|by destruct (p1_off _ _ _ _ _ (ra_p1 _ _ _ _ _ _ _ _ R) eq_refl)].
  destruct lo1 as [outs1|]; [|by destruct (p1_off _ _ _ _ _ (ra_p1 _ _ _ _ _ _ _ _ R') eq_refl)].
  destruct (p1_on _ _ _ _ _ (ra_p1 _ _ _ _ _ _ _ _ R) outs eq_refl) as (_ & lines & Hl & _ & _ & HI).
  destruct (p1_on _ _ _ _ _ (ra_p1 _ _ _ _ _ _ _ _ R') outs1 eq_refl) as (_ & lines1 & Hl1 & _ & _ & HI1).
  pose proof (HL _ _ Hl Hl1) as ->.
  pose proof (aniso_result _ _ _ _ _ _ _ _ _ (ra_p1 _ _ _ _ _ _ _ _ R) (ra_iso _ _ _ _ _ _ _ _ R) (ra_fin _ _ _ _ _ _ _ _ R) HI) as F.
  pose proof (aniso_result _ _ _ _ _ _ _ _ _ (ra_p1 _ _ _ _ _ _ _ _ R') (ra_iso _ _ _ _ _ _ _ _ R') (ra_fin _ _ _ _ _ _ _ _ R') HI1) as F1.
  pose proof (ra_idx _ _ _ _ _ _ _ _ R) as I1. pose proof (ra_idx _ _ _ _ _ _ _ _ R') as I2.
  pose proof (ra_lines _ _ _ _ _ _ _ _ R) as L1. pose proof (ra_lines _ _ _ _ _ _ _ _ R') as L2.
  assert (∀ k l ids ids1, lines !! k = Some l → line_cut i (o_fc2cc r) l ids → line_cut i' (o_fc2cc r') l ids1 →
    ∃ ps : list (list nat), Forall2 (λ p id, ∀ x, o_fc2cc r !! x = Some id ↔ x ∈ p) ps ids ∧ Forall2 (λ p id, ∀ x, o_fc2cc r' !! x = Some id ↔ x ∈ p) ps ids1) as HP.
  { intros k l ids ids1 _ (w & Ho & Hp) (w1 & Ho1 & Hp1).
    assert (w1 = w) as ->; [|eexists; split; [exact Hp|by rewrite <- Hodd, <- Hmax]]. destruct Ho as (a & b & Hx & Hy & Hc), Ho1 as (a1 & b1 & Hx1 & Hy1 & Hc1).
    rewrite Hx in Hx1. rewrite Hy in Hy1. simplify_eq. apply HO in Hc1.
    destruct Hc as [[? ->]|[Hn ->]], Hc1 as [[? ->]|[Hn1 ->]]; [done|by destruct Hn1|by destruct Hn|done]. }
  assert (Forall2 (λ a b : list nat, length a = length b) outs outs1) as HS.
  { apply Forall2_same_length_lookup_2.
    - by rewrite <- (Forall2_length _ _ _ F), <- (Forall2_length _ _ _ F1).
    - intros k ids ids1 Hk Hk1. destruct (Forall2_lookup_r _ _ _ _ _ F Hk) as (l & Hlk & Hc).
      destruct (Forall2_lookup_r _ _ _ _ _ F1 Hk1) as (l1 & Hlk1 & Hc1). simplify_eq.
      destruct (HP _ _ _ _ Hlk Hc Hc1) as (ps & P1 & P2). by rewrite <- (Forall2_length _ _ _ P1), <- (Forall2_length _ _ _ P2). }
  assert (outs = outs1) as <-.
  { apply same_shape; [done|]. pose proof (same_total _ _ HS) as Ht.
    rewrite (ai_ids _ _ _ _ _ _ HI), (ai_ids _ _ _ _ _ _ HI1), !seq_length in *. by rewrite Ht. }
  split; [congruence|]. split; [congruence|]. intros x c. rewrite L1. intros (ids & Hc & [k Hk]%elem_of_list_lookup)%elem_of_concat.
  destruct (Forall2_lookup_r _ _ _ _ _ F Hk) as (l & Hlk & Hc0). destruct (Forall2_lookup_r _ _ _ _ _ F1 Hk) as (l1 & Hlk1 & Hc1). simplify_eq.
  destruct (HP _ _ _ _ Hlk Hc0 Hc1) as (ps & P1 & P2). apply elem_of_list_lookup in Hc as [j Hj].
  destruct (Forall2_lookup_r _ _ _ _ _ P1 Hj) as (q & Hq & Q1). destruct (Forall2_lookup_r _ _ _ _ _ P2 Hj) as (q1 & Hq1 & Q2). simplify_eq.
  by rewrite Q1, Q2.
Qed.

Lemma C84_lem {A : Arith} {H : HashOrder} i o vol order corr goal mn mx ar sing iter nbh r e r' e' :
  let i' := put_iso i vol order corr goal mn mx ar sing iter nbh in
  good_call i o → good_call i' o → aniso_on i o →
  agglomerate_one_level i o = (r, e) → agglomerate_one_level i' o = (r', e') →
  o_idx r' = o_idx r ∧ o_lines r' = o_lines r ∧
  ∀ x c, c ∈ o_lines r → o_fc2cc r' !! x = Some c ↔ o_fc2cc r !! x = Some c.
Proof.
  intros i' HG HG' Ha. apply (C84_core H H i i' o r e r' e' HG HG' Ha Ha); [|done|done|done].
  intros lines lines1 Hl Hl1. assert (Ok lines1 = Ok lines) as [= ->]; [|done]. rewrite <- Hl, <- Hl1.
  exact (lines_of_vol (graph_of i) vol _ _ _ _ _ _).
Qed.

Lemma C84_given_lem {A : Arith} (H H' : HashOrder) i i' o r e r' e' :
  good_call i o → good_call i' o → aniso_on i o → aniso_on i' o → in_build i = false → in_build i' = false →
  in_odd i' = in_odd i → in_maxline i' = in_maxline i → in_prio i' = in_prio i → in_bnd i' = in_bnd i → in_dim i' = in_dim i →
  @agglomerate_one_level A H i o = (r, e) → @agglomerate_one_level A H' i' o = (r', e') →
  o_idx r' = o_idx r ∧ o_lines r' = o_lines r ∧
  ∀ x c, c ∈ o_lines r → o_fc2cc r' !! x = Some c ↔ o_fc2cc r !! x = Some c.
Proof.
  intros HG HG' Ha Ha' Hb Hb' Hodd Hm Hp Hn Hd. apply (C84_core H H' i i' o r e r' e' HG HG' Ha Ha'); [|done|..].
  - rewrite Hb, Hb'. unfold lines_of. intros ls ls1 ? ?. congruence.
  - unfold max_line. rewrite Hm, Hb, Hb'. destruct (in_maxline i); [|done]. by rewrite !andb_false_r.
  - intros x y. unfold comes_first, clipped, prio_of. by rewrite Hp, Hn, Hd.
Qed.
