(** * RuleT: there is only one result which follows the rules (C51) *)

From Verif Require Import Features Neigh Iso Main Spec SpecSub SpecFeat SpecAR SpecBest SpecPool SpecGrow SpecFeed SpecLine
  SpecMove SpecRules FeatU ApiT FeedT MoveP MoveT DetT.

Section rule.
Context {A : Arith} {H : HashOrder}.

Lemma by_rules_of_call i o r e : good_call i o → in_corr i = false → simple_csr (in_row i) (in_col i) →
  weak_order wlt (λ _ : W, True) → agglomerate_one_level i o = (r, e) → by_rules i o r.
Proof. apply C45_lem. Qed.

Lemma comes_first_oriented i line l1 l2 : oriented i line l1 → oriented i line l2 → l1 = l2.
Proof.
  intros (x & y & Hx & Hy & C1) (x' & y' & Hx' & Hy' & C2). simplify_eq.
  destruct C1 as [[F1 ->]|[F1 ->]], C2 as [[F2 ->]|[F2 ->]]; done.
Qed.

Lemma aniso_on_or i o : aniso_on i o ∨ ¬ aniso_on i o.
Proof.
  unfold aniso_on. destruct (in_aniso i); [|right; by intros [? _]]. destruct (in_build i); [by left|].
  destruct (decide (2 ≤ length (o_idx o))) as [|Hn]; [|right; intros [_ Hx]; by destruct (Hx eq_refl)].
  destruct (o_lines o) eqn:E; [right; intros [_ Hx]; by destruct (Hx eq_refl)|]. left. split; [done|]. by intros _.
Qed.

Lemma by_rules_unique i o r r' : weak_order wlt (λ _ : W, True) →
  length (o_fc2cc r) = in_n i → length (o_fc2cc r') = in_n i →
  same_lines i o r r' → by_rules i o r → by_rules i o r' → o_fc2cc r' = o_fc2cc r.
Proof.
  intros WO Ln Ln' [EL Hsame]
    (ip1 & m1 & aggl1 & p1 & w1 & Xs1 & D1 & Mn1 & G1 & Mx1 & AR1 & Fr1 & It1 & I1 & Id1 & La1 & Fe1 & Wn1 & Wa1 & St1 & Md1 & E1)
    (ip2 & m2 & aggl2 & p2 & w2 & Xs2 & D2 & Mn2 & G2 & Mx2 & AR2 & Fr2 & It2 & I2 & Id2 & La2 & Fe2 & Wn2 & Wa2 & St2 & Md2 & E2).
  assert (∀ c, aniso_id i o r' c ↔ aniso_id i o r c) as Hid by (intros c; unfold aniso_id; by rewrite EL).
  assert (ip1 = ip2) as <-.
  { destruct ip1, ip2; simpl in *. rewrite AR1 in AR2. congruence. }
  assert (m1 = m2) as <-.
  { destruct (lt_eq_lt_dec m1 m2) as [[Hlt|]|Hlt]; [|done|].
    - apply Id2 in Hlt. apply Hid, Id1 in Hlt. lia.
    - apply Id1 in Hlt. apply Hid, Id2 in Hlt. lia. }
  assert (∀ c, aniso_id i o r c ∨ ¬ aniso_id i o r c) as Hdec.
  { intros c. destruct (decide (c < m1)) as [Hc|Hc]; [left; by apply Id1|right; intros Hn; by apply Hc, Id1]. }
  assert (∀ x, (∃ c, o_fc2cc r !! x = Some c ∧ ¬ aniso_id i o r c) ↔ ∃ c, o_fc2cc r' !! x = Some c ∧ ¬ aniso_id i o r' c) as Hfr.
  { intros x. split.
    - intros (c & Hc & Hn). destruct (lookup_lt_is_Some_2 (o_fc2cc r') x) as [c' Hc'].
      { apply lookup_lt_Some in Hc. lia. }
      exists c'. split; [done|]. rewrite Hid. intros Ha. pose proof (proj1 (Hsame x c' Ha) Hc'). by simplify_eq.
    - intros (c & Hc & Hn). rewrite Hid in Hn. destruct (lookup_lt_is_Some_2 (o_fc2cc r) x) as [c' Hc'].
      { apply lookup_lt_Some in Hc. lia. }
      exists c'. split; [done|]. intros Ha. pose proof (proj2 (Hsame x c' Ha) Hc'). by simplify_eq. }
  assert (aggl1 = aggl2) as <-.
  { apply (free_unique aggl1 aggl1 aggl2 (λ x, ∃ c, o_fc2cc r !! x = Some c ∧ ¬ aniso_id i o r c)); [done|lia|done|].
    intros x. rewrite Fe2. by rewrite Hfr. }
  assert (w1 = w2) as <-.
  { destruct (aniso_on_or i o) as [Ha|Ha]; [|by rewrite Wn1, Wn2].
    destruct (Wa1 Ha) as (l1 & C1 & F1), (Wa2 Ha) as (l2 & C2 & F2). rewrite C1 in C2. injection C2 as <-.
    clear -F1 F2. revert w2 F2. induction F1 as [|x y l w Hxy F IH]; intros w2 F2; inversion F2; subst; [done|].
    f_equal; [by eapply comes_first_oriented|by apply IH]. }
  pose proof (started_unique WO _ _ _ _ _ _ _ _ St1 St2) as <-.
  pose proof (made_unique WO _ _ _ _ _ _ _ _ (cpt_unique _ _) Md1 Md2) as <-.
  apply list_eq_same_length with (in_n i); [done|done|]. intros x c' c Hx Hc' Hc.
  destruct (Hdec c) as [Ha|Ha].
  - pose proof (proj2 (Hsame x c Ha) Hc). congruence.
  - assert (¬ c < m1) as Hge by (intros Hlt; by apply Ha, Id1).
    replace c with (m1 + (c - m1)) in Hc by lia. apply E1, E2 in Hc. rewrite Hc in Hc'. injection Hc' as <-. lia.
Qed.

Lemma C51_lem i o r e : good_call i o → in_corr i = false → simple_csr (in_row i) (in_col i) →
  weak_order wlt (λ _ : W, True) → agglomerate_one_level i o = (r, e) →
  ∀ r', length (o_fc2cc r') = in_n i → same_lines i o r r' →
    (by_rules i o r' ↔ o_fc2cc r' = o_fc2cc r).
Proof.
  intros HG Hc Hs WO He r' Ln Hl. pose proof (by_rules_of_call _ _ _ _ HG Hc Hs WO He) as HR. split.
  - intros HR'. apply (by_rules_unique i o r r'); try done.
    destruct (C01_lem i o HG) as (r1 & E1 & L1). rewrite E1 in He. by injection He as <- <-.
  - intros Ef. destruct Hl as [El _]. destruct r' as [f' idx' l'], r as [f idx l]. simpl in *. subst. done.
Qed.

(** ** The correction of single cells *)
Section corr.
Context (row col : list nat) (iso : nat → Prop) (f0 : list nat) (sing : list nat).
Context (Hap : ∀ k k' x y, k ∈ sing → k' ∈ sing → k ≠ k' → f0 !! x = Some k → f0 !! y = Some k' → ¬ edge row col x y).
Context (Hone : ∀ k, k ∈ sing → size (cells_in f0 k) = 1).

Definition in_step (rest f : list nat) : Prop :=
  (∀ y k, k ∈ sing → f !! y = Some k → f0 !! y = Some k) ∧
  (∀ y k, k ∈ rest → f0 !! y = Some k → f !! y = Some k).

Lemma joins_unique P f x k1 k2 : joins row col P f x k1 → joins row col P f x k2 → k1 = k2.
Proof.
  intros [P1 J1] [P2 J2]. destruct (decide (k1 = k2)) as [|Hn]; [done|exfalso].
  specialize (J1 _ P2 (not_eq_sym Hn)). specialize (J2 _ P1 Hn). unfold rather, smaller in *.
  destruct J1 as [[? ?]|[E1 J1]], J2 as [[? ?]|[E2 J2]]; [done|tauto|tauto|lia].
Qed.

Lemma one_left (X : gset nat) l : size X = 1 → NoDup l → (∀ x, x ∈ l ↔ x ∈ X) → ∃ x, X = {[x]} ∧ l = [x].
Proof.
  intros HX Hnd Hl. apply size_1_elem_of in HX as [x Hx]. exists x. assert (X = {[x]}) as -> by set_solver.
  split; [done|]. destruct l as [|a l]; [exfalso; apply (not_elem_of_nil x), Hl; set_solver|].
  assert (a = x) as -> by (apply (elem_of_singleton (C:=gset nat)), Hl; left). f_equal. destruct l as [|b l]; [done|exfalso].
  assert (b = x) as -> by (apply (elem_of_singleton (C:=gset nat)), Hl; right; left). inversion Hnd. set_solver.
Qed.

Lemma absorbed_one rest f old f' : old ∉ rest → old ∈ sing → in_step (old :: rest) f → absorbed row col iso f old f' →
  ∃ x, f0 !! x = Some old ∧ in_step rest f' ∧
  ((∃ k, joins row col (beside row col iso f old {[x]}) f x k ∧ f' = <[x := k]> f) ∨
   (∀ k, ¬ beside row col iso f old {[x]} k) ∧ f' = f).
Proof using Hap Hone.
  intros Hnr Hold [I1 I2] Hab.
  assert (cells_in f old = cells_in f0 old) as EX.
  { apply set_eq. intros x. rewrite !elem_of_cells_in. split; [by apply I1|apply I2; left]. }
  unfold absorbed in Hab. rewrite EX in Hab. pose proof (Hone _ Hold) as H1.
  destruct Hab as [[? _]|[_ (l & Hnd & Hl & HO)]]; [lia|].
  destruct (one_left _ _ H1 Hnd Hl) as (x & HX & ->).
  assert (f0 !! x = Some old) as Hx by (apply elem_of_cells_in; rewrite HX; set_solver).
  exists x. split; [done|].
  inversion HO as [|? k ? ? ? J HO'|? ? ? ? HS HO']; subst; inversion HO'; subst.
  - split; [|left; by exists k]. destruct J as [(Hk & _ & x' & y & Hx' & He & Hy) _].
    apply elem_of_singleton in Hx' as ->.
    assert (k ∉ sing) as Hks.
    { intros Hks. exact (Hap old k x y Hold Hks (not_eq_sym Hk) Hx (I1 _ _ Hks Hy) He). }
    split.
    + intros z k' Hk' Hz. destruct (decide (z = x)) as [->|Hne].
      * assert (x < length f) as Hlt by (apply lookup_lt_Some in Hz; by rewrite insert_length in Hz).
        rewrite list_lookup_insert in Hz by done. by simplify_eq.
      * rewrite list_lookup_insert_ne in Hz by done. by apply I1.
    + intros z k' Hk' Hz. destruct (decide (z = x)) as [->|Hne]; [by simplify_eq|].
      rewrite list_lookup_insert_ne by done. apply I2; [by right|done].
  - split; [|by right]. split; [done|]. intros z k' Hk'. apply I2. by right.
Qed.

Lemma absorbed_all_unique rest f f1 f2 : NoDup rest → (∀ k, k ∈ rest → k ∈ sing) → in_step rest f →
  absorbed_all row col iso rest f f1 → absorbed_all row col iso rest f f2 → f1 = f2.
Proof using Hap Hone.
  revert f. induction rest as [|old rest IH]; intros f Hnd Hsub HI A1 A2; inversion A1; inversion A2; subst; [done|].
  apply NoDup_cons in Hnd as [Hn Hnd].
  match goal with B1 : absorbed _ _ _ f old ?g1, B2 : absorbed _ _ _ f old ?g2 |- _ =>
    assert (g1 = g2 ∧ in_step rest g1) as [<- HI'] end; [|].
  { match goal with B1 : absorbed _ _ _ f old ?g1, B2 : absorbed _ _ _ f old ?g2 |- _ =>
      destruct (absorbed_one rest f old g1 Hn (Hsub _ (elem_of_list_here _ _)) HI B1) as (x & X1 & S1 & R1);
      destruct (absorbed_one rest f old g2 Hn (Hsub _ (elem_of_list_here _ _)) HI B2) as (y & X2 & S2 & R2) end.
    assert (x = y) as <-.
    { pose proof (Hone old (Hsub _ (elem_of_list_here _ _))) as H1. apply size_1_elem_of in H1 as [z Hz].
      assert (x ∈ cells_in f0 old) as E1 by (by apply elem_of_cells_in).
      assert (y ∈ cells_in f0 old) as E2 by (by apply elem_of_cells_in).
      rewrite Hz in E1, E2. apply elem_of_singleton in E1, E2. congruence. }
    split; [|done]. destruct R1 as [(k1 & J1 & ->)|[N1 ->]], R2 as [(k2 & J2 & ->)|[N2 ->]]; [|by destruct (N2 k1), J1|by destruct (N1 k2), J2|done].
    by rewrite (joins_unique _ _ _ _ _ J1 J2). }
  eapply IH; eauto. intros k Hk. apply Hsub. by right.
Qed.
End corr.

Lemma C51_corrected_lem i o r0 e0 r e : good_call i o → simple_csr (in_row i) (in_col i) → in_corr i = true →
  (corr_size i <= 1)%Z →
  agglomerate_one_level (uncorrected i) o = (r0, e0) → agglomerate_one_level i o = (r, e) →
  ∀ r', corrected_from i o r0 r' ↔ r' = r.
Proof.
  intros HG Hsi Hc Hcs He0 He r'. destruct (C41_lem i o r0 e0 r e HG Hsi Hc He0 He) as (-> & -> & HC).
  split; [|by intros ->]. intros HC'.
  destruct HC as [(sing & f1 & R & Ss & Es & Ab & ER & Ef) Ei El].
  destruct HC' as [(sing' & f1' & R' & Ss' & Es' & Ab' & ER' & Ef') Ei' El'].
  assert (sing' = sing) as ->.
  { apply (sorted_unique lt); [lia|done..|]. intros x. by rewrite Es, Es'. }
  assert (f1' = f1) as ->.
  { assert (∀ k, k ∈ sing → ¬ aniso_id (uncorrected i) o r0 k ∧ (Z.of_nat (size (cells_in (o_fc2cc r0) k)) < in_min i)%Z) as Hlow.
    { intros k Hk. apply Es in Hk as [[_ Hn] Hk]. split; [done|]. unfold corr_size in Hk. destruct (decide _); lia. }
    assert (∀ k k' x y, k ∈ sing → k ≠ k' → o_fc2cc r0 !! x = Some k → o_fc2cc r0 !! y = Some k' →
      edge (in_row i) (in_col i) x y → k' < k) as Hlt.
    { intros k k' x y Hk Hne Hx Hy Hxy. destruct (Hlow _ Hk) as [Hn Hm].
      destruct (C05_lem (uncorrected i) o r0 _ (good_uncorrected _ _ HG) eq_refl He0 k (cells_in (o_fc2cc r0) k) Hn
        (elem_of_cells_in _ _) Hm x y) as (c' & Hc' & Hy').
      - by apply elem_of_cells_in.
      - exact Hxy.
      - rewrite elem_of_cells_in. congruence.
      - by simplify_eq. }
    assert (NoDup sing) as Hnd.
    { clear -Ss. induction Ss as [|x l _ IH F]; constructor; [|done]. intros Hx. rewrite Forall_forall in F.
      apply F in Hx. lia. }
    apply (absorbed_all_unique (in_row i) (in_col i) (iso_id i o r0) (o_fc2cc r0) sing) with (rest := sing) (f := o_fc2cc r0); try done.
    - intros k k' x y Hk Hk' Hne Hx Hy Hxy. pose proof (Hlt _ _ _ _ Hk Hne Hx Hy Hxy).
      assert (k < k'); [|lia]. eapply (Hlt k' k y x); try done. apply (wf_sym _ (gc_mesh _ _ HG)). exact Hxy.
    - intros k Hk. apply Es in Hk as [[[x Hx] _] Hk]. assert (size (cells_in (o_fc2cc r0) k) ≠ 0); [|lia].
      intros E0. apply size_empty_inv in E0. apply (not_elem_of_empty (C:=gset nat) x). rewrite <- E0.
      by apply elem_of_cells_in.
  }
  assert (R' = R) as -> by (apply set_eq; intros k; by rewrite ER, ER').
  destruct r as [a b c], r' as [a' b' c']. simpl in *. congruence.
Qed.

(** ** The sequence of coarse cells *)
Lemma C51_sequence_lem ip (g : graph) prio bnd bp one (cpt : gset nat → Z → Prop) aggl nb p p' Xs Ys :
  weak_order wlt (λ _ : W, True) → (∀ X a b, cpt X a → cpt X b → a = b) →
  started prio bnd bp one aggl nb p → made ip g prio cpt aggl p Xs →
  started prio bnd bp one aggl nb p' → made ip g prio cpt aggl p' Ys → p' = p ∧ Ys = Xs.
Proof.
  intros WO Hc S1 M1 S2 M2. pose proof (started_unique WO _ _ _ _ _ _ _ _ S2 S1) as ->.
  split; [done|]. by eapply made_unique.
Qed.
End rule.
