(** * PieceU: calls for a piece of a mesh (C63) *)

From Verif Require Import Features Iso Main Spec SpecSub SpecFeat SpecAR SpecBest SpecFront SpecPool SpecGrow SpecFeed SpecHash
  SpecLine SpecMove SpecWhole SpecRenum SpecPiece GraphP FeatT ApiP ApiT DetT MoveP MoveT RuleT WholeT WholeU ReordU RenumT RenumU PieceT.

Section call.
Context {A : Arith} (f h : nat → nat).
Implicit Types (i : input) (o r : outs).

Section one.
Context i1 i (WM : wf_mesh i) (HP : piece f h i1 i).
Context (Hsw : sym_weights (in_row i) (in_col i) (in_val i)).
Let hf := pc_left _ _ _ _ HP.

Lemma pc_length {B} (l l1 : list B) : (∀ x, l !! f x = l1 !! x) → length l = in_n i → length l1 = in_n i1.
Proof using HP.
  intros Hl Hn.
  assert (∀ y, y < length l1 ↔ y < in_n i1) as HY.
  { intros y. rewrite <- lookup_lt_is_Some, <- Hl, lookup_lt_is_Some, Hn. apply HP. }
  pose proof (HY (length l1)). pose proof (HY (in_n i1)). lia.
Qed.
Lemma pc_nb x : nb_list (in_row i) (in_col i) (f x) ≡ₚ f <$> nb_list (in_row i1) (in_col i1) x.
Proof using WM HP.
  rewrite <- (entries_fst _ _ _ x (pc_val _ _ _ _ HP)), <- (entries_fst _ _ _ (f x) (wf_val _ WM)).
  rewrite (pc_faces _ _ _ _ HP x). rewrite <- !list_fmap_compose. done.
Qed.
Lemma pc_edge x y : edge (in_row i) (in_col i) (f x) (f y) ↔ edge (in_row i1) (in_col i1) x y.
Proof using WM HP. rewrite <- !elem_of_nb_list, (pc_nb x). apply (in_fmap f h hf). Qed.
Lemma pc_to y x : faces_to (in_row i) (in_col i) (in_val i) (λ z, z = f y) (f x) ≡ₚ faces_to (in_row i1) (in_col i1) (in_val i1) (λ z, z = y) x.
Proof using HP.
  unfold faces_to. rewrite (pc_faces _ _ _ _ HP x).
  induction (entries (in_row i1) (in_col i1) (in_val i1) x) as [|[z w] l IH]; [done|]. rewrite fmap_cons, !filter_cons. cbn.
  destruct (decide (f z = f y)) as [E|E], (decide (z = y)) as [E'|E']; try done.
  - cbn. by apply perm_skip.
  - by apply (f_inj f h hf) in E.
  - by subst.
Qed.
Lemma pc_sym : sym_weights (in_row i1) (in_col i1) (in_val i1).
Proof using HP Hsw. intros x y. rewrite <- !pc_to. apply Hsw. Qed.
Lemma pc_embeds : embeds f h (mesh_of i1) (mesh_of i).
Proof using WM HP Hsw.
  split; try done; simpl; try apply HP.
  - apply pc_nb.
  - intros x. rewrite !list_lookup_fmap, (pc_bnd _ _ _ _ HP). by rewrite (pc_rest _ _ _ _ HP).
  - apply pc_sym.
Qed.
Lemma pc_prio_in w : w ∈ in_prio i1 → w ∈ in_prio i.
Proof using HP. rewrite !elem_of_list_lookup. intros [x Hx]. exists (f x). by rewrite (pc_prio _ _ _ _ HP). Qed.
Lemma pc_mesh : wf_mesh i1.
Proof using WM HP.
  split; try apply HP.
  - intros x y. rewrite <- !pc_edge. apply WM.
  - eapply pc_length; [apply HP|apply WM].
  - eapply pc_length; [apply HP|apply WM].
  - destruct (wf_dim _ WM) as [d Hd]. exists d. intros x c. rewrite <- (pc_cen _ _ _ _ HP). apply Hd.
  - eapply pc_length; [apply HP|apply WM].
  - destruct (wf_prio_ord _ WM) as [W1 W2 W3]. split; intros x; [intros Hx%pc_prio_in; by apply W1| |];
      intros y z Hx%pc_prio_in Hy%pc_prio_in Hz%pc_prio_in; [by apply W2|by apply W3].
  - eapply pc_length; [apply HP|apply WM].
  - intros x b. rewrite <- (pc_bnd _ _ _ _ HP). apply WM.
  - intros x. rewrite (pc_compl _ _ _ _ HP), <- (pc_cells _ _ _ _ HP). apply WM.
Qed.
Lemma pc_aniso o : aniso_on i1 o ↔ aniso_on i o.
Proof using HP. unfold aniso_on. by rewrite (pc_rest _ _ _ _ HP). Qed.
Lemma pc_good o : ¬ aniso_on i o → good_call i o → good_call i1 o.
Proof using WM HP.
  intros Ha [_ HA H1 Hb Hg]. split.
  - apply pc_mesh.
  - rewrite (pc_rest _ _ _ _ HP). destruct HA. by split.
  - intros Ho w Hw%pc_prio_in. apply H1; [|done]. by rewrite (pc_rest _ _ _ _ HP) in Ho.
  - rewrite pc_aniso. done.
  - rewrite pc_aniso. done.
Qed.
Lemma pc_simple : simple_csr (in_row i) (in_col i) → simple_csr (in_row i1) (in_col i1).
Proof using WM HP.
  intros Hs x. destruct (Hs (f x)) as [H1 H2]. rewrite pc_edge in H2. split; [|done].
  rewrite (pc_nb x) in H1. by apply NoDup_fmap_1 in H1.
Qed.
Lemma pc_extremes : exact_arith → extremes_fine i → extremes_fine i1.
Proof using WM HP Hsw.
  intros EA HX Ha Y HY b w Hc Ho.
  assert (extremes_ok (mesh_of i) (wofZ (Z.of_nat (size (mp f Y)))) (mp f Y)) as HE.
  { apply HX; [by rewrite (pc_rest _ _ _ _ HP) in Ha|].
    intros y (x & -> & Hx)%mp_image. by apply (pc_cells _ _ _ _ HP), HY. }
  rewrite (mp_size f h hf) in HE. apply (HE b w).
  - by apply (ca_centre f h _ _ pc_embeds EA).
  - by apply (ca_obary f h _ _ pc_embeds).
Qed.
Lemma pc_urgent : keeps_ties f i1 → ∀ x y, more_urgent (in_prio i1) x y ↔ more_urgent (in_prio i) (f x) (f y).
Proof using HP.
  intros HT x y. unfold more_urgent. rewrite !(pc_prio _ _ _ _ HP). split; intros (wx & w_y & Hx & Hy & Hc); exists wx, w_y.
  - split_and!; [done|done|]. destruct Hc as [?|(H1 & H2 & H3)]; [by left|right]. split_and!; [done|done|]. by apply (HT x y wx w_y).
  - split_and!; [done|done|]. destruct Hc as [?|(H1 & H2 & H3)]; [by left|right]. split_and!; [done|done|].
    destruct (lt_eq_lt_dec x y) as [[?| ->]|Hlt]; [done|lia|]. pose proof (HT y x w_y wx Hy Hx H1 H2 Hlt). lia.
Qed.

(** ** The start *)
Lemma empty_lookup l (q : list nat) : (replicate 4 [] : list (list nat)) !! l = Some q → q = [].
Proof. intros [-> _]%lookup_replicate. done. Qed.
Lemma start_inv (prio : list W) (bnd : list Z) aggl p : (∀ x b, bnd !! x = Some b → (0 <= b <= 3)%Z) →
  started prio bnd true false aggl [] p → pinv bnd aggl p.
Proof.
  intros Hb3 HS. destruct (started_top _ _ _ _ _ _ HS) as [T1 T2]. destruct HS as (t & Ht & l & q & Hq & Hl & Hw).
  assert (0 <= t <= 3)%Z as Ht3. { destruct Ht as [[x Hx]%elem_of_list_lookup _]. by eapply Hb3. }
  apply empty_lookup in Hq as ->. split; [done| |done|].
  - rewrite Hw. simpl. by rewrite insert_length.
  - intros l' c (q' & Hq' & Hc) _. rewrite Hw in Hq'. simpl in Hq'.
    destruct (decide (l' = Z.to_nat t)) as [->|Hn].
    + rewrite list_lookup_insert in Hq' by (simpl; lia). injection Hq' as <-.
      apply Hl in Hc as (b & Hb & Hle). rewrite Hb. f_equal. destruct Ht as [_ Ht].
      pose proof (Ht b (elem_of_list_lookup_2 _ _ _ Hb)). lia.
    + rewrite list_lookup_insert_ne in Hq' by done. apply empty_lookup in Hq' as ->. by apply elem_of_nil in Hc.
Qed.
Lemma start_fq (prio : list W) (bnd : list Z) aggl p : (∀ x b, bnd !! x = Some b → (0 <= b <= 3)%Z) →
  (∀ x b, bnd !! x = Some b → is_free aggl x) →
  started prio bnd true false aggl [] p → ∃ t l, highest_bnd bnd t ∧ (0 <= t <= 3)%Z ∧
    listing prio (λ x, is_free aggl x ∧ bnd !! x = Some t) l ∧
    ∀ l', fq aggl p l' = if decide (l' = Z.to_nat t) then l else [].
Proof.
  intros Hb3 Hfr (t & Ht & l & q & Hq & Hl & Hw).
  assert (0 <= t <= 3)%Z as Ht3. { destruct Ht as [[x Hx]%elem_of_list_lookup _]. by eapply Hb3. }
  apply empty_lookup in Hq as ->. exists t, l.
  assert (∀ x, x ∈ l ↔ is_free aggl x ∧ bnd !! x = Some t) as HL.
  { intros x. rewrite (proj1 Hl). split.
    - intros (b & Hb & Hle). split; [by eapply Hfr|]. rewrite Hb. f_equal. destruct Ht as [_ Ht].
      pose proof (Ht b (elem_of_list_lookup_2 _ _ _ Hb)). lia.
    - intros [_ Hb]. exists t. split; [done|lia]. }
  split_and!; [done|lia|lia|split; [done|apply Hl]|].
  intros l'. rewrite (fq_left _ _ _ _ _ _ Hw) by (simpl; lia). destruct (decide _) as [->|Hn].
  - simpl. apply filter_all. intros x Hx. by apply HL.
  - unfold fq. destruct (_ !! l') as [q|] eqn:E; [|done]. simpl. apply empty_lookup in E as ->. done.
Qed.

Context (HO : total_order A) (EA : exact_arith) (HTies : keeps_ties f i1).
Notation bnd := (g_bnd (mesh_of i)).
Notation bnd1 := (g_bnd (mesh_of i1)).

Lemma start_sim aggl1 p1 aggl p : (0 <= in_dim i <= 3)%Z → (∀ x, is_free aggl x ↔ x < in_n i) → (∀ x, is_free aggl1 x ↔ x < in_n i1) →
  started (in_prio i1) bnd1 true false aggl1 [] p1 → started (in_prio i) bnd true false aggl [] p →
  sim f h (mesh_of i1) (mesh_of i) (in_prio i1) aggl1 p1 aggl p.
Proof using WM HP Hsw HTies HO.
  intros Hd3 Hf Hf1 S1 S. destruct HO as [WO _]. pose proof pc_embeds as HC. pose proof (ca_bnd _ _ _ _ HC) as Hb.
  assert (∀ x b, bnd !! x = Some b → (0 <= b <= 3)%Z) as Hb3.
  { intros x b. simpl. rewrite list_lookup_fmap. intros (b0 & Hx & ->)%fmap_Some. pose proof (wf_bnd_pos _ WM _ _ Hx). lia. }
  assert (∀ x b, bnd1 !! x = Some b → (0 <= b <= 3)%Z) as Hb31 by (intros x b; rewrite <- Hb; apply Hb3).
  assert (∀ x, is_free aggl (f x) ↔ is_free aggl1 x) as fr by (intros x; rewrite Hf, Hf1; apply HP).
  assert (∀ x b, bnd !! x = Some b → is_free aggl x) as Hbf.
  { intros x b. simpl. rewrite list_lookup_fmap. intros (b0 & Hx & ->)%fmap_Some. apply Hf. rewrite <- (wf_bnd _ WM). by eapply lookup_lt_Some. }
  assert (∀ x b, bnd1 !! x = Some b → is_free aggl1 x) as Hbf1. { intros x b. rewrite <- Hb, <- fr. apply Hbf. }
  split; [done|by eapply start_inv|by eapply start_inv|].
  destruct (start_fq _ _ _ _ Hb3 Hbf S) as (t & l & Ht & Ht3 & Hl & Hq).
  destruct (start_fq _ _ _ _ Hb31 Hbf1 S1) as (t1 & l1 & Ht1 & Ht13 & Hl1 & Hq1).
  intros lv _. rewrite Hq, Hq1.
  assert (t1 <= t)%Z as Hle.
  { destruct Ht1 as [[x Hx]%elem_of_list_lookup _]. destruct Ht as [_ Ht]. rewrite <- Hb in Hx. by eapply Ht, elem_of_list_lookup_2. }
  destruct (decide (t1 = t)) as [->|Hne].
  - left. destruct (decide _); [|done]. by eapply (free_listing WO f h _ _ HC _ _ (pc_urgent HTies)).
  - destruct (decide (lv = Z.to_nat t1)) as [->|Hn1].
    + right. rewrite decide_False by lia. exists l1. replace (Z.of_nat (Z.to_nat t1)) with t1 by lia.
      split_and!; [done| |by right|by left]. intros x b _ Hx. destruct Ht1 as [_ Ht1]. by eapply Ht1, elem_of_list_lookup_2.
    + destruct (decide (lv = Z.to_nat t)) as [->|Hn].
      * right. exists []. replace (Z.of_nat (Z.to_nat t)) with t by lia.
        assert (listing (in_prio i1) (λ x, is_free aggl1 x ∧ bnd1 !! x = Some t) []) as Hnil.
        { split; [|constructor]. intros x. split; [by intros ?%elem_of_nil|]. intros [_ Hx]. exfalso.
          destruct Ht1 as [_ Ht1]. pose proof (Ht1 t (elem_of_list_lookup_2 _ _ _ Hx)). lia. }
        split_and!; [done| |by left|].
        -- intros x b _ Hx. destruct Ht1 as [_ Ht1]. pose proof (Ht1 b (elem_of_list_lookup_2 _ _ _ Hx)). lia.
        -- left. by rewrite (free_listing WO f h _ _ HC _ _ (pc_urgent HTies) _ _ _ _ _ fr Hl Hnil).
      * by left.
Qed.

(** Coarse cell [k] of the piece is coarse cell [m k] of the whole mesh. *)
Definition renamed (m : nat → nat) (F1 F : list nat) : Prop :=
  (∀ x, F !! f x = m <$> F1 !! x) ∧ (∀ y k, F !! y = Some (m k) → im f h y).

Lemma pc_whole o r1 r : ¬ aniso_on i o → in_order i = 0%Z → (0 <= in_dim i <= 3)%Z → whole i1 o r1 → whole i o r →
  ∃ m, (∀ j k, j < k → m j < m k) ∧ renamed m (o_fc2cc r1) (o_fc2cc r).
Proof using WM HP Hsw HTies HO EA.
  intros Ha Hord Hd3
    (lines1 & walked1 & pieces1 & ip1 & d1 & aggl1 & p1 & X1s & L11 & L12 & Hw1 & Hp1 & Hip1 & Hdm1 & La1 & Fa1 & St1 & Sq1 & Lf1 & Fc1 & _)
    (lines & walked & pieces & ip & d & aggl & p & Xs & L1 & L2 & Hw & Hp & Hip & Hdm & La & Fa & St & Sq & Lf & Fc & _).
  assert (¬ aniso_on i1 o) as Ha1 by by rewrite pc_aniso.
  rewrite (L2 Ha) in Hw. apply Forall2_nil_inv_l in Hw as ->. apply Forall2_nil_inv_l in Hp as ->.
  rewrite (L12 Ha1) in Hw1. apply Forall2_nil_inv_l in Hw1 as ->. apply Forall2_nil_inv_l in Hp1 as ->.
  assert (ip1 = ip) as ->.
  { destruct Hip, Hip1. rewrite (pc_rest _ _ _ _ HP) in *. destruct ip, ip1. simpl in *. congruence. }
  assert (d1 = d) as ->.
  { destruct (lookup_lt_is_Some_2 (in_cen i1) 0) as [c Hc]; [rewrite (wf_cen _ pc_mesh); apply HP|].
    rewrite <- (Hdm1 _ _ Hc). rewrite <- (pc_cen _ _ _ _ HP) in Hc. by rewrite <- (Hdm _ _ Hc). }
  assert (∀ x, is_free aggl x ↔ x < in_n i) as Hf.
  { intros x. rewrite Fa. simpl. split; [by intros [? _]|]. intros Hx. split; [done|]. by intros ?%elem_of_nil. }
  assert (∀ x, is_free aggl1 x ↔ x < in_n i1) as Hf1.
  { intros x. rewrite Fa1. simpl. split; [by intros [? _]|]. intros Hx. split; [done|]. by intros ?%elem_of_nil. }
  replace (in_order i1) with (in_order i) in St1 by (by rewrite (pc_rest _ _ _ _ HP)). rewrite Hord in *.
  pose proof (start_sim _ _ _ _ Hd3 Hf Hf1 St1 St) as HS. destruct HO as [WO HT].
  assert (∀ x b, bnd !! x = Some b → (0 <= b <= 3)%Z) as Hb3.
  { intros x b. simpl. rewrite list_lookup_fmap. intros (b0 & Hx & ->)%fmap_Some. pose proof (wf_bnd_pos _ WM _ _ Hx). lia. }
  pose proof (sim_sequence WO HT f h _ _ pc_embeds EA ip d (wf_sym _ WM) _ _ (pc_urgent HTies) Hb3 _ _ _ Sq _ _ _ HS Sq1) as HA.
  destruct (among_index f _ _ HA) as (m & M1 & M2 & M3). exists m. split; [done|]. split.
  - intros x. destruct (o_fc2cc r1 !! x) as [k|] eqn:E; simpl.
    + apply Fc1 in E as (X & HX & Hx). apply Fc. exists (mp f X). simpl in *. split; [by apply M2|]. by apply (mp_in f h hf).
    + apply lookup_ge_None in E. apply lookup_ge_None. pose proof (pc_cells _ _ _ _ HP x). lia.
  - intros y k Hy. apply Fc in Hy as (X & HX & Hy). simpl in HX. destruct (X1s !! k) as [X1|] eqn:E.
    + pose proof (M2 _ _ E) as HX'. rewrite HX in HX'. injection HX' as ->. apply mp_image in Hy as (x & -> & _).
      by apply (im_f f h _ _ pc_embeds).
    + apply lookup_ge_None in E. apply lookup_lt_Some in HX. pose proof (M3 k E). lia.
Qed.
End one.

(** ** Correction of single cells *)
Section corr.
Context (g1 g : graph) (HC : embeds f h g1 g) (m : nat → nat) (Hm : ∀ j k, j < k → m j < m k).
Context (Hsym : ∀ x y, edge (g_row g) (g_col g) x y → edge (g_row g) (g_col g) y x).
Context (iso1 iso : nat → Prop) (Hiso : ∀ k, iso (m k) ↔ iso1 k).
Notation row := (g_row g). Notation col := (g_col g).
Notation row1 := (g_row g1). Notation col1 := (g_col g1).
Notation mp := (mp f).
Notation ren := (renamed m).
Let hf := ca_left _ _ _ _ HC.

Lemma m_inj j k : m j = m k ↔ j = k.
Proof using Hm. split; [|by intros ->]. intros E. destruct (lt_eq_lt_dec j k) as [[Hl|?]|Hl]; [|done|]; apply Hm in Hl; lia. Qed.
Lemma m_lt j k : m j < m k ↔ j < k.
Proof using Hm. split; [|apply Hm]. intros E. destruct (lt_eq_lt_dec j k) as [[Hl| ->]|Hl]; [done|lia|]. apply Hm in Hl. lia. Qed.
Lemma re_cells F1 F k : ren F1 F → cells_in F (m k) = mp (cells_in F1 k).
Proof using HC Hm.
  intros [R1 R2]. apply (mp_eq_image f h hf).
  - intros y Hy%elem_of_cells_in. exists (h y). symmetry. by eapply R2.
  - intros x. rewrite !elem_of_cells_in, R1. rewrite fmap_Some. setoid_rewrite m_inj. split; [by intros (? & ? & <-)|]. intros. by exists k.
Qed.
Lemma re_compact X c : compactness row col (mp X) c ↔ compactness row1 col1 X c.
Proof using HC.
  unfold compactness. rewrite (mp_size f h hf). destruct (decide (1 < size X)); [|done].
  assert (∀ x, length (filter (λ y, y ∈ mp X) (nb_list row col (f x))) = length (filter (λ y, y ∈ X) (nb_list row1 col1 x))) as HL.
  { intros x. apply (ca_count f h _ _ HC). intros y. apply (mp_in f h hf). }
  split; intros [(x & Hx & Hc) HM]; split.
  - apply mp_image in Hx as (x' & -> & Hx). exists x'. by rewrite HL in Hc.
  - intros y Hy. rewrite <- HL. apply HM. by apply (mp_in f h hf).
  - exists (f x). by rewrite HL, (mp_in f h hf).
  - intros y (y' & -> & Hy)%mp_image. rewrite HL. by apply HM.
Qed.
Lemma re_gains X Y : gains row col (mp X) (mp Y) ↔ gains row1 col1 X Y.
Proof using HC. unfold gains. rewrite <- (mp_union f). by setoid_rewrite re_compact. Qed.
Lemma re_beside F1 F old X k : ren F1 F → beside row col iso F (m old) (mp X) (m k) ↔ beside row1 col1 iso1 F1 old X k.
Proof using HC Hm Hiso.
  intros [R1 R2]. unfold beside. rewrite m_inj, Hiso. do 2 (apply and_iff_compat_l). split.
  - intros (x & y & (x' & -> & Hx)%mp_image & (y' & -> & He)%(ca_out f h _ _ HC) & Hk). exists x', y'. split_and!; [done|done|].
    rewrite R1 in Hk. apply fmap_Some in Hk as (k' & Hk & E). apply m_inj in E as ->. done.
  - intros (x & y & Hx & He & Hk). exists (f x), (f y). by rewrite (mp_in f h hf), (ca_edge f h _ _ HC), R1, Hk.
Qed.
Lemma re_beside_in F1 F old X k : ren F1 F → beside row col iso F old (mp X) k → ∃ k1, k = m k1.
Proof using HC.
  intros [R1 R2] (_ & _ & x & y & (x' & -> & Hx)%mp_image & (y' & -> & He)%(ca_out f h _ _ HC) & Hk).
  rewrite R1 in Hk. apply fmap_Some in Hk as (k' & Hk & ->). by exists k'.
Qed.
Lemma re_rather F1 F x k k' : ren F1 F → rather row col F (f x) (m k) (m k') ↔ rather row1 col1 F1 x k k'.
Proof using HC Hm.
  intros HR. unfold rather, smaller. cbn zeta. rewrite !(re_cells _ _ _ HR), <- (mp_single f), !re_gains, m_lt, !(mp_size f h hf).
  assert (∀ X, faces_with row col (f x) (mp X) = faces_with row1 col1 x X) as HW.
  { intros X. apply (ca_count f h _ _ HC). intros y. apply (mp_in f h hf). }
  by rewrite !HW.
Qed.
Lemma re_insert F1 F x k : (∀ x, f x < length F ↔ x < length F1) → ren F1 F → ren (<[x := k]> F1) (<[f x := m k]> F).
Proof using HC.
  intros HL [R1 R2]. split.
  - intros y. destruct (decide (y = x)) as [->|Hne].
    + destruct (decide (x < length F1)) as [Hx|Hx].
      * rewrite !list_lookup_insert; [done|done|by apply HL].
      * rewrite !list_insert_ge; [apply R1|lia|]. pose proof (HL x). lia.
    + rewrite !list_lookup_insert_ne; [apply R1|congruence|]. intros E. apply Hne. by apply (f_inj f h hf) in E.
  - intros y k'. destruct (decide (y = f x)) as [->|Hne].
    + intros _. by apply (im_f f h _ _ HC).
    + rewrite list_lookup_insert_ne by done. apply R2.
Qed.

Context (f0 : list nat) (F01 : list nat) (sing : list nat) (HR0 : ren F01 f0).
Context (Hap : ∀ k k' x y, k ∈ sing → k' ∈ sing → k ≠ k' → f0 !! x = Some k → f0 !! y = Some k' → ¬ edge row col x y).
Context (Hone : ∀ k, k ∈ sing → size (cells_in f0 k) = 1).

Lemma re_all rest F Ff : absorbed_all row col iso rest F Ff → NoDup rest → (∀ k, k ∈ rest → k ∈ sing) →
  in_step f0 sing rest F → ∀ F1, (∀ x, f x < length F ↔ x < length F1) → ren F1 F →
  ∃ rest1 F1f, (m <$> rest1) `sublist_of` rest ∧ (∀ k, k ∈ rest1 ↔ m k ∈ rest) ∧
    absorbed_all row1 col1 iso1 rest1 F1 F1f ∧ ren F1f Ff ∧ in_step f0 sing [] Ff ∧ length F1f = length F1.
Proof using HC Hm Hsym Hiso HR0 Hap Hone.
  induction 1 as [F|old rest F F' Ff Hab Hall IH]; intros Hnd Hsub HI F1 HL HR.
  { exists [], F1. split_and!; try done; [|constructor]. intros k. by rewrite !elem_of_nil. }
  apply NoDup_cons in Hnd as [Hnr Hnd]. assert (old ∈ sing) as Hos by (apply Hsub; by left).
  assert (cells_in F old = cells_in f0 old) as EX.
  { apply set_eq. intros y. rewrite !elem_of_cells_in. split; [by apply HI|apply HI; left]. }
  destruct (absorbed_one row col iso f0 sing Hap Hone rest F old F' Hnr Hos HI Hab) as (x & Hx & HI' & Hcase).
  assert (F !! x = Some old) as HxF by (apply HI; [left|done]).
  assert (∀ k, k ∈ rest → k ∈ sing) as Hsub' by (intros k Hk; apply Hsub; by right).
  destruct (decide (f (h x) = x)) as [Hix|Hix].
  - (* in the piece *)
    assert (∃ x1, x = f x1) as [x1 ->] by (exists (h x); done).
    assert (∃ old1, F1 !! x1 = Some old1 ∧ old = m old1) as (old1 & Hx1 & ->).
    { destruct HR as [R1 _]. rewrite R1 in HxF. apply fmap_Some in HxF as (o1 & ? & ->). by exists o1. }
    assert (size (cells_in F1 old1) = 1) as Hs1.
    { rewrite <- (mp_size f h hf), <- (re_cells _ _ _ HR), EX. by apply Hone. }
    assert (∃ F1', absorbed row1 col1 iso1 F1 old1 F1' ∧ ren F1' F' ∧ length F1' = length F1 ∧ length F' = length F) as (F1' & Ha1 & HR' & HL1 & HL').
    { assert (∀ y, y ∈ [x1] ↔ y ∈ cells_in F1 old1) as Hl.
      { intros y. rewrite elem_of_list_singleton. apply size_1_elem_of in Hs1 as [z Hz].
        assert (x1 ∈ cells_in F1 old1) as Hin by by apply elem_of_cells_in.
        rewrite Hz in *. apply elem_of_singleton in Hin as ->. by rewrite elem_of_singleton. }
      destruct Hcase as [(k & [Hbk Hmk] & ->)|[Hno ->]].
      - destruct (re_beside_in F1 F (m old1) {[x1]} k HR) as [k1 ->]; [by rewrite (mp_single f)|].
        exists (<[x1 := k1]> F1). split_and!; [|by apply re_insert|by rewrite insert_length|by rewrite insert_length].
        right. split; [by left|]. exists [x1]. split_and!; [apply NoDup_singleton|done|].
        econstructor; [|constructor]. split.
        + apply (re_beside _ _ _ _ _ HR). by rewrite (mp_single f).
        + intros k' Hk' Hne. apply (re_rather _ _ _ _ _ HR), Hmk.
          * rewrite <- (mp_single f). by apply (re_beside _ _ _ _ _ HR).
          * by rewrite m_inj.
      - exists F1. split_and!; [|done|done|done]. right. split; [by left|]. exists [x1]. split_and!; [apply NoDup_singleton|done|].
        apply obo_stay; [|constructor]. intros k Hk. apply (Hno (m k)). rewrite <- (mp_single f). by apply (re_beside _ _ _ _ _ HR). }
    destruct (IH Hnd Hsub' HI' F1') as (rest1 & F1f & S1 & S2 & S3 & S4 & S5 & S6); [by rewrite HL1, HL'|done|].
    exists (old1 :: rest1), F1f. split_and!; [|..|done|done|congruence].
    + rewrite fmap_cons. by apply sublist_skip.
    + intros k. by rewrite !elem_of_cons, m_inj, S2.
    + by econstructor.
  - (* elsewhere *)
    assert (ren F1 F' ∧ length F' = length F) as [HR' HL'].
    { destruct Hcase as [(k & [(_ & _ & x' & y & Hx' & He & Hy) _] & ->)|[_ ->]]; [|done]. apply elem_of_singleton in Hx' as ->.
      split; [|apply insert_length]. destruct HR as [R1 R2]. split.
      - intros z. rewrite list_lookup_insert_ne; [apply R1|]. intros ->. apply Hix. by apply (im_f f h _ _ HC).
      - intros z k'. destruct (decide (z = x)) as [->|Hne]; [|rewrite list_lookup_insert_ne by done; apply R2].
        rewrite list_lookup_insert by (by eapply lookup_lt_Some). intros [= ->]. exfalso. apply Hix.
        eapply (im_edge f h _ _ HC Hsym); [exact He|]. by eapply R2. }
    destruct (IH Hnd Hsub' HI' F1) as (rest1 & F1f & S1 & S2 & S3 & S4 & S5 & S6); [by rewrite HL'|done|].
    exists rest1, F1f. split_and!; [by apply sublist_cons| |done|done|done|done].
    intros k. rewrite elem_of_cons, S2. split; [by right|]. intros [<-|?]; [|done]. exfalso. apply Hix.
    destruct HR0 as [_ R2]. by eapply R2.
Qed.
End corr.
End call.

Lemma pc_uncorrected {A : Arith} f h i1 i : piece f h i1 i → piece f h (uncorrected i1) (uncorrected i).
Proof. intros HP. split; try apply HP. pose proof (pc_rest _ _ _ _ HP) as E. clear HP.
  unfold uncorrected, put_mesh in *. destruct i1, i. simpl in *. injection E. intros. by subst.
Qed.

Lemma singles_apart {A : Arith} {H : HashOrder} i o r0 e0 (sing : list nat) : good_call i o → (corr_size i <= 1)%Z →
  agglomerate_one_level (uncorrected i) o = (r0, e0) →
  (∀ k, k ∈ sing ↔ iso_id i o r0 k ∧ (Z.of_nat (size (cells_in (o_fc2cc r0) k)) <= corr_size i)%Z) →
  (∀ k k' x y, k ∈ sing → k' ∈ sing → k ≠ k' → o_fc2cc r0 !! x = Some k → o_fc2cc r0 !! y = Some k' → ¬ edge (in_row i) (in_col i) x y) ∧
  (∀ k, k ∈ sing → size (cells_in (o_fc2cc r0) k) = 1).
Proof.
  intros HG Hcs He0 Es.
  assert (∀ k, k ∈ sing → ¬ aniso_id (uncorrected i) o r0 k ∧ (Z.of_nat (size (cells_in (o_fc2cc r0) k)) < in_min i)%Z) as Hlow.
  { intros k Hk. apply Es in Hk as [[_ Hn] Hk]. split; [done|]. unfold corr_size in Hk. destruct (decide _); lia. }
  assert (∀ k k' x y, k ∈ sing → k ≠ k' → o_fc2cc r0 !! x = Some k → o_fc2cc r0 !! y = Some k' →
    edge (in_row i) (in_col i) x y → k' < k) as Hlt.
  { intros k k' x y Hk Hne Hx Hy Hxy. destruct (Hlow _ Hk) as [Hn Hm].
    destruct (C05_lem (uncorrected i) o r0 _ (good_uncorrected _ _ HG) eq_refl He0 k (cells_in (o_fc2cc r0) k) Hn
      (elem_of_cells_in _ _) Hm x y) as (c' & Hc' & Hy').
    - by apply elem_of_cells_in.
    - exact Hxy.
    - rewrite elem_of_cells_in. congruence.
    - by simplify_eq. }
  split.
  - intros k k' x y Hk Hk' Hne Hx Hy Hxy. pose proof (Hlt _ _ _ _ Hk Hne Hx Hy Hxy).
    assert (k < k'); [|lia]. eapply (Hlt k' k y x); try done. apply (wf_sym _ (gc_mesh _ _ HG)). exact Hxy.
  - intros k Hk. apply Es in Hk as [[[x Hx] _] Hk]. assert (size (cells_in (o_fc2cc r0) k) ≠ 0); [|lia].
    intros E0. apply size_empty_inv in E0. apply (not_elem_of_empty (C:=gset nat) x). rewrite <- E0.
    by apply elem_of_cells_in.
Qed.

(** If the results without correction correspond to each other, so do those with a
    correction of single cells. *)
Definition alike_wholes {A : Arith} f h i1 i o1 o : Prop := ∀ r1 r, whole i1 o1 r1 → whole i o r →
  ∃ m, (∀ j k, j < k → m j < m k) ∧ renamed f h m (o_fc2cc r1) (o_fc2cc r) ∧
    (∀ k x, o_fc2cc r1 !! x = Some k → aniso_id i o r (m k) ↔ aniso_id i1 o1 r1 k).

Lemma C63_gen {A : Arith} {H : HashOrder} f h i1 i o1 o r1 e1 r e :
  exact_arith → total_order A → good_call i o → good_call i1 o1 → simple_csr (in_row i) (in_col i) →
  sym_weights (in_row i) (in_col i) (in_val i) → extremes_fine i →
  in_corr i = false ∨ (corr_size i <= 1)%Z →
  piece f h i1 i → alike_wholes f h i1 i o1 o → alike_wholes f h (uncorrected i1) (uncorrected i) o1 o →
  agglomerate_one_level i o = (r, e) → agglomerate_one_level i1 o1 = (r1, e1) →
  e = Ok () ∧ e1 = Ok () ∧
  (∀ x y c d c1 d1, o_fc2cc r !! f x = Some c → o_fc2cc r !! f y = Some d → o_fc2cc r1 !! x = Some c1 →
    o_fc2cc r1 !! y = Some d1 → (c = d ↔ c1 = d1) ∧ (c < d ↔ c1 < d1)) ∧
  (∀ x y c, o_fc2cc r !! f x = Some c → o_fc2cc r !! y = Some c → ∃ z, y = f z).
Proof.
  intros EA HO HG HG1 Hs Hsw Hex Hc HP HW HW0 E E1. pose proof (gc_mesh _ _ HG) as WM.
  pose proof (pc_simple f h _ _ WM HP Hs) as Hs1.
  pose proof (pc_sym f h _ _ HP Hsw) as Hsw1. pose proof (pc_extremes f h _ _ WM HP Hsw EA Hex) as Hex1.
  destruct (C57_lem _ _ _ _ EA HO HG Hs Hsw Hex E) as (-> & R & _).
  destruct (C57_lem _ _ _ _ EA HO HG1 Hs1 Hsw1 Hex1 E1) as (-> & R1 & _).
  split; [done|]. split; [done|]. pose proof (pc_left _ _ _ _ HP) as hf.
  assert (in_corr i1 = in_corr i) as Ec by (by rewrite (pc_rest _ _ _ _ HP)).
  assert (corr_size i1 = corr_size i) as Es by (unfold corr_size; by rewrite (pc_rest _ _ _ _ HP)).
  unfold result_right in R, R1. rewrite Ec in R1. destruct (in_corr i) eqn:Ec'.
  2: { destruct (HW r1 r R1 R) as (m & Hm & [M1 M2] & _). split.
       - intros x y c d c1 d1. rewrite !M1. intros (k & Hx & ->)%fmap_Some (l & Hy & ->)%fmap_Some Hx1 Hy1. simplify_eq.
         by rewrite (m_inj m Hm), (m_lt m Hm).
       - intros x y c. rewrite M1. intros (k & Hx & ->)%fmap_Some Hy. exists (h y). symmetry. by eapply M2. }
  destruct Hc as [?|Hc]; [done|].
  destruct (agglomerate_one_level (uncorrected i) o) as [r0 e0] eqn:E0.
  destruct (agglomerate_one_level (uncorrected i1) o1) as [r01 e01] eqn:E01.
  destruct (C41_lem i o r0 e0 r _ HG Hs Ec' E0 E) as (-> & _ & HC).
  pose proof (whole_of_call (uncorrected i) o r0 _ HO EA (good_uncorrected _ _ HG) Hs Hsw Hex eq_refl E0) as W0.
  pose proof (whole_of_call (uncorrected i1) o1 r01 _ HO EA (good_uncorrected _ _ HG1) Hs1 Hsw1 Hex1 eq_refl E01) as W01.
  destruct (HW0 r01 r0 W01 W0)
    as (m & Hm & HR0 & Han). clear R R1.
  destruct HC as [(sing & F & R & Ss & Hsing & Hab & HR & EF) _ _].
  destruct (singles_apart i o r0 _ sing HG Hc E0 Hsing) as [Hap Hone].
  assert (NoDup sing) as Hnd.
  { clear -Ss. induction Ss as [|x l _ IH F]; constructor; [|done]. intros Hx. rewrite Forall_forall in F.
    apply F in Hx. lia. }
  assert (∀ k, iso_id i o r0 (m k) ↔ iso_id i1 o1 r01 k) as Hiso.
  { intros k. unfold iso_id. destruct HR0 as [M1 M2]. split.
    - intros [(y & Hy) Hn]. pose proof (M2 _ _ Hy) as Hi.
      rewrite <- Hi, M1 in Hy. apply fmap_Some in Hy as (k' & Hy & Ek). apply (m_inj m Hm) in Ek as ->.
      split; [by eexists|]. intros Hk. by apply Hn, (Han _ _ Hy).
    - intros [(y & Hy) Hn]. split; [exists (f y); by rewrite M1, Hy|]. intros Hk. by apply Hn, (Han _ _ Hy). }
  pose proof (pc_embeds f h _ _ WM HP Hsw) as HE.
  assert (∀ x, f x < length (o_fc2cc r0) ↔ x < length (o_fc2cc r01)) as HL.
  { intros x. rewrite <- !lookup_lt_is_Some. destruct HR0 as [-> _]. by rewrite fmap_is_Some. }
  destruct (re_all f h _ _ HE m Hm (wf_sym _ WM) _ _ Hiso (o_fc2cc r0) (o_fc2cc r01) sing HR0 Hap Hone sing _ F Hab Hnd (λ k Hk, Hk)
    ltac:(by split) (o_fc2cc r01) HL HR0) as (sing1 & F1 & S1 & S2 & S3 & S4 & S5 & S6).
  set (R1 := list_to_set (filter (λ k, m k ∈ R) sing1) : gset nat).
  assert (∀ k, k ∈ R1 ↔ m k ∈ R) as HR1.
  { intros k. unfold R1. rewrite elem_of_list_to_set, elem_of_list_filter. split; [by intros [? _]|]. intros Hk. split; [done|].
    apply S2. by apply HR. }
  assert (∀ y k, F !! y = Some k → k ∉ R) as Hfresh.
  { intros y k Hy Hk. apply HR in Hk as [Hk (x & Hx & Hn)]. pose proof (Hone _ Hk) as H1. apply size_1_elem_of in H1 as [z Hz].
    assert (o_fc2cc r0 !! y = Some k) as Hy0 by by eapply S5.
    apply elem_of_cells_in in Hx, Hy0. rewrite Hz in Hx, Hy0. apply elem_of_singleton in Hx, Hy0. congruence. }
  assert (∀ x k, F1 !! x = Some k → k ∉ R1) as Hfresh1.
  { intros x k Hx. rewrite HR1. apply (Hfresh (f x)). destruct S4 as [-> _]. by rewrite Hx. }
  assert (corrected_from i1 o1 r01 (Outs ((λ k, if decide (k ∈ R1) then k else rank R1 k) <$> F1) (o_idx r01) (o_lines r01))) as HC1.
  { split; [|done|done]. exists sing1, F1, R1. split_and!.
    - assert (StronglySorted (<) (m <$> sing1)) as Hss.
      { clear -S1 Ss. induction S1 as [|x l1 l Hl IH|x l1 l Hl IH]; [constructor| |].
        - apply StronglySorted_inv in Ss as [Ss F]. constructor; [by apply IH|].
          rewrite Forall_forall in *. intros y Hy. apply F. by eapply elem_of_sublist.
        - apply StronglySorted_inv in Ss as [Ss F]. by apply IH. }
      clear -Hss Hm. induction sing1 as [|k l IH]; [constructor|]. rewrite fmap_cons in Hss. apply StronglySorted_inv in Hss as [Hss F].
      constructor; [by apply IH|]. rewrite Forall_fmap in F. eapply Forall_impl; [exact F|]. intros j. simpl. apply (m_lt m Hm).
    - intros k. rewrite S2, Hsing, Hiso, Es. by rewrite (re_cells f h _ _ HE m Hm _ _ _ HR0), (mp_size f h hf).
    - done.
    - intros k. rewrite HR1, HR, S2. apply and_iff_compat_l. destruct HR0 as [M1 M2], S4 as [N1 N2]. split.
      + intros (y & Hy & Hn). pose proof (M2 _ _ Hy) as Hi. exists (h y). rewrite <- Hi, M1 in Hy. rewrite <- Hi, N1 in Hn. split.
        * apply fmap_Some in Hy as (k' & Hy & Ek). by apply (m_inj m Hm) in Ek as ->.
        * intros Hx. apply Hn. by rewrite Hx.
      + intros (x & Hx & Hn). exists (f x). rewrite M1, N1, Hx. split; [done|]. intros (k' & Hy & Ek)%fmap_Some.
        by apply (m_inj m Hm) in Ek as ->.
    - done. }
  apply (C51_corrected_lem i1 o1 r01 e01 r1 _ HG1 Hs1 Ec ltac:(by rewrite Es) E01 E1) in HC1.
  assert (∀ y c, o_fc2cc r !! y = Some c → ∃ k, F !! y = Some k ∧ c = rank R k) as Hr.
  { intros y c. rewrite EF, list_lookup_fmap. intros (k & Hk & ->)%fmap_Some. exists k. split; [done|].
    rewrite decide_False; [done|by eapply Hfresh]. }
  assert (∀ x c, o_fc2cc r1 !! x = Some c → ∃ k, F1 !! x = Some k ∧ c = rank R1 k) as Hr1.
  { intros x c. rewrite <- HC1. cbn [o_fc2cc]. rewrite list_lookup_fmap. intros (k & Hk & ->)%fmap_Some. exists k. split; [done|].
    rewrite decide_False; [done|by eapply Hfresh1]. }
  destruct S4 as [N1 N2].
  assert (∀ (S : gset nat) a b, a ∉ S → b ∉ S → rank S a < rank S b ↔ a < b) as Hrk.
  { intros S a b Ha' Hb'. split; [|intros; by apply rank_lt]. intros Hl. destruct (le_lt_dec b a) as [Hle|?]; [|done].
    pose proof (rank_le S b a Hle). lia. }
  assert (∀ (S : gset nat) a b, a ∉ S → b ∉ S → rank S a = rank S b ↔ a = b) as Hre.
  { intros S a b Ha' Hb'. split; [by apply rank_inj|by intros ->]. }
  split.
  - intros x y c d c1 d1 Hx Hy Hx1 Hy1.
    apply Hr1 in Hx1 as (k & Hk & ->). apply Hr1 in Hy1 as (l & Hl & ->).
    apply Hr in Hx as (k' & Hk' & ->). apply Hr in Hy as (l' & Hl' & ->).
    rewrite N1, Hk in Hk'. rewrite N1, Hl in Hl'. simpl in *. simplify_eq.
    pose proof (Hfresh1 _ _ Hk) as Q1. pose proof (Hfresh1 _ _ Hl) as Q2. pose proof Q1 as Q1'. pose proof Q2 as Q2'.
    rewrite HR1 in Q1', Q2'. by rewrite !Hrk, !Hre, (m_inj m Hm), (m_lt m Hm) by done.
  - intros x y c Hx Hy. apply Hr in Hx as (k & Hk & ->). apply Hr in Hy as (l & Hl & El).
    apply Hre in El as <-; [|by eapply Hfresh|by eapply Hfresh].
    rewrite N1 in Hk. apply fmap_Some in Hk as (k1 & _ & ->). exists (h y). symmetry. by eapply N2.
Qed.

Lemma C63_lem {A : Arith} {H : HashOrder} f h i1 i o r1 e1 r e :
  exact_arith → total_order A → good_call i o → simple_csr (in_row i) (in_col i) →
  sym_weights (in_row i) (in_col i) (in_val i) → extremes_fine i →
  in_corr i = false ∨ (corr_size i <= 1)%Z → ¬ aniso_on i o → in_order i = 0%Z →
  piece f h i1 i → keeps_ties f i1 →
  agglomerate_one_level i o = (r, e) → agglomerate_one_level i1 o = (r1, e1) →
  e = Ok () ∧ e1 = Ok () ∧
  (∀ x y c d c1 d1, o_fc2cc r !! f x = Some c → o_fc2cc r !! f y = Some d → o_fc2cc r1 !! x = Some c1 →
    o_fc2cc r1 !! y = Some d1 → (c = d ↔ c1 = d1) ∧ (c < d ↔ c1 < d1)) ∧
  (∀ x y c, o_fc2cc r !! f x = Some c → o_fc2cc r !! y = Some c → ∃ z, y = f z).
Proof.
  intros EA HO HG Hs Hsw Hex Hc Ha Hord HP HT E E1. pose proof (gc_mesh _ _ HG) as WM.
  assert (0 <= in_dim i <= 3)%Z as Hd3 by (destruct (ac_dim _ (gc_acc _ _ HG)); lia).
  apply (C63_gen f h i1 i o o r1 e1 r e EA HO HG (pc_good f h _ _ WM HP o Ha HG) Hs Hsw Hex Hc HP); [..|done|done].
  - intros q1 q W1 W. destruct (pc_whole f h i1 i WM HP Hsw HO EA HT o q1 q Ha Hord Hd3 W1 W) as (m & Hm & HR).
    exists m. split_and!; [done|done|]. intros k x _. unfold aniso_id. rewrite (pc_aniso f h i1 i HP). tauto.
  - intros q1 q W1 W. destruct (pc_whole f h (uncorrected i1) (uncorrected i) (gc_mesh _ _ (good_uncorrected _ _ HG)) (pc_uncorrected _ _ _ _ HP)
      Hsw HO EA HT o q1 q Ha Hord Hd3 W1 W) as (m & Hm & HR).
    exists m. split_and!; [done|done|]. intros k x _. unfold aniso_id. rewrite (pc_aniso f h (uncorrected i1) (uncorrected i) (pc_uncorrected _ _ _ _ HP)). split; intros [Hx _]; by destruct (Ha Hx).
Qed.
