(** * PieceN: the numbers of coarse cells of the pieces add up (C63) *)

From Verif Require Import Main Spec SpecSub SpecFeat SpecHash SpecLine SpecMove SpecFeed SpecWhole SpecRenum SpecReline SpecPiece
  ApiP ApiT PieceU PieceL.

(** The coarse cells [F1] of a piece are those of the cells of the piece in [F]. *)
Record part_of (f : nat → nat) (F1 F : list nat) : Prop := {
  po_len : ∀ x, f x < length F ↔ x < length F1;
  po_same : ∀ x y c d c1 d1, F !! f x = Some c → F !! f y = Some d → F1 !! x = Some c1 → F1 !! y = Some d1 → (c = d ↔ c1 = d1);
  po_in : ∀ x y c, F !! f x = Some c → F !! y = Some c → ∃ z, y = f z;
}.
(** The number in [F] of coarse cell [c] of the piece. *)
Definition whole_id (f : nat → nat) (F1 F : list nat) (c : nat) : nat :=
  default 0 (r ← list_find (eq c) F1; F !! f r.1).
Section one.
Context (f : nat → nat) (F1 F : list nat) (P : part_of f F1 F).
Lemma whole_id_at c : c ∈ F1 → ∃ x, F1 !! x = Some c ∧ F !! f x = Some (whole_id f F1 F c).
Proof.
  intros Hc. destruct (list_find_elem_of (eq c) F1 c Hc eq_refl) as [[x c'] Hx].
  pose proof Hx as (Hl & <- & _)%list_find_Some. exists x. split; [done|].
  unfold whole_id. rewrite Hx. simpl. destruct (lookup_lt_is_Some_2 F (f x)) as [d ->]; [|done].
  apply (po_len _ _ _ P). by eapply lookup_lt_Some.
Qed.
Lemma whole_id_inj c d : c ∈ F1 → d ∈ F1 → whole_id f F1 F c = whole_id f F1 F d → c = d.
Proof.
  intros (x & Hx & Hx')%whole_id_at (y & Hy & Hy')%whole_id_at E.
  by apply (po_same _ _ _ P x y _ _ _ _ Hx' Hy' Hx Hy).
Qed.
Lemma whole_id_ex x c : F !! f x = Some c → ∃ c1, c1 ∈ F1 ∧ c = whole_id f F1 F c1.
Proof.
  intros Hx. destruct (lookup_lt_is_Some_2 F1 x) as [c1 Hc]; [by eapply (po_len _ _ _ P), lookup_lt_Some|].
  assert (c1 ∈ F1) as Hin by (by eapply elem_of_list_lookup_2). exists c1. split; [done|].
  apply whole_id_at in Hin as (y & Hy & Hy'). by apply (po_same _ _ _ P x y _ _ _ _ Hx Hy' Hc Hy).
Qed.
End one.

Lemma add_up f f' F1 F2 F m m1 m2 : part_of f F1 F → part_of f' F2 F →
  (∀ y, y < length F → (∃ x, y = f x) ↔ ¬ ∃ x, y = f' x) →
  (∀ c, c ∈ F ↔ c < m) → (∀ c, c ∈ F1 ↔ c < m1) → (∀ c, c ∈ F2 ↔ c < m2) →
  m = m1 + m2.
Proof.
  intros P P' Hd Hm H1 H2.
  rewrite <- (seq_length m 0), <- (seq_length m1 0), <- (seq_length m2 0).
  rewrite <- (fmap_length (whole_id f F1 F) (seq 0 m1)), <- (fmap_length (whole_id f' F2 F) (seq 0 m2)), <- app_length.
  apply Permutation_length, NoDup_Permutation; [apply NoDup_seq| |].
  - apply NoDup_app. split_and!.
    + apply NoDup_fmap_2_strong; [|apply NoDup_seq]. intros c d Hc%elem_of_seq Hd'%elem_of_seq. apply (whole_id_inj _ _ _ P); apply H1; lia.
    + intros c (c1 & -> & Hc1%elem_of_seq)%elem_of_list_fmap (c2 & E & Hc2%elem_of_seq)%elem_of_list_fmap.
      destruct (whole_id_at _ _ _ P c1) as (x & _ & Hx); [apply H1; lia|].
      destruct (whole_id_at _ _ _ P' c2) as (y & _ & Hy); [apply H2; lia|]. rewrite <- E in Hy.
      destruct (po_in _ _ _ P' _ _ _ Hy Hx) as [z Hz]. apply lookup_lt_Some in Hx.
      destruct (Hd _ Hx) as [Hn _]. apply Hn; [by exists x|by exists z].
    + apply NoDup_fmap_2_strong; [|apply NoDup_seq]. intros c d Hc%elem_of_seq Hd'%elem_of_seq. apply (whole_id_inj _ _ _ P'); apply H2; lia.
  - intros c. rewrite elem_of_app, !elem_of_list_fmap, elem_of_seq. split.
    + intros [_ Hc]. apply Hm, elem_of_list_lookup in Hc as [y Hy]. pose proof (lookup_lt_Some _ _ _ Hy) as Hlt.
      destruct (decide (y ∈ f' <$> seq 0 (length F2))) as [(x & -> & _)%elem_of_list_fmap|Hn].
      * right. destruct (whole_id_ex _ _ _ P' _ _ Hy) as (c1 & Hc1 & ->). exists c1. split; [done|]. apply H2 in Hc1. apply elem_of_seq. lia.
      * left. destruct (proj2 (Hd y Hlt)) as [x ->].
        { intros [x ->]. apply Hn, elem_of_list_fmap. exists x. split; [done|]. apply elem_of_seq. split; [lia|]. by apply (po_len _ _ _ P'). }
        destruct (whole_id_ex _ _ _ P _ _ Hy) as (c1 & Hc1 & ->). exists c1. split; [done|]. apply H1 in Hc1. apply elem_of_seq. lia.
    + assert (∀ c, c ∈ F → 0 ≤ c < 0 + m) as Hin by (intros c' Hc'%Hm; lia).
      intros [(c1 & -> & Hc1%elem_of_seq)|(c1 & -> & Hc1%elem_of_seq)]; apply Hin.
      * destruct (whole_id_at _ _ _ P c1) as (x & _ & Hx); [apply H1; lia|]. by eapply elem_of_list_lookup_2.
      * destruct (whole_id_at _ _ _ P' c1) as (x & _ & Hx); [apply H2; lia|]. by eapply elem_of_list_lookup_2.
Qed.

Lemma thresh_corr {A : Arith} i : accepted i → (corr_size i <= 1)%Z → thresh_one i.
Proof. intros HA. unfold corr_size, thresh_one. destruct HA. case_decide; lia. Qed.
Lemma count_ids {A : Arith} {H : HashOrder} i o r e : good_call i o → in_corr i = false ∨ (corr_size i <= 1)%Z →
  agglomerate_one_level i o = (r, e) → length (o_fc2cc r) = in_n i ∧ ∃ m, ∀ c, c ∈ o_fc2cc r ↔ c < m.
Proof.
  intros HG Hc E. split.
  - destruct (C01_lem i o HG) as (r' & E' & Hl). rewrite E in E'. by simplify_eq.
  - destruct (C02_lem i o r e HG) as [m Hm]; [destruct Hc as [?|Hc]; [by left|right; apply thresh_corr; [apply HG|done]]|done|].
    exists m. intros c. by rewrite Hm, elem_of_list_lookup.
Qed.
Lemma C63_add_gen {A : Arith} {H : HashOrder} f f' i1 i2 i o1 o2 o r1 e1 r2 e2 r e :
  good_call i o → good_call i1 o1 → good_call i2 o2 → in_corr i = false ∨ (corr_size i <= 1)%Z →
  in_corr i1 = false ∨ (corr_size i1 <= 1)%Z → in_corr i2 = false ∨ (corr_size i2 <= 1)%Z →
  (∀ x, f x < in_n i ↔ x < in_n i1) → (∀ x, f' x < in_n i ↔ x < in_n i2) →
  (∀ y, y < in_n i → (∃ x, y = f x) ↔ ¬ ∃ x, y = f' x) →
  agglomerate_one_level i o = (r, e) → agglomerate_one_level i1 o1 = (r1, e1) → agglomerate_one_level i2 o2 = (r2, e2) →
  (∀ x y c d c1 d1, o_fc2cc r !! f x = Some c → o_fc2cc r !! f y = Some d → o_fc2cc r1 !! x = Some c1 →
    o_fc2cc r1 !! y = Some d1 → (c = d ↔ c1 = d1) ∧ (c < d ↔ c1 < d1)) →
  (∀ x y c, o_fc2cc r !! f x = Some c → o_fc2cc r !! y = Some c → ∃ z, y = f z) →
  (∀ x y c d c1 d1, o_fc2cc r !! f' x = Some c → o_fc2cc r !! f' y = Some d → o_fc2cc r2 !! x = Some c1 →
    o_fc2cc r2 !! y = Some d1 → (c = d ↔ c1 = d1) ∧ (c < d ↔ c1 < d1)) →
  (∀ x y c, o_fc2cc r !! f' x = Some c → o_fc2cc r !! y = Some c → ∃ z, y = f' z) →
  ∃ m1 m2, (∀ c, c ∈ o_fc2cc r1 ↔ c < m1) ∧ (∀ c, c ∈ o_fc2cc r2 ↔ c < m2) ∧ (∀ c, c ∈ o_fc2cc r ↔ c < m1 + m2).
Proof.
  intros HG HG1 HG2 Hc Hc1 Hc2 Hf Hf' Hd E E1 E2 S1 I1 S2 I2.
  destruct (count_ids i o r e HG Hc E) as (L & m & Hm). destruct (count_ids i1 o1 r1 e1 HG1 Hc1 E1) as (L1 & m1 & Hm1).
  destruct (count_ids i2 o2 r2 e2 HG2 Hc2 E2) as (L2 & m2 & Hm2). exists m1, m2. split; [done|]. split; [done|].
  assert (m = m1 + m2) as <-; [|done].
  apply (add_up f f' (o_fc2cc r1) (o_fc2cc r2) (o_fc2cc r)); [..|done|done|done].
  - split; [by rewrite L, L1| |exact I1]. intros x y c d c1 d1 ? ? ? ?. by eapply S1.
  - split; [by rewrite L, L2| |exact I2]. intros x y c d c1 d1 ? ? ? ?. by eapply S2.
  - by rewrite L.
Qed.
Lemma pc_corr {A : Arith} f h i1 i : piece f h i1 i → in_corr i1 = in_corr i ∧ corr_size i1 = corr_size i.
Proof. intros P. by rewrite (pc_rest _ _ _ _ P). Qed.

Lemma C63_add_lem {A : Arith} {H : HashOrder} f h f' h' i1 i2 i o r1 e1 r2 e2 r e :
  exact_arith → total_order A → good_call i o → simple_csr (in_row i) (in_col i) →
  sym_weights (in_row i) (in_col i) (in_val i) → extremes_fine i →
  in_corr i = false ∨ (corr_size i <= 1)%Z → ¬ aniso_on i o → in_order i = 0%Z →
  piece f h i1 i → keeps_ties f i1 → piece f' h' i2 i → keeps_ties f' i2 →
  (∀ y, y < in_n i → (∃ x, y = f x) ↔ ¬ ∃ x, y = f' x) →
  agglomerate_one_level i o = (r, e) → agglomerate_one_level i1 o = (r1, e1) → agglomerate_one_level i2 o = (r2, e2) →
  ∃ m1 m2, (∀ c, c ∈ o_fc2cc r1 ↔ c < m1) ∧ (∀ c, c ∈ o_fc2cc r2 ↔ c < m2) ∧ (∀ c, c ∈ o_fc2cc r ↔ c < m1 + m2).
Proof.
  intros Hex Ht HG Hs Hw Hf Hc Ha Ho P K P' K' Hd E E1 E2.
  destruct (C63_lem f h i1 i o r1 e1 r e Hex Ht HG Hs Hw Hf Hc Ha Ho P K E E1) as (_ & _ & S1 & I1).
  destruct (C63_lem f' h' i2 i o r2 e2 r e Hex Ht HG Hs Hw Hf Hc Ha Ho P' K' E E2) as (_ & _ & S2 & I2).
  destruct (pc_corr _ _ _ _ P) as [Q1 Q2], (pc_corr _ _ _ _ P') as [Q3 Q4].
  apply (C63_add_gen f f' i1 i2 i o o o r1 e1 r2 e2 r e);
    [done|eapply pc_good; [apply HG|exact P|done|done]|eapply pc_good; [apply HG|exact P'|done|done]|done|by rewrite Q1, Q2|by rewrite Q3, Q4
    |apply (pc_cells _ _ _ _ P)|apply (pc_cells _ _ _ _ P')|done..].
Qed.
Lemma C63_add_lines_lem {A : Arith} {H : HashOrder} f h f' h' i1 i2 i o1 o2 o r1 e1 r2 e2 r e :
  exact_arith → total_order A → equal_ties → good_call i o → good_call i1 o1 → good_call i2 o2 → simple_csr (in_row i) (in_col i) →
  sym_weights (in_row i) (in_col i) (in_val i) → extremes_fine i →
  in_corr i = false ∨ (corr_size i <= 1)%Z → aniso_on i o → in_order i = 0%Z →
  piece f h i1 i → keeps_ties f i1 → (in_build i = true → keeps_neighbours f i1) →
  piece f' h' i2 i → keeps_ties f' i2 → (in_build i = true → keeps_neighbours f' i2) →
  (in_build i = false → lines_among f (split_lines (o_idx o1) (o_lines o1)) (split_lines (o_idx o) (o_lines o)) ∧
    lines_among f' (split_lines (o_idx o2) (o_lines o2)) (split_lines (o_idx o) (o_lines o))) →
  (∀ x, nb_list (in_row i) (in_col i) (f x) = f <$> nb_list (in_row i1) (in_col i1) x) →
  (∀ x, nb_list (in_row i) (in_col i) (f' x) = f' <$> nb_list (in_row i2) (in_col i2) x) →
  (∀ y, y < in_n i → (∃ x, y = f x) ↔ ¬ ∃ x, y = f' x) →
  agglomerate_one_level i o = (r, e) → agglomerate_one_level i1 o1 = (r1, e1) → agglomerate_one_level i2 o2 = (r2, e2) →
  ∃ m1 m2, (∀ c, c ∈ o_fc2cc r1 ↔ c < m1) ∧ (∀ c, c ∈ o_fc2cc r2 ↔ c < m2) ∧ (∀ c, c ∈ o_fc2cc r ↔ c < m1 + m2).
Proof.
  intros Hex Ht He HG HG1 HG2 Hs Hw Hf Hc Ha Ho P K N P' K' N' HL F1 F2 Hd E E1 E2.
  destruct (C63_lines_lem f h i1 i o1 o r1 e1 r e Hex Ht He HG HG1 Hs Hw Hf Hc Ha Ho P K N (λ b, proj1 (HL b)) F1 E E1) as (_ & _ & S1 & I1).
  destruct (C63_lines_lem f' h' i2 i o2 o r2 e2 r e Hex Ht He HG HG2 Hs Hw Hf Hc Ha Ho P' K' N' (λ b, proj2 (HL b)) F2 E E2) as (_ & _ & S2 & I2).
  destruct (pc_corr _ _ _ _ P) as [Q1 Q2], (pc_corr _ _ _ _ P') as [Q3 Q4].
  apply (C63_add_gen f f' i1 i2 i o1 o2 o r1 e1 r2 e2 r e); [done|done|done|done|by rewrite Q1, Q2|by rewrite Q3, Q4
    |apply (pc_cells _ _ _ _ P)|apply (pc_cells _ _ _ _ P')|done..].
Qed.
