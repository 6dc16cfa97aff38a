(** * ToolsU: proofs about the Python helpers (C72, C73) *)

From Verif Require Import Lib Spec SpecCoarse NbhP UtilM ToolsM SpecTools CoarseT CoarseU ToolsT ToolsC.

(** On a symmetric graph only wall cells without neighbours raise. *)
Lemma C72_sym_lem (n : nat) (idx col wall : list nat) : csr n idx col → csr_sym idx col → (∀ c, c ∈ wall → c < n) → 0 < n →
  (∀ x, x ∈ wall → ∃ y, edge idx col x y) →
  ∃ d, py_wall_distance (zs idx) (zs col) (zs wall) = POk d ∧ length d = n ∧
    (∀ dist0, wall_distance idx col wall dist0 = Ok d) ∧
    ∀ x v, d !! x = Some v →
      (v = (-1)%Z ∧ ∀ k, ¬ walk (edge idx col) (λ _, True) (λ c, c ∈ wall) k x) ∨
      ∃ k, v = Z.of_nat k ∧ at_dist (edge idx col) (λ _, True) (λ c, c ∈ wall) k x.
Proof.
  intros HC HS HW Hn Hnb. apply (C72_lem n idx col wall HC HW Hn). intros x k Hk.
  inversion Hk as [? Hb|? y ? Hy Hey _]; subst; [by apply Hnb|]. exists y. by apply HS.
Qed.

Section coarse.
Context {A : Arith}.
Implicit Types (f : fgraph) (f2c : list nat) (g : pgraph).

(** C73, the graph. *)
Lemma C73_lem f f2c : fine_ok f f2c → contiguous f2c → (∀ c, c ∈ f2c → weq (cell_vol f f2c c) w0 = false) →
  ∃ g m idx adj, py_coarse_of f f2c = POk g ∧ m ∈ f2c ∧ (∀ c, c ∈ f2c → c ≤ m) ∧
    pg_row g = zs idx ∧ pg_col g = zs adj ∧ csr (S m) idx adj ∧ simple_csr idx adj ∧
    (∀ a b, edge idx adj a b ↔ coarse_edge f f2c a b) ∧
    (csr_sym (fg_idx f) (fg_adj f) → csr_sym idx adj).
Proof.
  intros HF Hct Hv. destruct (py_build_ok f f2c HF Hct Hv) as (g & m & ds & Hg & Hm & Hall & HI).
  destruct (pinv_built f f2c m ds g Hall HI) as (idx & adj & [B1 B2 B3 B4 B5 B6 B7]).
  exists g, m, idx, adj. split_and!; try done.
  - intros i. split; [done|]. intros [He _]%B5. done.
  - intros Hs a b (Hab & x & y & Hx & Hy & He)%B5. apply B5. split; [congruence|]. exists y, x. split_and!; [done..|]. by apply Hs.
Qed.

(** C73, volumes, boundary faces and centres. *)
Lemma C73_data_lem f f2c : fine_ok f f2c → contiguous f2c → (∀ c, c ∈ f2c → weq (cell_vol f f2c c) w0 = false) →
  ∃ g, py_coarse_of f f2c = POk g ∧
    (∀ c, c < length (pg_vol g) ↔ c ∈ f2c) ∧ length (pg_bnd g) = length (pg_vol g) ∧ length (pg_cen g) = length (pg_vol g) ∧
    ∀ c, c ∈ f2c →
      pg_vol g !! c = Some (cell_vol f f2c c) ∧
      (∃ b, pg_bnd g !! c = Some b ∧ (∃ x, f2c !! x = Some c ∧ fg_bnd f !! x = Some b) ∧
        ∀ x b', f2c !! x = Some c → fg_bnd f !! x = Some b' → (b' <= b)%Z) ∧
      ∃ l, pg_cen g !! c = Some l ∧ (∀ c0, fg_cen f !! 0 = Some c0 → length l = length c0) ∧
        ∀ k t, l !! k = Some t → t = wdiv (cell_moment f f2c c k) (cell_vol f f2c c).
Proof.
  intros HF Hct Hv. destruct (py_build_ok f f2c HF Hct Hv) as (g & m & ds & Hg & Hm & Hall & [I1 I2 I3 I4 I5 I6 I7 I8 I9]).
  assert (∀ {T} (h : nat → T) c, c ≤ m → map h (seq 0 (S m)) !! c = Some (h c)) as Hlk.
  { intros T h c Hc. change ((h <$> seq 0 (S m)) !! c = Some (h c)). rewrite list_lookup_fmap, lookup_seq_lt by lia. done. }
  exists g. split; [done|]. rewrite I7, I8, I9, !map_length, seq_length. split_and!; [|done|done|].
  - intros c. split; [intros Hc; apply (contiguous_down f2c Hct m); [done|lia]|]. intros ?%Hall. lia.
  - intros c Hc. pose proof (Hall c Hc) as Hle. rewrite !Hlk by done. split_and!; [done| |].
    + exists (bnd_of f f2c c). split; [done|]. by apply (bnd_of_ok f f2c HF).
    + eexists. split; [done|]. rewrite map_length, seq_length. split.
      * intros c0 H0. by rewrite head_lookup, H0.
      * intros k t Hk. change (((λ k, wdiv (cell_moment f f2c c k) (cell_vol f f2c c)) <$> seq 0 (default 0 (length <$> head (fg_cen f)))) !! k = Some t) in Hk.
        apply list_lookup_fmap_inv in Hk as (j & -> & Hj). by apply lookup_seq in Hj as [-> _].
Qed.

(** C73, weights: read at the number of the neighbour. *)
Lemma C73_weights_lem f f2c : fine_ok f f2c → contiguous f2c → (∀ c, c ∈ f2c → weq (cell_vol f f2c c) w0 = false) →
  ∃ g idx adj, py_coarse_of f f2c = POk g ∧ pg_row g = zs idx ∧ pg_col g = zs adj ∧ length (pg_val g) = length adj ∧
    ∀ k a b p q, idx !! a = Some p → idx !! S a = Some q → p ≤ k < q → adj !! k = Some b →
      pg_val g !! k = Some (wsum_l (omap (λ k, y ← fg_adj f !! k; fg_wgt f !! y) (faces f f2c a b))) ∧
      ∀ w, length (fg_wgt f) = length (fg_adj f) → (∀ w', w' ∈ fg_wgt f → w' = w) →
        pg_val g !! k = Some (wsum_l (omap (λ k, fg_wgt f !! k) (faces f f2c a b))).
Proof.
  intros HF Hct Hv. destruct (py_build_ok f f2c HF Hct Hv) as (g & m & ds & Hg & Hm & Hall & HI).
  destruct (pinv_built f f2c m ds g Hall HI) as (idx & adj & [B1 B2 B3 B4 B5 B6 B7]).
  exists g, idx, adj. split_and!; [done..|]. intros k a b p q Hp Hq Hk Hb. pose proof (B7 k a b p q Hp Hq Hk Hb) as Hval.
  split; [done|]. intros w Hl Hc. rewrite Hval. do 2 f_equal.
  assert (coarse_edge f f2c a b) as [Hab _] by (apply B5; exists p, q, k; done).
  assert (∀ j, j ∈ faces f f2c a b → face_read f j = fg_wgt f !! j) as Hr.
  { intros j (x & p' & q' & y & Hx & Hp' & Hq' & Hj & Hy & Hyb)%elem_of_faces. unfold face_read. rewrite Hy. simpl.
    assert (y < length (fg_wgt f)) as Hlt.
    { apply (ff_wgt _ _ HF x y); [by exists p', q', j|]. congruence. }
    destruct (lookup_lt_is_Some_2 _ _ Hlt) as [w1' Hw1]. rewrite Hw1.
    apply lookup_lt_Some in Hy. rewrite <- Hl in Hy. destruct (lookup_lt_is_Some_2 _ _ Hy) as [w2 Hw2]. rewrite Hw2.
    f_equal. rewrite (Hc w1') by (by eapply elem_of_list_lookup_2). symmetry. apply Hc. by eapply elem_of_list_lookup_2. }
  revert Hr. clear. induction (faces f f2c a b) as [|j l IH]; intros Hr; [done|]. cbn [omap list_omap].
  rewrite (Hr j) by left. rewrite IH; [done|]. intros i Hi. apply Hr. by right.
Qed.

(** C73, numbers left out. *)
Lemma C73_assert_lem f f2c : fine_ok f f2c → ¬ contiguous f2c → (∀ c, c ∈ f2c → weq (cell_vol f f2c c) w0 = false) →
  py_coarse_of f f2c = PRaise AssertionError.
Proof. intros HF Hc Hv. by apply (py_build_hole f f2c HF). Qed.
End coarse.
