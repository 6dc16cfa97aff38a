(** * ReordU: calls with the faces listed in another order (C58) *)

From Verif Require Import Features Iso Main Spec SpecSub SpecFeat SpecAR SpecBest SpecFront SpecPool SpecGrow SpecFeed SpecHash
  SpecLine SpecMove SpecWhole SpecReord GraphP FeatT ApiP ApiT RuleT WholeU ReordT.

Section reord.
Context {A : Arith}.
Implicit Types (i : input) (o r : outs).

Lemma entries_fst row col (val : list W) x : length val = length col → (entries row col val x).*1 = nb_list row col x.
Proof.
  intros Hl. unfold entries, nb_list. destruct (row !! x) as [a|]; [|done]. destruct (row !! S x) as [b|]; [|done].
  rewrite fmap_take, fmap_drop, fst_zip by lia. done.
Qed.

Section one.
Context i row col val (WM : wf_mesh i) (HR : relisted i row col val).
Notation i' := (put_csr i row col val).

Lemma relisted_n : in_n i' = in_n i.
Proof. unfold in_n at 1. simpl. rewrite (csr_len _ _ _ (rl_csr _ _ _ _ HR)). lia. Qed.
Lemma relisted_same : same_faces (mesh_of i) (mesh_of i').
Proof.
  split; try done; simpl; intros x; [symmetry; apply HR|].
  rewrite <- (entries_fst _ _ _ x (wf_val _ WM)), <- (entries_fst _ _ _ x (rl_val _ _ _ _ HR)).
  apply fmap_Permutation. symmetry. apply HR.
Qed.
Lemma relisted_edge x y : edge row col x y ↔ edge (in_row i) (in_col i) x y.
Proof. symmetry. apply (sf_edge _ _ relisted_same). Qed.

Lemma relisted_mesh : wf_mesh i'.
Proof.
  split; rewrite ?relisted_n; try apply WM; try apply HR.
  intros x y. simpl. rewrite !relisted_edge. apply WM.
Qed.
Lemma relisted_good o : good_call i o → good_call i' o.
Proof.
  intros [_ HA H1 Hb Hg]. split; rewrite ?relisted_n; try done.
  - apply relisted_mesh.
  - destruct HA. by split.
  - intros Ha Hbu. destruct (Hb Ha Hbu) as [HB HL]. split; [|done].
    destruct HB as [?|[HB|?]]; [by left| |by right; right]. right. left. intros c Hc. destruct (HB c Hc) as [y Hy].
    exists y. by apply relisted_edge.
Qed.
Lemma relisted_simple : simple_csr (in_row i) (in_col i) → simple_csr row col.
Proof.
  intros Hs x. destruct (Hs x) as [H1 H2]. rewrite relisted_edge. split; [|done].
  by rewrite <- (sf_nb _ _ relisted_same x).
Qed.
Lemma relisted_sym : sym_weights (in_row i) (in_col i) (in_val i) → sym_weights row col val.
Proof.
  intros Hs x y. rewrite <- (sf_to _ _ relisted_same (λ z, z = y) x), <- (sf_to _ _ relisted_same (λ z, z = x) y). apply Hs.
Qed.
Lemma relisted_extremes : extremes_fine i → extremes_fine i'.
Proof.
  intros HX Ha Y. rewrite relisted_n. intros HY. apply (sf_extremes _ _ relisted_same). by apply HX.
Qed.

Lemma relisted_lines o lines : lines_right i o lines → lines_right i' o lines.
Proof.
  unfold lines_right. simpl. destruct (in_build i); [|done].
  intros (ss & F & H1 & H2 & H3 & H4 & H5). exists ss, F. split_and!; try done.
  - intros x. rewrite H3. apply (sf_anisotropic _ _ relisted_same).
  - by apply (sf_all_built _ _ relisted_same).
Qed.

Lemma relisted_neighbours o lines walked aggl : same_along_lines i o row col →
  (aniso_on i o → lines_right i o lines) → (¬ aniso_on i o → lines = []) → Forall2 (oriented i) lines walked →
  line_neighbours i' aggl walked = line_neighbours i aggl walked.
Proof.
  intros HL H1 H2 HW. unfold line_neighbours. do 2 f_equal. apply list_fmap_ext. intros _ x Hx%elem_of_list_lookup_2.
  apply elem_of_list_filter in Hx as [_ Hx]. simpl.
  assert (x ∈ concat lines) as Hx'.
  { apply elem_of_concat in Hx as (l & Hx & Hl%elem_of_list_lookup). destruct Hl as [j Hl].
    destruct (Forall2_lookup_r _ _ _ _ _ HW Hl) as (l0 & Hl0 & Ho). apply elem_of_concat. exists l0.
    split; [|by eapply elem_of_list_lookup_2].
    destruct (oriented_or _ _ _ Ho) as [El|El]; rewrite El in Hx; [done|]. by apply elem_of_reverse. }
  destruct (aniso_on_or i o) as [Ha|Ha]; [exact (HL Ha lines x (H1 Ha) Hx')|]. rewrite (H2 Ha) in Hx'. by apply elem_of_nil in Hx'.
Qed.

Lemma relisted_whole o r : exact_arith → same_along_lines i o row col → whole i o r → whole i' o r.
Proof.
  intros EA HL (lines & walked & pieces & ip & d & aggl & p & Xs & L1 & L2 & Hw & Hp & Hip & Hd & La & Fa & St & Sq & Lf & Fc & An & Af).
  exists lines, walked, pieces, ip, d, aggl, p, Xs. rewrite relisted_n. split_and!; try done.
  - intros Ha. by apply relisted_lines, L1.
  - by destruct Hip.
  - rewrite (relisted_neighbours o lines); done.
  - by apply (sf_sequence _ _ relisted_same EA).
Qed.
End one.

Lemma relisted_right i o row col val r : exact_arith → wf_mesh i → relisted i row col val → same_along_lines i o row col →
  result_right i o r → result_right (put_csr i row col val) o r.
Proof.
  intros EA WM HR HL. unfold result_right. simpl. destruct (in_corr i); [|by apply relisted_whole].
  intros (r0 & HW & [(sing & f1 & R & S1 & S2 & S3 & S4 & S5) C2 C3]). exists r0. split.
  - change (whole (put_csr (uncorrected i) row col val) o r0). apply relisted_whole; try done.
    + destruct WM. by split.
    + destruct HR. by split.
  - split; [|done..]. exists sing, f1, R. split_and!; try done.
    by apply (sf_absorbed_all _ _ (relisted_same i row col val WM HR)).
Qed.
End reord.

Lemma C58_lem {A : Arith} {H : HashOrder} i o row col val :
  exact_arith → total_order A → good_call i o → simple_csr (in_row i) (in_col i) →
  sym_weights (in_row i) (in_col i) (in_val i) → extremes_fine i →
  in_corr i = false ∨ (corr_size i <= 1)%Z →
  relisted i row col val → same_along_lines i o row col →
  agglomerate_one_level (put_csr i row col val) o = agglomerate_one_level i o.
Proof.
  intros EA HO HG Hs Hsw Hex Hc HR HL. pose proof (gc_mesh _ _ HG) as WM.
  destruct (agglomerate_one_level i o) as [r e] eqn:E. destruct (agglomerate_one_level (put_csr i row col val) o) as [r' e'] eqn:E'.
  destruct (C57_lem _ _ _ _ EA HO HG Hs Hsw Hex E) as (-> & R1 & _).
  destruct (C57_lem _ _ _ _ EA HO (relisted_good i row col val WM HR o HG) (relisted_simple i row col val WM HR Hs)
    (relisted_sym i row col val WM HR Hsw) (relisted_extremes i row col val WM HR Hex) E') as (-> & _ & R2).
  f_equal. symmetry. apply R2; [done|]. by apply relisted_right.
Qed.
