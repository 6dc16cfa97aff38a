(** * PieceE: examples and counter-examples for C63 *)

From Coq Require Import QArith Qcanon.
From stdpp Require Import sorting.
From Verif Require Import Inst Spec SpecSub SpecFeat SpecAR SpecHash SpecUse SpecLine SpecMove SpecFeed SpecWhole SpecRenum SpecPiece GraphP FeatE BestE
  ApiE GrowE HashE UseE FeedE MoveE WholeU WholeE ReordE RenumU RenumE PieceU.
#[local] Open Scope Z_scope.
#[local] Open Scope nat_scope.
#[local] Existing Instance qarith | 100.
#[local] Existing Instance ord_id | 100.

(** The cells of the piece given by a list, [n] being the number of cells of the
    whole mesh, and the inverse. *)
Definition into (l : list nat) (n x : nat) : nat := default (n + x) (l !! x).
Definition back (k : list nat) (n y : nat) : nat := default (y - n) (k !! y).
(** The piece by itself (all the faces have weight 1). *)
Definition cut (l k : list nat) (i : @input qarith) : @input qarith :=
  let adj := map (λ y, map (back k (in_n i)) (nb_list (in_row i) (in_col i) y)) l in
  put_mesh i (row_of 0 adj) (concat adj) (replicate (length (concat adj)) (qc 1 1)) (carry_list l (in_vol i)) (carry_list l (in_cen i))
    (carry_list l (in_prio i)) (omap (λ y, if decide (y ∈ l) then Some (back k (in_n i) y) else None) (in_compl i)) (carry_list l (in_bnd i)).

Definition parts (l k : list nat) (n : nat) : bool :=
  bool_decide (length k = n) && bool_decide (0 < length l) &&
  forallb (λ x, bool_decide (back k n (into l n x) = x) && bool_decide (into l n x < n)) (seq 0 (length l)).
Section check.
Context (l k : list nat) (n : nat) (HI : parts l k n = true).
Lemma parts_len : length k = n ∧ 0 < length l ∧ ∀ x, x < length l → back k n (into l n x) = x ∧ into l n x < n.
Proof using HI.
  revert HI. unfold parts. rewrite !andb_true_iff, !bool_decide_eq_true, forallb_forall. intros [[H1 H2] H3].
  split_and!; [done|done|]. intros x Hx. specialize (H3 x ltac:(apply in_seq; lia)).
  rewrite !andb_true_iff, !bool_decide_eq_true in H3. tauto.
Qed.
Lemma into_out x : ¬ x < length l → into l n x = n + x.
Proof using. clear HI. intros Hx. unfold into. by rewrite lookup_ge_None_2 by lia. Qed.
Lemma into_left x : back k n (into l n x) = x.
Proof using HI.
  destruct parts_len as (H1 & H2 & H3). destruct (decide (x < length l)) as [Hx|Hx]; [by apply H3|].
  rewrite into_out by done. unfold back. rewrite lookup_ge_None_2 by lia. simpl. lia.
Qed.
Lemma into_cells x : into l n x < n ↔ x < length l.
Proof using HI.
  destruct parts_len as (H1 & H2 & H3). destruct (decide (x < length l)) as [Hx|Hx].
  - split; [done|]. intros _. by apply H3.
  - rewrite into_out by done. lia.
Qed.
Lemma into_lookup {B} (a b : list B) : length a = length l → length b = n →
  (∀ x, x < length l → b !! into l n x = a !! x) → ∀ x, b !! into l n x = a !! x.
Proof using HI.
  intros Ha Hb HL x. destruct (decide (x < length l)) as [Hx|Hx]; [by apply HL|].
  rewrite into_out by done. by rewrite !lookup_ge_None_2 by lia.
Qed.
End check.

Lemma piece_check (i i1 : @input qarith) l k m :
  parts l k (in_n i) = true → in_n i1 = length l → in_val i = replicate m (qc 1 1) → m = length (in_col i) →
  in_val i1 = replicate (length (in_col i1)) (qc 1 1) →
  csr (length l) (in_row i1) (in_col i1) → length (in_row i) = S (in_n i) →
  forallb (λ x, bool_decide (sorted_l (nb_list (in_row i) (in_col i) (into l (in_n i) x)) =
    sorted_l (into l (in_n i) <$> nb_list (in_row i1) (in_col i1) x))) (seq 0 (length l)) = true →
  (∀ x, in_vol i !! into l (in_n i) x = in_vol i1 !! x) → (∀ x, in_cen i !! into l (in_n i) x = in_cen i1 !! x) →
  (∀ x, in_prio i !! into l (in_n i) x = in_prio i1 !! x) → (∀ x, in_bnd i !! into l (in_n i) x = in_bnd i1 !! x) →
  forallb (λ y, bool_decide (y < in_n i)) (in_compl i) = true → forallb (λ x, bool_decide (x < length l)) (in_compl i1) = true →
  forallb (λ x, bool_decide (bool_decide (x ∈ in_compl i1) = bool_decide (into l (in_n i) x ∈ in_compl i))) (seq 0 (length l)) = true →
  i1 = put_mesh i (in_row i1) (in_col i1) (in_val i1) (in_vol i1) (in_cen i1) (in_prio i1) (in_compl i1) (in_bnd i1) →
  piece (into l (in_n i)) (back k (in_n i)) i1 i.
Proof.
  intros HI Hl Hv Hm Hv' Hc Hn Hf H1 H2 H3 H4 H5 H6 H7 H8. destruct (parts_len _ _ _ HI) as (Hk & Hp & _).
  split; try done.
  - by eapply into_left.
  - lia.
  - intros x. rewrite Hl. by eapply into_cells.
  - by rewrite Hl.
  - by rewrite Hv', replicate_length.
  - intros x. rewrite Hv, Hv'.
    rewrite (entries_const _ _ _ _ _ eq_refl), (entries_const _ _ _ _ _ Hm), <- list_fmap_compose.
    change (prod_map (into l (in_n i)) id ∘ (λ y, (y, qc 1 1))) with ((λ y, (y, qc 1 1)) ∘ into l (in_n i)). rewrite list_fmap_compose.
    apply fmap_Permutation. destruct (decide (x < length l)) as [Hx|Hx].
    + rewrite forallb_forall in Hf. specialize (Hf x ltac:(apply in_seq; lia)). apply bool_decide_eq_true in Hf.
      unfold sorted_l in Hf. by rewrite <- (merge_sort_Permutation (≤) (nb_list _ _ (into _ _ x))), Hf, merge_sort_Permutation.
    + rewrite into_out by done.
      unfold nb_list. rewrite (lookup_ge_None_2 (in_row i1) (S x)) by (rewrite (csr_len _ _ _ Hc); lia).
      rewrite (lookup_ge_None_2 (in_row i) (S (in_n i + x))) by lia. by destruct (in_row i1 !! x), (in_row i !! (in_n i + x)).
  - intros x. rewrite forallb_forall in H5, H6, H7. destruct (decide (x < length l)) as [Hx|Hx].
    + specialize (H7 x ltac:(apply in_seq; lia)). rewrite bool_decide_eq_true in H7.
      by rewrite <- (bool_decide_eq_true (x ∈ in_compl i1)), H7, bool_decide_eq_true.
    + rewrite into_out by done. split; intros HX.
      * apply elem_of_list_In, H6, bool_decide_eq_true in HX. lia.
      * apply elem_of_list_In, H5, bool_decide_eq_true in HX. lia.
Qed.

Ltac piece_tac i l k m :=
  let HI := fresh "HI" in
  assert (parts l k (in_n i) = true) as HI by (vm_compute; reflexivity);
  apply (piece_check i (cut l k i) l k m);
  [vm_compute; reflexivity|vm_compute; reflexivity|vm_compute; reflexivity|vm_compute; reflexivity|vm_compute; reflexivity
  |apply csr_check_ok; vm_compute; reflexivity|vm_compute; reflexivity|vm_compute; reflexivity
  |apply (into_lookup l k _ HI); [vm_compute; reflexivity|vm_compute; reflexivity|cells]
  |apply (into_lookup l k _ HI); [vm_compute; reflexivity|vm_compute; reflexivity|cells]
  |apply (into_lookup l k _ HI); [vm_compute; reflexivity|vm_compute; reflexivity|cells]
  |apply (into_lookup l k _ HI); [vm_compute; reflexivity|vm_compute; reflexivity|cells]
  |vm_compute; reflexivity|vm_compute; reflexivity|vm_compute; reflexivity|reflexivity].

(** Two paths of five cells, with their cells in turn, and one cell alone
    without neighbours. *)
Definition two_paths : @input qarith :=
  put_prio (mk_input [[2];[3];[0;4];[1;5];[2;6];[3;7];[4;8];[5;9];[6];[7];[]] [2;2;1;0;0;1;1;0;2;1;2]%Z 0 true 2 2 2 1)
    (map (λ z, qc z 1) [1;1;3;2;7;4;5;5;1;6;2]%Z).
Definition l_a : list nat := [0;2;4;6;8]. Definition k_a : list nat := [0;9;1;9;2;9;3;9;4;9;9].
Definition l_b : list nat := [9;7;5;3;1;10]. Definition k_b : list nat := [9;4;9;3;9;2;9;1;9;0;5].
Definition ties_check_f (f : nat → nat) (i : @input qarith) : bool :=
  forallb (λ x, forallb (λ y, match in_prio i !! x, in_prio i !! y with
    | Some wx, Some w_y => wlt wx w_y || wlt w_y wx || bool_decide (y ≤ x) || bool_decide (f x < f y)
    | _, _ => true end) (seq 0 (length (in_prio i)))) (seq 0 (length (in_prio i))).
Lemma ties_check_f_ok f i : ties_check_f f i = true → keeps_ties f i.
Proof.
  unfold ties_check_f. rewrite forallb_forall. intros HF x y wx w_y Hx Hy H1 H2 Hlt.
  specialize (HF x ltac:(apply in_seq; apply lookup_lt_Some in Hx; lia)). rewrite forallb_forall in HF.
  specialize (HF y ltac:(apply in_seq; apply lookup_lt_Some in Hy; lia)). cbv beta in HF. rewrite Hx, Hy, H1, H2 in HF.
  simpl in HF. rewrite bool_decide_eq_false_2 in HF by lia. simpl in HF. by apply bool_decide_eq_true in HF.
Qed.

Lemma C63_ex :
  (good_call two_paths o0 ∧ ¬ aniso_on two_paths o0 ∧ in_order two_paths = 0%Z ∧
   simple_csr (in_row two_paths) (in_col two_paths) ∧ sym_weights (in_row two_paths) (in_col two_paths) (in_val two_paths) ∧
   in_corr two_paths = true ∧ corr_size two_paths = 1%Z ∧
   agglomerate_one_level two_paths o0 = (Outs [1;2;1;2;1;4;3;4;3;4;0] [] [], Ok ())) ∧
  (piece (into l_a 11) (back k_a 11) (cut l_a k_a two_paths) two_paths ∧ keeps_ties (into l_a 11) (cut l_a k_a two_paths) ∧
   into l_a 11 <$> seq 0 5 = [0;2;4;6;8] ∧
   agglomerate_one_level (cut l_a k_a two_paths) o0 = (Outs [0;0;0;1;1] [] [], Ok ())) ∧
  (piece (into l_b 11) (back k_b 11) (cut l_b k_b two_paths) two_paths ∧ keeps_ties (into l_b 11) (cut l_b k_b two_paths) ∧
   into l_b 11 <$> seq 0 6 = [9;7;5;3;1;10] ∧
   agglomerate_one_level (cut l_b k_b two_paths) o0 = (Outs [2;2;2;1;1;0] [] [], Ok ())).
Proof.
  assert (good_call two_paths o0) as HG by (apply good_off; [done|vm_compute; reflexivity]).
  split; [|split].
  - split; [exact HG|]. split; [by intros [? _]|]. split; [done|].
    split; [apply (good_simple _ _ HG); vm_compute; reflexivity|]. split; [sym_tac HG|]. split; [done|].
    split; vm_compute; reflexivity.
  - split; [piece_tac two_paths l_a k_a 16|]. split; [apply ties_check_f_ok; vm_compute; reflexivity|].
    split; vm_compute; reflexivity.
  - split; [piece_tac two_paths l_b k_b 16|]. split; [apply ties_check_f_ok; vm_compute; reflexivity|].
    split; vm_compute; reflexivity.
Qed.

(** A path or ring of five cells next to a path of three or five: with the other
    seeds pools its cells are not cut the same way as by itself. *)
Definition with_path3 : @input qarith :=
  put_prio (mk_input [[1];[0;2];[1;3];[2;4];[3];[6];[5;7];[6]] [0;2;2;1;2;1;1;2]%Z 10 false 2 2 3 1)
    (map (λ z, qc z 1) [6;5;3;8;4;1;2;7]%Z).
Definition ring_path3 : @input qarith :=
  put_prio (mk_input [[4;1];[0;2];[1;3];[2;4];[3;0];[6];[5;7];[6]] [1;0;1;1;1;2;1;0]%Z 11 false 2 2 3 1)
    (map (λ z, qc z 1) [1;3;2;5;7;8;6;4]%Z).
Definition ring_path5 : @input qarith :=
  put_prio (mk_input [[4;1];[0;2];[1;3];[2;4];[3;0];[6];[5;7];[6;8];[7;9];[8]] [0;0;1;0;0;0;0;0;0;2]%Z 1 false 2 2 3 1)
    (map (λ z, qc z 1) [1;8;6;9;10;3;2;4;5;7]%Z).
Definition l_c : list nat := [0;1;2;3;4].
Definition k_8 : list nat := [0;1;2;3;4;9;9;9].
Definition k_10 : list nat := [0;1;2;3;4;9;9;9;9;9].

Lemma pools_refuted k : k = 1%Z ∨ k = 10%Z ∨ k = 11%Z → ∃ (i1 i : @input qarith) o f h x y c d c1 d1,
  @exact_arith qarith ∧ total_order qarith ∧ good_call i o ∧ simple_csr (in_row i) (in_col i) ∧
  sym_weights (in_row i) (in_col i) (in_val i) ∧ in_ar i ≠ 8%Z ∧ in_corr i = false ∧ ¬ aniso_on i o ∧
  piece f h i1 i ∧ keeps_ties f i1 ∧ in_order i = k ∧
  o_fc2cc (agglomerate_one_level i o).1 !! f x = Some c ∧ o_fc2cc (agglomerate_one_level i o).1 !! f y = Some d ∧
  o_fc2cc (agglomerate_one_level i1 o).1 !! x = Some c1 ∧ o_fc2cc (agglomerate_one_level i1 o).1 !! y = Some d1 ∧
  c = d ∧ c1 ≠ d1.
Proof.
  intros [ -> | [ -> | -> ]].
  - exists (cut l_c k_10 ring_path5), ring_path5, o0, (into l_c 10), (back k_10 10), 0, 3, 2, 2, 1, 0.
    assert (good_call ring_path5 o0) as HG by (apply good_off; [done|vm_compute; reflexivity]).
    split; [exact q_exact|]. split; [exact q_total|]. split; [exact HG|].
    split; [apply (good_simple _ _ HG); vm_compute; reflexivity|].
    split; [sym_tac HG|]. split; [discriminate|]. split; [done|]. split; [by intros [? _]|].
    split; [piece_tac ring_path5 l_c k_10 18|]. split; [apply ties_check_f_ok; vm_compute; reflexivity|].
    split; [done|]. do 4 (split; [vm_compute; reflexivity|]). done.
  - exists (cut l_c k_8 with_path3), with_path3, o0, (into l_c 8), (back k_8 8), 3, 4, 2, 2, 1, 2.
    assert (good_call with_path3 o0) as HG by (apply good_off; [done|vm_compute; reflexivity]).
    split; [exact q_exact|]. split; [exact q_total|]. split; [exact HG|].
    split; [apply (good_simple _ _ HG); vm_compute; reflexivity|].
    split; [sym_tac HG|]. split; [discriminate|]. split; [done|]. split; [by intros [? _]|].
    split; [piece_tac with_path3 l_c k_8 12|]. split; [apply ties_check_f_ok; vm_compute; reflexivity|].
    split; [done|]. do 4 (split; [vm_compute; reflexivity|]). done.
  - exists (cut l_c k_8 ring_path3), ring_path3, o0, (into l_c 8), (back k_8 8), 1, 2, 2, 2, 1, 2.
    assert (good_call ring_path3 o0) as HG by (apply good_off; [done|vm_compute; reflexivity]).
    split; [exact q_exact|]. split; [exact q_total|]. split; [exact HG|].
    split; [apply (good_simple _ _ HG); vm_compute; reflexivity|].
    split; [sym_tac HG|]. split; [discriminate|]. split; [done|]. split; [by intros [? _]|].
    split; [piece_tac ring_path3 l_c k_8 14|]. split; [apply ties_check_f_ok; vm_compute; reflexivity|].
    split; [done|]. do 4 (split; [vm_compute; reflexivity|]). done.
Qed.

Lemma pool1_refuted : ∃ (i1 i : @input qarith) o f h x y c d c1 d1,
  @exact_arith qarith ∧ total_order qarith ∧ good_call i o ∧ simple_csr (in_row i) (in_col i) ∧
  sym_weights (in_row i) (in_col i) (in_val i) ∧ in_ar i ≠ 8%Z ∧ in_corr i = false ∧ ¬ aniso_on i o ∧
  piece f h i1 i ∧ keeps_ties f i1 ∧ in_order i = 1%Z ∧
  o_fc2cc (agglomerate_one_level i o).1 !! f x = Some c ∧ o_fc2cc (agglomerate_one_level i o).1 !! f y = Some d ∧
  o_fc2cc (agglomerate_one_level i1 o).1 !! x = Some c1 ∧ o_fc2cc (agglomerate_one_level i1 o).1 !! y = Some d1 ∧
  c = d ∧ c1 ≠ d1.
Proof. apply pools_refuted. by left. Qed.
Lemma pool10_refuted : ∃ (i1 i : @input qarith) o f h x y c d c1 d1,
  @exact_arith qarith ∧ total_order qarith ∧ good_call i o ∧ simple_csr (in_row i) (in_col i) ∧
  sym_weights (in_row i) (in_col i) (in_val i) ∧ in_ar i ≠ 8%Z ∧ in_corr i = false ∧ ¬ aniso_on i o ∧
  piece f h i1 i ∧ keeps_ties f i1 ∧ in_order i = 10%Z ∧
  o_fc2cc (agglomerate_one_level i o).1 !! f x = Some c ∧ o_fc2cc (agglomerate_one_level i o).1 !! f y = Some d ∧
  o_fc2cc (agglomerate_one_level i1 o).1 !! x = Some c1 ∧ o_fc2cc (agglomerate_one_level i1 o).1 !! y = Some d1 ∧
  c = d ∧ c1 ≠ d1.
Proof. apply pools_refuted. right; by left. Qed.
Lemma pool11_refuted : ∃ (i1 i : @input qarith) o f h x y c d c1 d1,
  @exact_arith qarith ∧ total_order qarith ∧ good_call i o ∧ simple_csr (in_row i) (in_col i) ∧
  sym_weights (in_row i) (in_col i) (in_val i) ∧ in_ar i ≠ 8%Z ∧ in_corr i = false ∧ ¬ aniso_on i o ∧
  piece f h i1 i ∧ keeps_ties f i1 ∧ in_order i = 11%Z ∧
  o_fc2cc (agglomerate_one_level i o).1 !! f x = Some c ∧ o_fc2cc (agglomerate_one_level i o).1 !! f y = Some d ∧
  o_fc2cc (agglomerate_one_level i1 o).1 !! x = Some c1 ∧ o_fc2cc (agglomerate_one_level i1 o).1 !! y = Some d1 ∧
  c = d ∧ c1 ≠ d1.
Proof. apply pools_refuted. by right; right. Qed.

(** Without priorities to tell them apart, the cell with the lowest number is
    preferred. *)
Definition path3_1 : @input qarith := mk_input [[1];[0;2];[1];[]] [1;0;1;0]%Z 0 false 2 2 2 1.
Lemma piece_ties_refuted : ∃ (i1 i : @input qarith) o f h x y c d c1 d1,
  @exact_arith qarith ∧ total_order qarith ∧ good_call i o ∧ simple_csr (in_row i) (in_col i) ∧
  sym_weights (in_row i) (in_col i) (in_val i) ∧ in_ar i ≠ 8%Z ∧ in_corr i = false ∧ ¬ aniso_on i o ∧
  piece f h i1 i ∧ in_order i = 0%Z ∧
  o_fc2cc (agglomerate_one_level i o).1 !! f x = Some c ∧ o_fc2cc (agglomerate_one_level i o).1 !! f y = Some d ∧
  o_fc2cc (agglomerate_one_level i1 o).1 !! x = Some c1 ∧ o_fc2cc (agglomerate_one_level i1 o).1 !! y = Some d1 ∧
  c = d ∧ c1 ≠ d1.
Proof.
  exists (cut [2;1;0] [2;1;0;9] path3_1), path3_1, o0, (into [2;1;0] 4), (back [2;1;0;9] 4), 1, 2, 0, 0, 0, 1.
  assert (good_call path3_1 o0) as HG by (apply good_off; [done|vm_compute; reflexivity]).
  split; [exact q_exact|]. split; [exact q_total|]. split; [exact HG|].
  split; [apply (good_simple _ _ HG); vm_compute; reflexivity|].
  split; [sym_tac HG|]. split; [discriminate|]. split; [done|]. split; [by intros [? _]|].
  split; [piece_tac path3_1 [2;1;0] [2;1;0;9] 4|].
  split; [done|]. do 4 (split; [vm_compute; reflexivity|]). done.
Qed.
