(** * ReordE: examples and counter-example for C58 *)

From Coq Require Import QArith Qcanon.
From stdpp Require Import sorting.
From Verif Require Import Inst Spec SpecSub SpecFeat SpecAR SpecHash SpecLine SpecMove SpecFeed SpecWhole SpecReord GraphP FeatE BestE ApiE GrowE
  HashE FeedE MoveE WholeU WholeE ReordU.
#[local] Open Scope Z_scope.
#[local] Open Scope nat_scope.
#[local] Existing Instance qarith | 100.
#[local] Existing Instance ord_id | 100.

Lemma entries_const row col (w : Qc) m x : m = length col →
  @entries qarith row col (replicate m w) x = (λ y, (y, w)) <$> nb_list row col x.
Proof.
  intros ->. unfold entries, nb_list. destruct (row !! x) as [a|]; [|done]. destruct (row !! S x) as [b|]; [|done].
  rewrite fmap_take, fmap_drop. do 2 f_equal. clear. induction col as [|c col IH]; [done|].
  cbn [length replicate zip fmap list_fmap zip_with]. f_equal. exact IH.
Qed.
Definition sorted_l (l : list nat) : list nat := merge_sort (≤) l.
Lemma relisted_check (i : @input qarith) row col w m : in_val i = replicate m w → m = length (in_col i) → m = length col →
  csr (in_n i) row col → length (in_row i) = S (in_n i) →
  forallb (λ x, bool_decide (sorted_l (nb_list row col x) = sorted_l (nb_list (in_row i) (in_col i) x))) (seq 0 (in_n i)) = true →
  relisted i row col (in_val i).
Proof.
  intros Hv Hm Hm' Hc Hn Hf. split; [done|by rewrite Hv, replicate_length|]. intros x. rewrite Hv.
  rewrite (entries_const _ _ _ _ _ Hm), (entries_const _ _ _ _ _ Hm'). apply fmap_Permutation.
  destruct (decide (x < in_n i)) as [Hx|Hx].
  - rewrite forallb_forall in Hf. specialize (Hf x ltac:(apply in_seq; lia)). apply bool_decide_eq_true in Hf.
    unfold sorted_l in Hf. by rewrite <- (merge_sort_Permutation (≤) (nb_list row col x)), Hf, merge_sort_Permutation.
  - unfold nb_list. rewrite (lookup_ge_None_2 row (S x)) by (rewrite (csr_len _ _ _ Hc); lia).
    rewrite (lookup_ge_None_2 (in_row i) (S x)) by lia. by destruct (row !! x), (in_row i !! x).
Qed.

Definition backwards (l : list (list nat)) : list nat := concat (map (@reverse nat) l).

(** The 3 x 3 grid with the neighbours listed backwards, and a path with a line
    where those of the last cell but one, which is not on the line, are listed
    backwards. *)
Lemma C58_ex :
  (relisted grid9_nc (in_row grid9_nc) (backwards grid9) (in_val grid9_nc) ∧
   backwards grid9 ≠ in_col grid9_nc ∧ same_along_lines grid9_nc o0 (in_row grid9_nc) (backwards grid9) ∧
   agglomerate_one_level (put_csr grid9_nc (in_row grid9_nc) (backwards grid9) (in_val grid9_nc)) o0 =
     (Outs [0;0;1;0;0;1;2;2;2] [] [], Ok ())) ∧
  (let col := [1; 0;2; 1;3; 2;4; 3;5; 6;4; 5] in
   relisted line7_nc (in_row line7_nc) col (in_val line7_nc) ∧ col ≠ in_col line7_nc ∧
   aniso_on line7_nc o_line5 ∧ same_along_lines line7_nc o_line5 (in_row line7_nc) col).
Proof.
  destruct C45_ex as [(HG & Hc & Hs & WO & HE) (HG' & Hc' & Hs' & HA & HL & HE' & _)]. split.
  - assert (relisted grid9_nc (in_row grid9_nc) (backwards grid9) (in_val grid9_nc)) as HR.
    { apply (relisted_check _ _ _ (qc 1 1) 24); try (vm_compute; reflexivity). apply csr_check_ok. vm_compute. reflexivity. }
    split; [exact HR|]. split; [discriminate|]. split; [intros [Ha _]; discriminate Ha|].
    vm_compute. reflexivity.
  - cbv zeta. split.
    { apply (relisted_check _ _ _ (qc 1 1) 12); try (vm_compute; reflexivity). apply csr_check_ok. vm_compute. reflexivity. }
    split; [discriminate|]. split; [exact HA|]. intros _ lines x HR Hx.
    assert (lines = [[0;1;2;3;4]]) as ->.
    { unfold lines_right in HR. change (in_build line7_nc) with false in HR. cbv iota in HR. rewrite HR. vm_compute. reflexivity. }
    assert (x < 5) as Hx5. { change (x ∈ [0;1;2;3;4]) in Hx. rewrite !elem_of_cons, elem_of_nil in Hx. lia. }
    do 5 (destruct x as [|x]; [vm_compute; reflexivity|]). lia.
Qed.

(** A path of five cells, the coarse cell of the last two is corrected: cell 3 moves to
    the other one, cell 4 stays behind. *)
Definition path5_s2 : @input qarith := mk_input [[1];[0;2];[1;3];[2;4];[3]] [2;1;1;1;1]%Z 0 true 3 3 3 2.
Lemma C58_larger_ex :
  let col := [1; 2;0; 3;1; 4;2; 3] in
  good_call path5_s2 o0 ∧ simple_csr (in_row path5_s2) (in_col path5_s2) ∧
  sym_weights (in_row path5_s2) (in_col path5_s2) (in_val path5_s2) ∧ in_ar path5_s2 ≠ 8%Z ∧
  in_corr path5_s2 = true ∧ corr_size path5_s2 = 2%Z ∧
  relisted path5_s2 (in_row path5_s2) col (in_val path5_s2) ∧ col ≠ in_col path5_s2 ∧
  same_along_lines path5_s2 o0 (in_row path5_s2) col ∧
  agglomerate_one_level (uncorrected path5_s2) o0 = (Outs [0;0;0;1;1] [] [], Ok ()) ∧
  agglomerate_one_level (put_csr path5_s2 (in_row path5_s2) col (in_val path5_s2)) o0 = (Outs [0;0;0;0;1] [] [], Ok ()).
Proof.
  cbv zeta. assert (good_call path5_s2 o0) as HG by (apply good_off; [done|vm_compute; reflexivity]).
  split; [exact HG|]. split; [apply (good_simple _ _ HG); vm_compute; reflexivity|].
  split; [sym_tac HG|]. split; [discriminate|]. split; [done|]. split; [vm_compute; reflexivity|].
  split. { apply (relisted_check _ _ _ (qc 1 1) 8); try (vm_compute; reflexivity). apply csr_check_ok. vm_compute. reflexivity. }
  split; [discriminate|]. split; [intros [Ha _]; discriminate Ha|]. split; vm_compute; reflexivity.
Qed.

(** Cells 0 and 1 are a line; 2 and 3 are neighbours of cell 0. *)
Definition fork5 : @input qarith :=
  mk_aniso (mk_input [[1;2;3];[0];[0;4];[0;4];[2;3]] [0;2;1;1;1]%Z 0 false 2 2 2 1) false true None 0 false
    (replicate 10 (qc 1 1)) (qc 4 1).
Lemma order_of_faces_refuted : ∃ (i : @input qarith) o row col val,
  @exact_arith qarith ∧ total_order qarith ∧ good_call i o ∧ simple_csr (in_row i) (in_col i) ∧
  sym_weights (in_row i) (in_col i) (in_val i) ∧ in_ar i ≠ 8%Z ∧ in_corr i = false ∧ relisted i row col val ∧
  o_fc2cc (agglomerate_one_level i o).1 = [0;0;1;2;1] ∧
  o_fc2cc (agglomerate_one_level (put_csr i row col val) o).1 = [0;0;2;1;1].
Proof.
  exists fork5, o_line2, (in_row fork5), [1;3;2; 0; 0;4; 0;4; 2;3], (in_val fork5).
  assert (good_call fork5 o_line2) as HG by (apply good_given; [done|vm_compute; reflexivity]).
  split; [exact q_exact|]. split; [exact q_total|]. split; [exact HG|].
  split; [apply (good_simple _ _ HG); vm_compute; reflexivity|].
  split; [sym_tac HG|]. split; [discriminate|]. split; [done|].
  split. { apply (relisted_check _ _ _ (qc 1 1) 10); try (vm_compute; reflexivity). apply csr_check_ok. vm_compute. reflexivity. }
  split; vm_compute; reflexivity.
Qed.
