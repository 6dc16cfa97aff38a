(** * PropsRenum: the numbers of the cells (C60) *)

From Verif Require Import Main Spec SpecSub SpecFeat SpecHash SpecMove SpecFeed SpecWhole SpecRenum Inst ApiE UseE RenumU RenumE RenumF.

#[local] Existing Instance qarith | 100.
#[local] Existing Instance ord_id | 100.

(** C60, the part that holds.  Numbering the cells otherwise leads to the same coarse
    cells, with the same numbers, as long as cells of equal priority keep their
    relative order and, with the neighbourhood pools (orders 1 and 11), cells with
    different numbers of boundary faces too.  Calls with lines: [C60_lines_partial].
    Missing: corrections
    that dissolve coarse cells of more than one fine cell, and the renumberings for
    which it is false; it is false for both (below). *)
Theorem C60_numbering_partial : ∀ {A : Arith} {H : HashOrder} f h i i' o r e r' e',
  exact_arith → total_order A → good_call i o → simple_csr (in_row i) (in_col i) →
  sym_weights (in_row i) (in_col i) (in_val i) → extremes_fine i →
  in_corr i = false ∨ (corr_size i <= 1)%Z → ¬ aniso_on i o →
  relabelled f h i i' → keeps_ties f i →
  in_order i = 0%Z ∨ in_order i = 10%Z ∨ keeps_levels f i →
  agglomerate_one_level i o = (r, e) → agglomerate_one_level i' o = (r', e') →
  e = Ok () ∧ e' = Ok () ∧ length (o_fc2cc r') = length (o_fc2cc r) ∧
  (∀ x, o_fc2cc r' !! f x = o_fc2cc r !! x) ∧ o_idx r' = o_idx r ∧ o_lines r' = o_lines r.
Proof. exact @C60_lem. Qed.
Print Assumptions C60_numbering_partial.

Example C60_numbering_partial_example :
  (relabelled (by_list l9) (by_list k9) grid9_p (renum (qc 1 1) l9 k9 grid9_p) ∧
   good_call grid9_p o0 ∧ ¬ aniso_on grid9_p o0 ∧ keeps_ties (by_list l9) grid9_p ∧ in_order grid9_p = 0%Z ∧
   simple_csr (in_row grid9_p) (in_col grid9_p) ∧ sym_weights (in_row grid9_p) (in_col grid9_p) (in_val grid9_p) ∧
   in_corr grid9_p = true ∧ corr_size grid9_p = 1%Z ∧
   agglomerate_one_level grid9_p o0 = (Outs [1;1;2;0;0;2;0;0;2] [] [], Ok ()) ∧
   agglomerate_one_level (renum (qc 1 1) l9 k9 grid9_p) o0 = (Outs [0;0;2;1;2;2;0;0;1] [] [], Ok ())) ∧
  (relabelled (by_list l6) (by_list k6) ring6_p (renum (qc 1 1) l6 k6 ring6_p) ∧
   good_call ring6_p o0 ∧ ¬ aniso_on ring6_p o0 ∧ keeps_ties (by_list l6) ring6_p ∧ keeps_levels (by_list l6) ring6_p ∧
   agglomerate_one_level ring6_p o0 = (Outs [0;0;0;0;1;1] [] [], Ok ()) ∧
   agglomerate_one_level (renum (qc 1 1) l6 k6 ring6_p) o0 = (Outs [0;1;0;1;0;0] [] [], Ok ())).
Proof. exact @C60_ex. Qed.

(** C60 is false with a neighbourhood pool, even if all the priorities differ: when
    its queues are empty, the next level is that of the free cell with the lowest
    number.  Cells 3 and 4 are put together by the first call; by the second one
    the cells called 3 and 4 are put together, which are cells 5 and 4. *)
Theorem C60_levels_refuted :
  ∃ (i i' : @input qarith) o f h,
  @exact_arith qarith ∧ total_order qarith ∧ good_call i o ∧ simple_csr (in_row i) (in_col i) ∧
  sym_weights (in_row i) (in_col i) (in_val i) ∧ in_ar i ≠ 8%Z ∧ in_corr i = false ∧ ¬ aniso_on i o ∧
  relabelled f h i i' ∧ keeps_ties f i ∧ in_order i = 1%Z ∧
  o_fc2cc (agglomerate_one_level i o).1 = [0;0;1;2;2;3] ∧
  f <$> seq 0 6 = [0;1;2;5;4;3] ∧ o_fc2cc (agglomerate_one_level i' o).1 = [0;0;1;2;2;3].
Proof. exact @numbers_refuted. Qed.
Print Assumptions C60_levels_refuted.

(** C60 is false if priorities are equal: the lower number is preferred. *)
Theorem C60_ties_refuted :
  ∃ (i i' : @input qarith) o f h,
  @exact_arith qarith ∧ total_order qarith ∧ good_call i o ∧ simple_csr (in_row i) (in_col i) ∧
  sym_weights (in_row i) (in_col i) (in_val i) ∧ in_ar i ≠ 8%Z ∧ in_corr i = false ∧ ¬ aniso_on i o ∧
  relabelled f h i i' ∧ in_order i = 0%Z ∧
  o_fc2cc (agglomerate_one_level i o).1 = [0;0;1] ∧
  f <$> seq 0 3 = [2;1;0] ∧ o_fc2cc (agglomerate_one_level i' o).1 = [0;0;1].
Proof. exact @ties_refuted. Qed.
Print Assumptions C60_ties_refuted.

(** C60 is false if coarse cells of two cells are corrected, even if all the priorities
    differ: cell 0 goes to another coarse cell. *)
Theorem C60_correction_refuted :
  ∃ (i i' : @input qarith) o f h,
  @exact_arith qarith ∧ total_order qarith ∧ good_call i o ∧ simple_csr (in_row i) (in_col i) ∧
  sym_weights (in_row i) (in_col i) (in_val i) ∧ in_ar i ≠ 8%Z ∧ in_corr i = true ∧ corr_size i = 2%Z ∧ ¬ aniso_on i o ∧
  relabelled f h i i' ∧ keeps_ties f i ∧ in_order i = 0%Z ∧
  o_fc2cc (agglomerate_one_level i o).1 = [0;0;1;0;1;0;1;0;1] ∧
  f <$> seq 0 9 = [8;3;6;4;0;5;7;2;1] ∧ o_fc2cc (agglomerate_one_level i' o).1 = [1;1;0;0;0;0;1;1;1].
Proof. exact @larger_refuted. Qed.
Print Assumptions C60_correction_refuted.
