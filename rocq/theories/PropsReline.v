(** * PropsReline: the numbers of the cells, calls with lines (C60) *)

From Verif Require Import Main Spec SpecSub SpecFeat SpecHash SpecLine SpecMove SpecFeed SpecWhole SpecRenum SpecReline Inst ApiE UseE FeedE RenumE RelineU RelineE.

#[local] Existing Instance qarith | 100.
#[local] Existing Instance ord_id | 100.

(** C60 for calls with lines, the part that holds.  Numbering the cells otherwise leads
    to the same coarse cells and the same exported lines, as long as cells of equal
    priority keep their relative order, the faces of the cells of the lines are listed
    in the same order, and, if the program builds the lines, the neighbours of a cell
    keep their relative order.  Lines given by the caller are given with the new
    numbers.  Missing: corrections that dissolve coarse cells of more than one fine
    cell, and the renumberings for which it is false (below; [C58_face_order_refuted]
    shows that the order of the faces counts). *)
Theorem C60_lines_partial : ∀ {A : Arith} {H : HashOrder} f h i i' o r e r' e',
  exact_arith → total_order A → equal_ties → good_call i o → simple_csr (in_row i) (in_col i) →
  sym_weights (in_row i) (in_col i) (in_val i) → extremes_fine i →
  in_corr i = false ∨ (corr_size i <= 1)%Z → aniso_on i o →
  relabelled f h i i' → keeps_ties f i → in_order i = 0%Z ∨ in_order i = 10%Z ∨ keeps_levels f i →
  (in_build i = true → keeps_neighbours f i) → same_along f i i' o →
  agglomerate_one_level i o = (r, e) → agglomerate_one_level i' (lines_called f o) = (r', e') →
  e = Ok () ∧ e' = Ok () ∧ length (o_fc2cc r') = length (o_fc2cc r) ∧
  (∀ x, o_fc2cc r' !! f x = o_fc2cc r !! x) ∧ o_idx r' = o_idx r ∧ o_lines r' = o_lines r.
Proof. exact @C60_lines_lem. Qed.
Print Assumptions C60_lines_partial.

Example C60_lines_partial_example :
  (relabelled (by_list l7) (by_list k7) line7_p (renum (qc 1 1) l7 k7 line7_p) ∧
   good_call line7_p o_line5 ∧ aniso_on line7_p o_line5 ∧ in_build line7_p = false ∧ keeps_ties (by_list l7) line7_p ∧
   in_order line7_p = 0%Z ∧ in_corr line7_p = false ∧
   same_along (by_list l7) line7_p (renum (qc 1 1) l7 k7 line7_p) o_line5 ∧
   lines_called (by_list l7) o_line5 = Outs [] [0;5] [4;0;6;2;5] ∧
   agglomerate_one_level line7_p o_line5 = (Outs [0;0;1;1;1;2;2] [0;2] [0;1], Ok ()) ∧
   agglomerate_one_level (renum (qc 1 1) l7 k7 line7_p) (lines_called (by_list l7) o_line5) =
     (Outs [0;2;1;2;0;1;1] [0;2] [0;1], Ok ())) ∧
  (relabelled (by_list l6r) (by_list k6r) rows6_b (renum (qc 1 1) l6r k6r rows6_b) ∧
   good_call rows6_b o0 ∧ aniso_on rows6_b o0 ∧ in_build rows6_b = true ∧ keeps_ties (by_list l6r) rows6_b ∧
   keeps_neighbours (by_list l6r) rows6_b ∧ in_order rows6_b = 0%Z ∧ in_corr rows6_b = true ∧ corr_size rows6_b = 1%Z ∧
   same_along (by_list l6r) rows6_b (renum (qc 1 1) l6r k6r rows6_b) o0 ∧
   simple_csr (in_row rows6_b) (in_col rows6_b) ∧ sym_weights (in_row rows6_b) (in_col rows6_b) (in_val rows6_b) ∧
   @exact_arith qarith ∧ total_order qarith ∧ @equal_ties qarith ∧
   agglomerate_one_level rows6_b o0 = (Outs [0;0;0;1;1;1] [0;1;2] [0;1], Ok ()) ∧
   agglomerate_one_level (renum (qc 1 1) l6r k6r rows6_b) o0 = (Outs [0;1;1;0;0;1] [0;1;2] [0;1], Ok ())).
Proof. exact @C60_lines_ex. Qed.

(** C60 is false if two neighbours of a cell change places and the lines are built: the
    lower number is preferred.  Cells 0 and 1 are put together by the first call; by
    the second one the cells called 0 and 1, which are cells 0 and 2. *)
Theorem C60_neighbours_refuted :
  ∃ (i i' : @input qarith) f h,
  @exact_arith qarith ∧ total_order qarith ∧ @equal_ties qarith ∧ good_call i o0 ∧ simple_csr (in_row i) (in_col i) ∧
  sym_weights (in_row i) (in_col i) (in_val i) ∧ in_ar i ≠ 8%Z ∧ in_corr i = false ∧ aniso_on i o0 ∧ in_build i = true ∧
  relabelled f h i i' ∧ keeps_ties f i ∧ in_order i = 0%Z ∧ same_along f i i' o0 ∧
  o_fc2cc (agglomerate_one_level i o0).1 = [0;0;1;1] ∧
  f <$> seq 0 4 = [0;2;1;3] ∧ o_fc2cc (agglomerate_one_level i' o0).1 = [0;0;1;1].
Proof. exact @neighbours_refuted. Qed.
Print Assumptions C60_neighbours_refuted.
