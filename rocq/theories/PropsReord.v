(** * PropsReord: the order in which the faces of a cell are listed (C58) *)

From Verif Require Import Main Spec SpecSub SpecFeat SpecHash SpecMove SpecFeed SpecWhole SpecReord Inst ApiE GrowE FeedE MoveE ReordU ReordV ReordE.

#[local] Existing Instance qarith | 100.
#[local] Existing Instance ord_id | 100.

(** C58, the part that holds.  Listing the faces of each cell in another order does
    not change the outputs, as long as the cells of the lines keep theirs; without
    lines there is no such condition.  The correction may be on or off, with any
    threshold.  Missing: the cells of the lines, for which it is false (below). *)
Theorem C58_face_order_partial : ∀ {A : Arith} {H : HashOrder} i o row col val,
  exact_arith → total_order A → good_call i o → simple_csr (in_row i) (in_col i) →
  sym_weights (in_row i) (in_col i) (in_val i) → extremes_fine i →
  relisted i row col val → same_along_lines i o row col →
  agglomerate_one_level (put_csr i row col val) o = agglomerate_one_level i o.
Proof. exact @C58_any_lem. Qed.
Print Assumptions C58_face_order_partial.

Example C58_face_order_partial_example1 :
  (relisted grid9_nc (in_row grid9_nc) (backwards grid9) (in_val grid9_nc) ∧
   backwards grid9 ≠ in_col grid9_nc ∧ same_along_lines grid9_nc o0 (in_row grid9_nc) (backwards grid9) ∧
   agglomerate_one_level (put_csr grid9_nc (in_row grid9_nc) (backwards grid9) (in_val grid9_nc)) o0 =
     (Outs [0;0;1;0;0;1;2;2;2] [] [], Ok ())) ∧
  (let col := [1; 0;2; 1;3; 2;4; 3;5; 6;4; 5] in
   relisted line7_nc (in_row line7_nc) col (in_val line7_nc) ∧ col ≠ in_col line7_nc ∧
   aniso_on line7_nc o_line5 ∧ same_along_lines line7_nc o_line5 (in_row line7_nc) col).
Proof. exact @C58_ex. Qed.

Example C58_face_order_partial_example2 :
  let col := [1; 2;0; 3;1; 4;2; 3] in
  good_call path5_s2 o0 ∧ simple_csr (in_row path5_s2) (in_col path5_s2) ∧
  sym_weights (in_row path5_s2) (in_col path5_s2) (in_val path5_s2) ∧ in_ar path5_s2 ≠ 8%Z ∧
  in_corr path5_s2 = true ∧ corr_size path5_s2 = 2%Z ∧
  relisted path5_s2 (in_row path5_s2) col (in_val path5_s2) ∧ col ≠ in_col path5_s2 ∧
  same_along_lines path5_s2 o0 (in_row path5_s2) col ∧
  agglomerate_one_level (uncorrected path5_s2) o0 = (Outs [0;0;0;1;1] [] [], Ok ()) ∧
  agglomerate_one_level (put_csr path5_s2 (in_row path5_s2) col (in_val path5_s2)) o0 = (Outs [0;0;0;0;1] [] [], Ok ()).
Proof. exact @C58_larger_ex. Qed.

(** C58 is false of the cells of a line: their neighbours wait as seeds in the order
    in which the faces are listed. *)
Theorem C58_face_order_refuted :
  ∃ (i : @input qarith) o row col val,
  @exact_arith qarith ∧ total_order qarith ∧ good_call i o ∧ simple_csr (in_row i) (in_col i) ∧
  sym_weights (in_row i) (in_col i) (in_val i) ∧ in_ar i ≠ 8%Z ∧ in_corr i = false ∧ relisted i row col val ∧
  o_fc2cc (agglomerate_one_level i o).1 = [0;0;1;2;1] ∧
  o_fc2cc (agglomerate_one_level (put_csr i row col val) o).1 = [0;0;2;1;1].
Proof. exact @order_of_faces_refuted. Qed.
Print Assumptions C58_face_order_refuted.
