(** * PropsDouble: double precision (C59, C58) *)

From Verif Require Import Main Spec SpecSub SpecFeat SpecHash SpecReord Inst Double SpecDouble DoubleT DoubleE.

#[local] Existing Instance dbl | 10.
#[local] Existing Instance ord_id | 10.

(** C59.  With weights in double precision a call made as documented ends normally
    and gives each cell a coarse cell, whatever the weights, volumes and centres are;
    if at most single cells are corrected the coarse cells are numbered without
    gaps, connected, and the same for every hash order. *)
Theorem C59_double_result : ∀ (sum : list spec_float → spec_float) (H : HashOrder) (i : @input (double sum)) (o : outs),
  double_call sum i o →
  ∃ r, agglomerate_one_level i o = (r, Ok ()) ∧ length (o_fc2cc r) = in_n i ∧
    (in_corr i = false ∨ thresh_one i →
       contiguous (o_fc2cc r) ∧
       (given_paths i o → ∀ c, connected (in_edge i) (cells_of (o_fc2cc r) c)) ∧
       ∀ H' : HashOrder, @agglomerate_one_level _ H' i o = (r, Ok ())).
Proof. exact @C59_lem. Qed.
Print Assumptions C59_double_result.

Example C59_double_result_example :
  double_call d_sum odd4 o0 ∧ agglomerate_one_level odd4 o0 = (Outs [0;0;1;1] [] [], Ok ()).
Proof. exact @C59_ex. Qed.

(** C59.  Such a call is a good call in the sense of the other theorems, so those
    without laws of arithmetic among their hypotheses hold for it. *)
Theorem C59_double_good_call : ∀ (sum : list spec_float → spec_float) (i : @input (double sum)) (o : outs),
  double_call sum i o → good_call i o.
Proof. exact @double_good. Qed.
Print Assumptions C59_double_good_call.

Example C59_double_good_call_example :
  double_call d_sum odd4 o0 ∧ S754_nan ∈ (in_val odd4 : list spec_float).
Proof. exact @double_good_ex. Qed.

(** C58 is false in double precision even without lines: sums of weights are
    rounded, and depend on the order of the faces. *)
Theorem C58_double_refuted :
  ∃ (i : @input dbl) o row col val,
  double_call d_sum i o ∧ in_aniso i = false ∧ in_corr i = false ∧ simple_csr (in_row i) (in_col i) ∧
  sym_weights (in_row i) (in_col i) (in_val i) ∧ relisted i row col val ∧
  o_fc2cc (agglomerate_one_level i o).1 = [0;0;1;2;3;1] ∧
  o_fc2cc (agglomerate_one_level (put_csr i row col val) o).1 = [0;1;0;1;2;3].
Proof. exact @double_face_order_refuted. Qed.
Print Assumptions C58_double_refuted.
