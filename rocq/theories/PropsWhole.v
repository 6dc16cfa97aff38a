(** * PropsWhole: the whole result of a call, without any function of the model (C57) *)

From Verif Require Import Main Spec SpecSub SpecFeat SpecHash SpecMove SpecFeed SpecWhole Inst ApiE GrowE FeedE MoveE WholeU WholeE.

#[local] Existing Instance qarith | 100.
#[local] Existing Instance ord_id | 100.

(** C57.  The call ends normally and its outputs are right, [result_right] being
    said without any function of the model; no other outputs are right unless the
    correction removes cells of more than one fine cell. *)
Theorem C57_whole_result : ∀ {A : Arith} {H : HashOrder} i o r e,
  exact_arith → total_order A → good_call i o → simple_csr (in_row i) (in_col i) →
  sym_weights (in_row i) (in_col i) (in_val i) → extremes_fine i → agglomerate_one_level i o = (r, e) →
  e = Ok () ∧ result_right i o r ∧
  (in_corr i = false ∨ (corr_size i <= 1)%Z → ∀ r', result_right i o r' → r' = r).
Proof. exact @C57_lem. Qed.
Print Assumptions C57_whole_result.

Example C57_whole_result_example1 :
  ((@exact_arith qarith) ∧ total_order qarith ∧ good_call grid9_nc o0 ∧ simple_csr (in_row grid9_nc) (in_col grid9_nc) ∧
   sym_weights (in_row grid9_nc) (in_col grid9_nc) (in_val grid9_nc) ∧ extremes_fine grid9_nc ∧
   result_right grid9_nc o0 (Outs [0;0;1;0;0;1;2;2;2] [] []) ∧
   ¬ result_right grid9_nc o0 (Outs [0;0;1;0;1;1;2;2;2] [] [])) ∧
  (good_call line7_nc o_line5 ∧ aniso_on line7_nc o_line5 ∧
   result_right line7_nc o_line5 (Outs [0;0;1;1;1;2;2] [0;2] [0;1]) ∧
   ¬ result_right line7_nc o_line5 (Outs [0;0;0;1;1;2;2] [0;2] [0;1]) ∧
   ¬ result_right line7_nc o_line5 (Outs [0;0;1;1;1;2;2] [0;1] [0;1])) ∧
  (good_call (chain7 true) o0 ∧ in_corr (chain7 true) = true ∧
   result_right (chain7 true) o0 (Outs [0;0;1;1;2;2;2] [] []) ∧
   ¬ result_right (chain7 true) o0 (Outs [0;0;1;1;2;2;3] [] [])).
Proof. exact @C57_ex. Qed.

Example C57_whole_result_example2 :
  good_call (built6 0 false) o0 ∧ in_build (built6 0 false) = true ∧ in_corr (built6 0 false) = true ∧
  corr_size (built6 0 false) = 1%Z ∧
  result_right (built6 0 false) o0 (Outs [0;0;0;1;1;1] [0;1;2] [0;1]) ∧
  ¬ result_right (built6 0 false) o0 (Outs [1;1;1;0;0;0] [0;1;2] [0;1]).
Proof. exact @C57_built_ex. Qed.

Example C57_whole_result_example3 :
  good_call far3 o0 ∧ in_ar far3 = 8%Z ∧ extremes_fine far3 ∧
  result_right far3 o0 (Outs [0;0;1] [] []) ∧ ¬ result_right far3 o0 (Outs [0;1;0] [] []).
Proof. exact @C57_extremes_ex. Qed.
