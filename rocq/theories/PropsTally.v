(** * PropsTally: how many coarse cells a line gives (C85) *)

From Verif Require Import Main Spec SpecSub SpecFeat SpecHash SpecLine SpecMove SpecWhole Inst ApiE PieceE PieceM TallyT TallyE.

#[local] Existing Instance qarith | 100.
#[local] Existing Instance ord_id | 100.

(** C85.  The lines which are returned are those of at least two cells among the lines
    given, in the same order, or those which are built; each one has half as many coarse
    cells as the cells of the line which are used, rounded down.  All cells are used
    unless there is a limit ([used]). *)
Theorem C85_half_of_each_line : ∀ {A : Arith} {H : HashOrder} i o r e,
  good_call i o → aniso_on i o → agglomerate_one_level i o = (r, e) →
  (in_build i = false →
    length <$> split_lines (o_idx r) (o_lines r) =
    (λ l : list nat, used i (length l) / 2) <$> filter (λ l, 2 ≤ length l) (split_lines (o_idx o) (o_lines o))) ∧
  (in_build i = true → total_order A → ∃ lines, built_lines i lines ∧
    length <$> split_lines (o_idx r) (o_lines r) = (λ l : list nat, used i (length l) / 2) <$> lines).
Proof. exact @C85_lem. Qed.
Print Assumptions C85_half_of_each_line.

Example C85_half_of_each_line_example :
  (good_call paths_g o_paths ∧ aniso_on paths_g o_paths ∧ in_build paths_g = false ∧
   split_lines (o_idx o_paths) (o_lines o_paths) = [[9;7;5];[0;2;4;6]] ∧
   agglomerate_one_level paths_g o_paths = (Outs [1;5;1;5;2;0;2;0;3;0;4] [0;1;3] [0;1;2], Ok ()) ∧
   split_lines [0;1;3] [0;1;2] = [[0];[1;2]]) ∧
  (good_call paths_b o0 ∧ aniso_on paths_b o0 ∧ in_build paths_b = true ∧
   agglomerate_one_level paths_b o0 = (Outs [0;2;0;2;1;3;1;3;4;6;5] [0;2;4] [0;1;2;3], Ok ()) ∧
   split_lines [0;2;4] [0;1;2;3] = [[0;1];[2;3]]).
Proof. exact @C85_ex. Qed.
