(** * TallyE: examples for C85 *)

From Coq Require Import QArith Qcanon.
From Verif Require Import Inst Spec SpecWhole ApiE PieceE PieceM.
#[local] Open Scope Z_scope.
#[local] Open Scope nat_scope.
#[local] Existing Instance qarith | 100.
#[local] Existing Instance ord_id | 100.

(** Lines of three and four cells are given; then lines of five cells are built. *)
Lemma C85_ex :
  (good_call paths_g o_paths ∧ aniso_on paths_g o_paths ∧ in_build paths_g = false ∧
   split_lines (o_idx o_paths) (o_lines o_paths) = [[9;7;5];[0;2;4;6]] ∧
   agglomerate_one_level paths_g o_paths = (Outs [1;5;1;5;2;0;2;0;3;0;4] [0;1;3] [0;1;2], Ok ()) ∧
   split_lines [0;1;3] [0;1;2] = [[0];[1;2]]) ∧
  (good_call paths_b o0 ∧ aniso_on paths_b o0 ∧ in_build paths_b = true ∧
   agglomerate_one_level paths_b o0 = (Outs [0;2;0;2;1;3;1;3;4;6;5] [0;2;4] [0;1;2;3], Ok ()) ∧
   split_lines [0;2;4] [0;1;2;3] = [[0;1];[2;3]]).
Proof.
  destruct C63_lines_ex as ((G & N & B & _ & _ & _ & _ & _ & E) & _ & _ & (G' & N' & B' & Q) & _).
  split; [split; [exact G|]; split; [exact N|]; split; [exact B|]; split; [vm_compute; reflexivity|]; split; [exact E|]; vm_compute; reflexivity|].
  split; [exact G'|]. split; [exact N'|]. split; [exact B'|]. split; [vm_compute; reflexivity|]. vm_compute; reflexivity.
Qed.
