(** * LeafE: example for the removal of a cell with one neighbour (C31) *)

From Coq Require Import QArith Qcanon.
From Verif Require Import Inst SpecSub Subgraph GraphP SubT SubE LeafT.
#[local] Open Scope Z_scope.
#[local] Open Scope nat_scope.
#[local] Existing Instance qarith | 100.
#[local] Existing Instance ord_id | 100.

(** The end of a chain, and both leaves of a star whose centre comes last. *)
Definition sg_ch : subg := run_sg (make_subgraph g_chain {[0; 1; 2; 3]}).
Definition sg_ch_r : subg := run_sg (remove_node sg_ch 0).
Definition sg_star_r : subg := run_sg (remove_node sg_star 1).
Lemma C31_leaf_ex :
  make_subgraph g_chain {[0; 1; 2; 3]} = Ok sg_ch ∧ sg_map sg_ch = [0; 1; 3; 2] ∧ sg_row sg_ch = [0; 1; 3; 4; 6] ∧
  sg_col sg_ch = [1; 0; 3; 3; 1; 2] ∧ remove_node sg_ch 0 = Ok sg_ch_r ∧
  sg_map sg_ch_r = [1; 3; 2] ∧ sg_row sg_ch_r = [0; 1; 2; 4] ∧ sg_col sg_ch_r = [2; 2; 0; 1] ∧
  make_subgraph g_star {[0; 1; 2]} = Ok sg_star ∧ sg_row sg_star = [0; 1; 2; 4] ∧ sg_col sg_star = [2; 2; 0; 1] ∧
  remove_node sg_star 0 = Err EUB ∧ remove_node sg_star 1 = Ok sg_star_r ∧
  sg_map sg_star_r = [0; 2] ∧ sg_row sg_star_r = [0; 1; 2] ∧ sg_col sg_star_r = [1; 0].
Proof. split_and!; vm_compute; reflexivity. Qed.
