(** * HalfV: examples for C61, larger coarse cells are corrected *)

From Coq Require Import QArith Qcanon.
From Verif Require Import Inst Spec SpecSub SpecMove SpecTorn SpecChain GraphP MoveP ApiE GrowE MoveE TornE HalfE.
#[local] Open Scope Z_scope.
#[local] Open Scope nat_scope.
#[local] Existing Instance qarith | 100.
#[local] Existing Instance ord_id | 100.

(** Three numbers are in use, 2 is not one of them. *)
Lemma C61_any_ex : let i := tree10_in true 2 in
  good_call i o0 ∧ simple_csr (in_row i) (in_col i) ∧ ¬ aniso_on i o0 ∧ in_corr i = true ∧ corr_size i = 2%Z ∧
  (∀ x, x < in_n i → ∃ y, in_edge i x y ∧ y ≠ x) ∧
  agglomerate_one_level i o0 = (Outs [0;0;0;0;1;1;1;1;1;3] [] [], Ok ()) ∧
  size (list_to_set [0;0;0;0;1;1;1;1;1;3] : gset nat) = 3.
Proof.
  destruct C66_rule_ex as (HG & Hs & Hc & _ & E1 & _). cbv zeta. split; [exact HG|]. split; [exact Hs|].
  split; [by intros [? _]|]. split; [exact Hc|]. split; [vm_compute; reflexivity|]. split; [|split; [exact E1|vm_compute; reflexivity]].
  apply other_neighbour; [apply HG| |vm_compute; lia].
  apply tree_connected; [apply HG|vm_compute; reflexivity].
Qed.

(** The mesh of [comb6], coarse cells of two cells would be corrected. *)
Definition comb6_s2 : @input qarith :=
  let i := mk_input [[1;2;3]; [0;4;5]; [0]; [0]; [1]; [1]] [0;0;1;1;1;1]%Z 0 true 3 3 3 2 in
  mk_aniso i false true None 0 false (in_val i) (qc 4 1).
Lemma C61_alone_any_ex : good_call comb6_s2 o_comb ∧ simple_csr (in_row comb6_s2) (in_col comb6_s2) ∧
  in_corr comb6_s2 = true ∧ corr_size comb6_s2 = 2%Z ∧
  agglomerate_one_level comb6_s2 o_comb = (Outs [0;0;1;2;3;4] [0;1] [0], Ok ()) ∧
  let r := Outs [0;0;1;2;3;4] [0;1] [0] in
  let L : gset nat := {[2; 3; 4; 5]} in
  (∀ x, x < in_n comb6_s2 →
    (∀ y c, in_edge comb6_s2 x y → y ≠ x → o_fc2cc r !! y = Some c → aniso_id comb6_s2 o_comb r c) → x ∈ L) ∧
  2 * size (list_to_set (o_fc2cc r) : gset nat) = in_n comb6_s2 + size L.
Proof.
  assert (good_call comb6_s2 o_comb) as HG by (apply good_given; [done|vm_compute; reflexivity]).
  split; [exact HG|]. split; [apply (good_simple _ _ HG); vm_compute; reflexivity|]. split; [done|].
  split; [vm_compute; reflexivity|]. split; [vm_compute; reflexivity|]. cbv zeta. split; [|vm_compute; reflexivity].
  intros x Hx Hall. change (in_n comb6_s2) with 6 in Hx.
  destruct (decide (x = 0)) as [->|H0].
  { destruct (Hall 2 1) as [_ Hl]; [apply elem_of_nbl; vm_compute; set_solver|done|done|]. set_solver. }
  destruct (decide (x = 1)) as [->|H1].
  { destruct (Hall 4 3) as [_ Hl]; [apply elem_of_nbl; vm_compute; set_solver|done|done|]. set_solver. }
  assert (x = 2 ∨ x = 3 ∨ x = 4 ∨ x = 5) as Hx4 by lia. set_solver.
Qed.
