(** * StrictE: examples for C65 *)

From Coq Require Import QArith Qcanon.
From Verif Require Import Inst SpecSub SpecMove GraphP ApiE GrowE MoveT MoveE Strict SpecStrict StrictT.
#[local] Open Scope Z_scope.
#[local] Open Scope nat_scope.
#[local] Existing Instance qarith | 100.
#[local] Existing Instance ord_id | 100.

(** A cell with two leaves and a chain of three cells. *)
Definition fork6 : list (list nat) := [[1;2;3];[0];[0];[0;4];[3;5];[4]].
Definition fork6_in (corr : bool) : @input qarith := mk_input fork6 [1;0;0;0;0;0]%Z 0 corr 2 2 2 1.

Lemma fork6_good corr : good_call (fork6_in corr) o0.
Proof. destruct corr; (apply good_off; [done|vm_compute; reflexivity]). Qed.

(** The coarse cell of cell 2 is removed, the one of the cells 3 and 4 gets its number. *)
Lemma C65_ref : ∃ (i : @input qarith) o r0 r, good_call i o ∧ simple_csr (in_row i) (in_col i) ∧ in_corr i = true ∧
  corr_size i = 1%Z ∧ agglomerate_one_level (uncorrected i) o = (r0, Ok ()) ∧ agglomerate_one_level i o = (r, Ok ()) ∧
  (agglomerate_strict i o).2 = Err EUB ∧ o_fc2cc r0 = [0;0;1;2;2;3] ∧ o_fc2cc r = [0;0;0;1;1;1].
Proof.
  exists (fork6_in true), o0, (Outs [0;0;1;2;2;3] [] []), (Outs [0;0;0;1;1;1] [] []).
  split; [apply fork6_good|]. split; [apply (good_simple _ _ (fork6_good true)); vm_compute; reflexivity|].
  split; [done|]. split; [done|]. split; [vm_compute; reflexivity|]. split; [vm_compute; reflexivity|].
  split; [vm_compute; reflexivity|done].
Qed.

(** Only the last coarse cell is removed. *)
Lemma C65_rule_ex : good_call (chain7 true) o0 ∧ in_corr (chain7 true) = true ∧
  simple_csr (in_row (chain7 true)) (in_col (chain7 true)) ∧
  agglomerate_one_level (uncorrected (chain7 true)) o0 = (Outs [0;0;1;1;2;2;3] [] [], Ok ()) ∧
  agglomerate_one_level (chain7 true) o0 = (Outs [0;0;1;1;2;2;2] [] [], Ok ()) ∧
  agglomerate_strict (chain7 true) o0 = (Outs [0;0;1;1;2;2;2] [] [], Ok ()).
Proof.
  pose proof (chain7_good true) as HG. split; [done|]. split; [done|].
  split; [apply (good_simple _ _ HG); vm_compute; reflexivity|].
  split; [vm_compute; reflexivity|]. split; vm_compute; reflexivity.
Qed.
Lemma C65_off_ex : in_corr (fork6_in false) = false ∧ agglomerate_strict (fork6_in false) o0 = (Outs [0;0;1;2;2;3] [] [], Ok ()).
Proof. split; [done|]. vm_compute. reflexivity. Qed.
Lemma C65_either_ex : agglomerate_strict (fork6_in true) o0 = (Outs [] [] [], Err EUB) ∧
  agglomerate_strict (chain7 true) o0 = agglomerate_one_level (chain7 true) o0.
Proof. split; vm_compute; reflexivity. Qed.
