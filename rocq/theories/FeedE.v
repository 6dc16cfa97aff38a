(** * FeedE: examples for C45 *)

From Coq Require Import QArith Qcanon.
From Verif Require Import Inst SpecSub SpecFeed GraphP BestE ApiE GrowE FeedT.
#[local] Open Scope Z_scope.
#[local] Open Scope nat_scope.
#[local] Existing Instance qarith | 100.
#[local] Existing Instance ord_id | 100.

(** The 3 x 3 grid; a path of seven cells, the first five of which form a
    line. *)
Definition line7_nc : @input qarith :=
  mk_aniso (chain7 false) false true None 0 false (in_val (chain7 false)) (qc 4 1).
Lemma C45_ex :
  (good_call grid9_nc o0 ∧ in_corr grid9_nc = false ∧ simple_csr (in_row grid9_nc) (in_col grid9_nc) ∧
   weak_order (@wlt qarith) (λ _, True) ∧
   agglomerate_one_level grid9_nc o0 = (Outs [0;0;1;0;0;1;2;2;2] [] [], Ok ())) ∧
  (good_call line7_nc o_line5 ∧ in_corr line7_nc = false ∧ simple_csr (in_row line7_nc) (in_col line7_nc) ∧
   aniso_on line7_nc o_line5 ∧ call_lines line7_nc o_line5 = Ok [[0;1;2;3;4]] ∧
   agglomerate_one_level line7_nc o_line5 = (Outs [0;0;1;1;1;2;2] [0;2] [0;1], Ok ()) ∧
   line_neighbours line7_nc [true;true;true;true;true;false;false] [[0;1;2;3;4]] = [5]).
Proof.
  split.
  - assert (good_call grid9_nc o0) as HG by (apply good_off; [done|vm_compute; reflexivity]).
    split; [done|]. split; [done|]. split; [apply (good_simple _ _ HG); vm_compute; reflexivity|].
    split; [apply q_weak_order|]. vm_compute; reflexivity.
  - assert (good_call line7_nc o_line5) as HG by (apply good_given; [done|vm_compute; reflexivity]).
    split; [done|]. split; [done|]. split; [apply (good_simple _ _ HG); vm_compute; reflexivity|].
    split; [split; [done|]; intros _; split; [simpl; lia|done]|].
    split; [vm_compute; reflexivity|]. split; vm_compute; reflexivity.
Qed.
