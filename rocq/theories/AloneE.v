(** * AloneE: example for C84 *)

From Coq Require Import QArith Qcanon.
From Verif Require Import Inst Spec SpecUse SpecAlone ApiE UseE MoveE RenumE PieceE PieceM.
#[local] Open Scope Z_scope.
#[local] Open Scope nat_scope.
#[local] Existing Instance qarith | 100.
#[local] Existing Instance ord_id | 100.

(** A line of two cells in the first of the two paths of [paths_g]; then other
    volumes, another seeds pool, a correction which is switched off and other
    cardinalities. *)
Definition o_two : outs := Outs [] [0;2] [2;4].
Definition paths_i : @input qarith := put_iso paths_g (replicate 11 (qc 3 1)) 1 false 3 2 4 2 1 1 0.

Lemma C84_ex : good_call paths_g o_two ∧ good_call paths_i o_two ∧ aniso_on paths_g o_two ∧
  agglomerate_one_level paths_g o_two = (Outs [1;3;0;3;0;5;4;5;4;5;2] [0;1] [0], Ok ()) ∧
  agglomerate_one_level paths_i o_two = (Outs [1;4;0;4;0;4;2;4;2;5;3] [0;1] [0], Ok ()).
Proof.
  split; [apply good_given; [done|vm_compute; reflexivity]|]. split; [apply good_given; [done|vm_compute; reflexivity]|].
  split; [split; [done|]; intros _; split; [simpl; lia|done]|]. split; vm_compute; reflexivity.
Qed.

(** Other faces and other hash orders. *)
Definition paths_j : @input qarith :=
  put_prio (mk_aniso (mk_input [[2];[3;10];[0;4];[1];[2;6];[7];[4;8];[5;9];[6];[7];[1]] [2;2;1;0;0;1;1;0;2;1;2]%Z 0 true 2 2 2 1)
    false true None 0 false (replicate 16 (qc 2 1)) (qc 4 1)) (map (λ z, qc z 1) [1;1;3;2;7;4;5;5;1;6;2]%Z).

Lemma C84_given_ex : good_call paths_g o_two ∧ good_call paths_j o_two ∧ aniso_on paths_g o_two ∧ aniso_on paths_j o_two ∧
  in_build paths_g = false ∧ in_build paths_j = false ∧
  in_odd paths_j = in_odd paths_g ∧ in_maxline paths_j = in_maxline paths_g ∧ in_prio paths_j = in_prio paths_g ∧
  in_bnd paths_j = in_bnd paths_g ∧ in_dim paths_j = in_dim paths_g ∧
  agglomerate_one_level paths_g o_two = (Outs [1;3;0;3;0;5;4;5;4;5;2] [0;1] [0], Ok ()) ∧
  @agglomerate_one_level qarith ord_rev paths_j o_two = (Outs [1;2;0;2;0;4;3;4;3;4;2] [0;1] [0], Ok ()).
Proof.
  split; [apply good_given; [done|vm_compute; reflexivity]|]. split; [apply good_given; [done|vm_compute; reflexivity]|].
  do 2 (split; [split; [done|]; intros _; split; [simpl; lia|done]|]). split_and!; vm_compute; reflexivity.
Qed.
