(** * PropsAlone: the coarse cells of lines and the isotropic arguments (C84) *)

From Verif Require Import Main Spec SpecUse SpecAlone Inst ApiE UseE PieceE PieceM AloneT AloneE.

#[local] Existing Instance qarith | 100.
#[local] Existing Instance ord_id | 100.

(** C84.  Two well-formed calls which differ only by the volumes, the seeds pool, the
    correction, the cardinalities, the aspect ratio, the threshold of the correction,
    the number of iterations and the neighbourhood: the lines which are returned and
    the coarse cells of the lines are the same, with the same numbers. *)
Theorem C84_lines_alone : ∀ {A : Arith} {H : HashOrder} i o vol order corr goal mn mx ar sing iter nbh r e r' e',
  let i' := put_iso i vol order corr goal mn mx ar sing iter nbh in
  good_call i o → good_call i' o → aniso_on i o →
  agglomerate_one_level i o = (r, e) → agglomerate_one_level i' o = (r', e') →
  o_idx r' = o_idx r ∧ o_lines r' = o_lines r ∧
  ∀ x c, c ∈ o_lines r → o_fc2cc r' !! x = Some c ↔ o_fc2cc r !! x = Some c.
Proof. exact @C84_lem. Qed.
Print Assumptions C84_lines_alone.

Example C84_lines_alone_example :
  good_call paths_g o_two ∧ good_call paths_i o_two ∧ aniso_on paths_g o_two ∧
  agglomerate_one_level paths_g o_two = (Outs [1;3;0;3;0;5;4;5;4;5;2] [0;1] [0], Ok ()) ∧
  agglomerate_one_level paths_i o_two = (Outs [1;4;0;4;0;4;2;4;2;5;3] [0;1] [0], Ok ()).
Proof. exact @C84_ex. Qed.

(** C84 for lines given by the caller: the faces, their weights, the centres, the
    compliant cells and the hash orders do not matter either. *)
Theorem C84_given_lines : ∀ {A : Arith} (H H' : HashOrder) i i' o r e r' e',
  good_call i o → good_call i' o → aniso_on i o → aniso_on i' o → in_build i = false → in_build i' = false →
  in_odd i' = in_odd i → in_maxline i' = in_maxline i → in_prio i' = in_prio i → in_bnd i' = in_bnd i → in_dim i' = in_dim i →
  @agglomerate_one_level A H i o = (r, e) → @agglomerate_one_level A H' i' o = (r', e') →
  o_idx r' = o_idx r ∧ o_lines r' = o_lines r ∧
  ∀ x c, c ∈ o_lines r → o_fc2cc r' !! x = Some c ↔ o_fc2cc r !! x = Some c.
Proof. exact @C84_given_lem. Qed.
Print Assumptions C84_given_lines.

Example C84_given_lines_example :
  good_call paths_g o_two ∧ good_call paths_j o_two ∧ aniso_on paths_g o_two ∧ aniso_on paths_j o_two ∧
  in_build paths_g = false ∧ in_build paths_j = false ∧
  in_odd paths_j = in_odd paths_g ∧ in_maxline paths_j = in_maxline paths_g ∧ in_prio paths_j = in_prio paths_g ∧
  in_bnd paths_j = in_bnd paths_g ∧ in_dim paths_j = in_dim paths_g ∧
  agglomerate_one_level paths_g o_two = (Outs [1;3;0;3;0;5;4;5;4;5;2] [0;1] [0], Ok ()) ∧
  @agglomerate_one_level qarith ord_rev paths_j o_two = (Outs [1;2;0;2;0;4;3;4;3;4;2] [0;1] [0], Ok ()).
Proof. exact @C84_given_ex. Qed.
