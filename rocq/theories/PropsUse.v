(** * PropsUse: which data of a call matter (C52, C53) *)

From Verif Require Import Main Spec SpecUse Inst ApiE UseT UseU UseE.

#[local] Existing Instance qarith | 100.
#[local] Existing Instance ord_id | 100.

(** C52.  Priorities in the same order give the same outcome and the same
    outputs, whatever the call. *)
Theorem C52_order_only : ∀ {A : Arith} {H : HashOrder} i o prio',
  same_order (in_prio i) prio' →
  (in_order i = 10%Z ∨ in_order i = 11%Z → same_floor (in_prio i) prio') →
  agglomerate_one_level (put_prio i prio') o = agglomerate_one_level i o.
Proof. exact @C52_lem. Qed.
Print Assumptions C52_order_only.

Example C52_order_only_example :
  let i := put_prio (grid9_ord 10) (up9 1) in
  same_order (in_prio i) (up9 7) ∧ (in_order i = 10%Z ∨ in_order i = 11%Z → same_floor (in_prio i) (up9 7)) ∧
  in_prio i ≠ up9 7 ∧
  agglomerate_one_level (put_prio i (up9 7)) o0 = (Outs [1;1;2;0;0;2;0;0;2] [] [], Ok ()).
Proof. exact @C52_ex. Qed.

(** C52.  With a one-point seeds pool the comparison with the smallest positive
    weight matters, and the order of the priorities does matter. *)
Theorem C52_conditions_needed :
  (∃ i o prio', same_order (in_prio i) prio' ∧ in_order i = 10%Z ∧ good_call i o ∧
     (agglomerate_one_level i o).2 = Ok () ∧ (agglomerate_one_level (put_prio i prio') o).2 = Err EUB) ∧
  ∃ i o prio', length prio' = length (in_prio i) ∧ good_call i o ∧ good_call (put_prio i prio') o ∧
     agglomerate_one_level (put_prio i prio') o ≠ agglomerate_one_level i o.
Proof. exact @C52_needed_lem. Qed.
Print Assumptions C52_conditions_needed.

(** C53.  Numbers of boundary faces above the dimension count as the dimension. *)
Theorem C53_boundary_faces : ∀ {A : Arith} {H : HashOrder} i o bnd,
  map (Z.min (in_dim i)) bnd = map (Z.min (in_dim i)) (in_bnd i) →
  agglomerate_one_level (put_bnd i bnd) o = agglomerate_one_level i o.
Proof. exact @C53_bnd_lem. Qed.
Print Assumptions C53_boundary_faces.

Example C53_boundary_faces_example :
  let i := grid9_ord 0 in let bnd := [5;1;2;1;0;1;7;1;2]%Z in
  map (Z.min (in_dim i)) bnd = map (Z.min (in_dim i)) (in_bnd i) ∧ bnd ≠ in_bnd i ∧
  agglomerate_one_level (put_bnd i bnd) o0 = (Outs [0;0;1;0;0;1;2;2;2] [] [], Ok ()).
Proof. exact @C53_bnd_ex. Qed.

(** C53.  Without anisotropy none of the anisotropic arguments matters, and the
    vectors of lines are left as they are. *)
Theorem C53_anisotropy_off : ∀ {A : Arith} {H : HashOrder} i o o' compl build odd thr ml cp force r e,
  in_aniso i = false → agglomerate_one_level i o = (r, e) →
  let res := agglomerate_one_level (put_aniso i compl build odd thr ml cp force) o' in
  res.2 = e ∧ o_idx res.1 = o_idx o' ∧ o_lines res.1 = o_lines o' ∧ (e = Ok () → o_fc2cc res.1 = o_fc2cc r).
Proof. exact @C53_off_lem. Qed.
Print Assumptions C53_anisotropy_off.

Example C53_anisotropy_off_example :
  let i := grid9_ord 0 in in_aniso i = false ∧
  agglomerate_one_level i o0 = (Outs [0;0;1;0;0;1;2;2;2] [] [], Ok ()) ∧
  agglomerate_one_level (put_aniso i [] true false (qc 0 1) (Some 1%Z) 1 true) (Outs [] [0;7;3] [99]) =
    (Outs [0;0;1;0;0;1;2;2;2] [0;7;3] [99], Ok ()).
Proof. exact @C53_off_ex. Qed.

(** C53.  If the lines are not to be built, the compliant cells, the threshold,
    the cell coupling and the imposed direction do not matter. *)
Theorem C53_lines_given : ∀ {A : Arith} {H : HashOrder} i o compl thr cp force,
  in_build i = false →
  agglomerate_one_level (put_aniso i compl false (in_odd i) thr (in_maxline i) cp force) o = agglomerate_one_level i o.
Proof. exact @C53_given_lem. Qed.
Print Assumptions C53_lines_given.

Example C53_lines_given_example :
  let i := line7 true None in in_build i = false ∧
  agglomerate_one_level (put_aniso i [99] false (in_odd i) (qc 0 1) (in_maxline i) 1 true) o_line5 =
    (Outs [0;0;1;1;1;2;2] [0;2] [0;1], Ok ()).
Proof. exact @C53_given_ex. Qed.

(** C53.  Without correction the threshold of the correction does not matter. *)
Theorem C53_threshold_without_correction : ∀ {A : Arith} {H : HashOrder} i o s,
  in_corr i = false → (0 < in_sing i)%Z → (0 < s)%Z →
  agglomerate_one_level (put_sing i s) o = agglomerate_one_level i o.
Proof. exact @C53_thr_lem. Qed.
Print Assumptions C53_threshold_without_correction.

Example C53_threshold_without_correction_example :
  let i := tree10_in false 1 in in_corr i = false ∧ (0 < in_sing i)%Z ∧
  agglomerate_one_level (put_sing i 2) o0 = agglomerate_one_level i o0 ∧
  agglomerate_one_level (put_sing (tree10_in true 1) 2) o0 ≠ agglomerate_one_level (tree10_in true 1) o0.
Proof. exact @C53_thr_ex. Qed.

(** C53.  All thresholds which reach the minimal cardinality are equivalent. *)
Theorem C53_threshold_clipped : ∀ {A : Arith} {H : HashOrder} i o s,
  (in_min i <= in_sing i)%Z → (in_min i <= s)%Z → (1 < in_min i)%Z →
  agglomerate_one_level (put_sing i s) o = agglomerate_one_level i o.
Proof. exact @C53_clip_lem. Qed.
Print Assumptions C53_threshold_clipped.

Example C53_threshold_clipped_example :
  let i := tree10_in true 3 in (in_min i <= in_sing i)%Z ∧ (1 < in_min i)%Z ∧
  agglomerate_one_level (put_sing i 100) o0 = (Outs [0;0;0;0;1;1;1;1;1;3] [] [], Ok ()).
Proof. exact @C53_clip_ex. Qed.

(** C53.  All the codes of the neighbourhood but 0 are equivalent. *)
Theorem C53_neighbourhood_codes : ∀ {A : Arith} {H : HashOrder} i o nbh,
  in_nbh i ≠ 0%Z → nbh ≠ 0%Z → agglomerate_one_level (put_nbh i nbh) o = agglomerate_one_level i o.
Proof. exact @C53_nbh_lem. Qed.
Print Assumptions C53_neighbourhood_codes.

Example C53_neighbourhood_codes_example :
  let i := put_nbh (grid9_ord 0) 1 in in_nbh i ≠ 0%Z ∧
  (agglomerate_one_level (put_nbh i 5) o0).2 = Ok ().
Proof. exact @C53_nbh_ex. Qed.

(** C53.  All the codes of the cell coupling but 1 are equivalent. *)
Theorem C53_coupling_codes : ∀ {A : Arith} {H : HashOrder} i o cp,
  in_coupling i ≠ 1%Z → cp ≠ 1%Z →
  agglomerate_one_level (put_aniso i (in_compl i) (in_build i) (in_odd i) (in_thr i) (in_maxline i) cp (in_force i)) o
  = agglomerate_one_level i o.
Proof. exact @C53_coupling_lem. Qed.
Print Assumptions C53_coupling_codes.

Example C53_coupling_codes_example :
  let i := built6 0 false in in_coupling i ≠ 1%Z ∧
  (agglomerate_one_level (put_aniso i (in_compl i) (in_build i) (in_odd i) (in_thr i) (in_maxline i) 5 (in_force i)) o0).2 = Ok ().
Proof. exact @C53_coupling_ex. Qed.

(** C53.  The previous contents of the output vector do not matter. *)
Theorem C53_previous_contents : ∀ {A : Arith} {H : HashOrder} i o f,
  (agglomerate_one_level i (put_fc2cc o f)).2 = (agglomerate_one_level i o).2 ∧
  ∀ r, agglomerate_one_level i o = (r, Ok ()) → agglomerate_one_level i (put_fc2cc o f) = (r, Ok ()).
Proof. exact @C53_out_lem. Qed.
Print Assumptions C53_previous_contents.

Example C53_previous_contents_example :
  agglomerate_one_level grid9_in (put_fc2cc o0 [7;7]) = (Outs [0;0;1;0;0;1;2;2;2] [] [], Ok ()).
Proof. exact @C53_out_ex. Qed.
