(** * PropsTorn: coarse cells torn by the correction (C36, C66) *)

From Verif Require Import Main Spec SpecSub SpecMove SpecTorn Inst ApiE GrowE MoveE TornT TornE CountT.

#[local] Existing Instance qarith | 100.
#[local] Existing Instance ord_id | 100.

(** C66, what the correction does for any threshold.  A cell is left behind in a coarse cell
    which lost others only if it has no neighbour in another isotropic coarse cell.  The
    numbers used afterwards are those of the coarse cells which lost no cell, renumbered
    without gaps, and those of the removed ones in which a cell is left behind.  If there
    is none of the latter, the numbers have no gaps and the coarse cells are connected; a
    cell left behind with a number which is given to another coarse cell makes that one
    disconnected. *)
Theorem C66_rule_partial : ∀ {A : Arith} {H : HashOrder} (i : input) (o : outs) r0 e0 r e,
  good_call i o → simple_csr (in_row i) (in_col i) → in_corr i = true →
  agglomerate_one_level (uncorrected i) o = (r0, e0) → agglomerate_one_level i o = (r, e) →
  ∃ R f1 n0, corrected_via i o r0 r R f1 ∧ (∀ c, c < n0 ↔ ∃ x, o_fc2cc r0 !! x = Some c) ∧
    (∀ c, (∃ x, o_fc2cc r !! x = Some c) ↔ c < n0 - size R ∨ ∃ x, left_behind r0 R f1 x c) ∧
    (∀ x k, left_behind r0 R f1 x k →
       small_id i o r0 k ∧ ¬ touches i o r0 x ∧ ∃ x', o_fc2cc r0 !! x' = Some k ∧ touches i o r0 x') ∧
    ((∀ x k, ¬ left_behind r0 R f1 x k) → contiguous (o_fc2cc r) ∧
       (given_paths i o → ∀ c, connected (in_edge i) (cells_of (o_fc2cc r) c))) ∧
    (∀ x c, left_behind r0 R f1 x c → c < n0 - size R → ¬ connected (in_edge i) (cells_of (o_fc2cc r) c)).
Proof. exact @C66_rule_lem. Qed.
Print Assumptions C66_rule_partial.

Example C66_rule_partial_example :
  let i := tree10_in true 2 in let r0 := Outs [0;0;0;1;1;2;2;2;3;3] [] [] in
  good_call i o0 ∧ simple_csr (in_row i) (in_col i) ∧ in_corr i = true ∧
  agglomerate_one_level (uncorrected i) o0 = (r0, Ok ()) ∧
  agglomerate_one_level i o0 = (Outs [0;0;0;0;1;1;1;1;1;3] [] [], Ok ()) ∧
  left_behind r0 {[1;3]} [0;0;0;0;1;2;2;2;2;3] 4 1 ∧ left_behind r0 {[1;3]} [0;0;0;0;1;2;2;2;2;3] 9 3.
Proof. exact @C66_rule_ex. Qed.

(** C66 (and C02, C03), a condition on the result without correction: in each coarse cell to
    correct all cells, or none, have a neighbour in another isotropic coarse cell.  This is
    so for single cells. *)
Theorem C66_touching_partial : ∀ {A : Arith} {H : HashOrder} (i : input) (o : outs) r0 e0 r e,
  good_call i o → simple_csr (in_row i) (in_col i) → in_corr i = true →
  agglomerate_one_level (uncorrected i) o = (r0, e0) → agglomerate_one_level i o = (r, e) →
  (∀ k, small_id i o r0 k → (∀ x, o_fc2cc r0 !! x = Some k → touches i o r0 x) ∨
     (∀ x, o_fc2cc r0 !! x = Some k → ¬ touches i o r0 x)) →
  contiguous (o_fc2cc r) ∧ (given_paths i o → ∀ c, connected (in_edge i) (cells_of (o_fc2cc r) c)).
Proof. exact @C66_static_lem. Qed.
Print Assumptions C66_touching_partial.

Example C66_touching_partial_example :
  let i := ring5_in true in let r0 := Outs [0;0;1;1;0] [] [] in
  good_call i o0 ∧ simple_csr (in_row i) (in_col i) ∧ in_corr i = true ∧ corr_size i = 2%Z ∧
  agglomerate_one_level (uncorrected i) o0 = (r0, Ok ()) ∧
  (∀ k, small_id i o0 r0 k → (∀ x, o_fc2cc r0 !! x = Some k → touches i o0 r0 x) ∨
     (∀ x, o_fc2cc r0 !! x = Some k → ¬ touches i o0 r0 x)) ∧
  agglomerate_one_level i o0 = (Outs [0;0;0;0;0] [] [], Ok ()).
Proof. exact @C66_static_ex. Qed.

(** C66 is false: ten cells and a threshold of two. *)
Theorem C66_torn_refuted :
  ∃ (i : @input qarith) o r0 r c,
  good_call i o ∧ simple_csr (in_row i) (in_col i) ∧ in_aniso i = false ∧ in_corr i = true ∧ corr_size i = 2%Z ∧
  agglomerate_one_level (uncorrected i) o = (r0, Ok ()) ∧ agglomerate_one_level i o = (r, Ok ()) ∧
  ¬ contiguous (o_fc2cc r) ∧ ¬ connected (in_edge i) (cells_of (o_fc2cc r) c).
Proof. exact @C66_ref. Qed.
Print Assumptions C66_torn_refuted.

(** C36 after the correction, for any threshold.  The counter is still the number of coarse
    cells before it.  Where no coarse cell is torn, it is therefore right exactly if the
    correction changed nothing.  Missing: the property itself, false
    ([C36_number_of_cells_refuted]). *)
Theorem C36_counter_after_correction_partial : ∀ {A : Arith} {H : HashOrder} (i : input) (o : outs) r0 e0 r e,
  good_call i o → simple_csr (in_row i) (in_col i) → in_corr i = true →
  agglomerate_one_level (uncorrected i) o = (r0, e0) → agglomerate_one_level i o = (r, e) →
  ∃ ctA p lo ct, phase1 i o = Ok (ctA, p, lo) ∧ phase2 i ctA p = Ok ct ∧
    (∀ c, c < ct_n ct ↔ ∃ x, o_fc2cc r0 !! x = Some c) ∧
    ((∀ k, small_id i o r0 k → (∀ x, o_fc2cc r0 !! x = Some k → touches i o r0 x) ∨
       (∀ x, o_fc2cc r0 !! x = Some k → ¬ touches i o r0 x)) →
     (∀ c, c < ct_n ct ↔ ∃ x, o_fc2cc r !! x = Some c) ↔ o_fc2cc r = o_fc2cc r0).
Proof. exact @C36_after_lem. Qed.
Print Assumptions C36_counter_after_correction_partial.

Example C36_counter_after_correction_partial_example :
  let i := ring5_in true in let r0 := Outs [0;0;1;1;0] [] [] in
  good_call i o0 ∧ simple_csr (in_row i) (in_col i) ∧ in_corr i = true ∧ corr_size i = 2%Z ∧
  agglomerate_one_level (uncorrected i) o0 = (r0, Ok ()) ∧
  (∀ k, small_id i o0 r0 k → (∀ x, o_fc2cc r0 !! x = Some k → touches i o0 r0 x) ∨
     (∀ x, o_fc2cc r0 !! x = Some k → ¬ touches i o0 r0 x)) ∧
  agglomerate_one_level i o0 = (Outs [0;0;0;0;0] [] [], Ok ()).
Proof. exact @C66_static_ex. Qed.
