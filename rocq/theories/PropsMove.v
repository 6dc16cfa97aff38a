(** * PropsMove: the correction of the coarse cells which are too small (C41, C46) *)

From Verif Require Import Features Main Spec SpecSub SpecMove GraphP ApiE MoveT MoveE Inst.

#[local] Existing Instance qarith | 100.
#[local] Existing Instance ord_id | 100.

(** C41.  A call with correction compared with the same call without it.  The
    isotropic coarse cells whose size is at most the threshold are treated by
    increasing number.  One with several cells joins as a whole the smallest of
    the isotropic coarse cells next to it which it makes more compact, if there
    is one.  Otherwise its cells join one by one an isotropic coarse cell which
    was next to them: one which becomes more compact if possible, then the one
    which shares most faces with the cell, then the smallest, then the one with
    the lowest number; a cell next to none stays.  Coarse cells which lost a cell
    are then removed and the others renumbered in the same order; cells which
    stayed in a removed one keep its number. *)
Theorem C41_correction : ∀ {A : Arith} {H : HashOrder} i o r0 e0 r e,
  good_call i o → simple_csr (in_row i) (in_col i) → in_corr i = true →
  agglomerate_one_level (uncorrected i) o = (r0, e0) → agglomerate_one_level i o = (r, e) →
  e0 = Ok () ∧ e = Ok () ∧ corrected_from i o r0 r.
Proof. exact @C41_lem. Qed.
Print Assumptions C41_correction.

Example C41_correction_example :
  (good_call (chain7 true) o0 ∧ in_corr (chain7 true) = true ∧
   simple_csr (in_row (chain7 true)) (in_col (chain7 true)) ∧ corr_size (chain7 true) = 1%Z ∧
   agglomerate_one_level (uncorrected (chain7 true)) o0 = (Outs [0;0;1;1;2;2;3] [] [], Ok ()) ∧
   agglomerate_one_level (chain7 true) o0 = (Outs [0;0;1;1;2;2;2] [] [], Ok ())) ∧
  (good_call (ring5_in true) o0 ∧ in_corr (ring5_in true) = true ∧
   simple_csr (in_row (ring5_in true)) (in_col (ring5_in true)) ∧ corr_size (ring5_in true) = 2%Z ∧
   agglomerate_one_level (uncorrected (ring5_in true)) o0 = (Outs [0;0;1;1;0] [] [], Ok ()) ∧
   agglomerate_one_level (ring5_in true) o0 = (Outs [0;0;0;0;0] [] [], Ok ())) ∧
  (good_call (tree10_in true 2) o0 ∧ in_corr (tree10_in true 2) = true ∧
   simple_csr (in_row (tree10_in true 2)) (in_col (tree10_in true 2)) ∧ corr_size (tree10_in true 2) = 2%Z ∧
   agglomerate_one_level (uncorrected (tree10_in true 2)) o0 = (Outs [0;0;0;1;1;2;2;2;3;3] [] [], Ok ()) ∧
   agglomerate_one_level (tree10_in true 2) o0 = (Outs [0;0;0;0;1;1;1;1;1;3] [] [], Ok ()) ∧
   map (rank {[1;3]}) [0;2] = [0;1]).
Proof. exact @C41_ex. Qed.

(** C46, the part which holds: if a cell is the only one to correct and no
    isotropic coarse cell next to it becomes more compact with it, it joins the
    one which shares the most faces with it.  (C41 gives the full rule.) *)
Theorem C46_most_faces_partial : ∀ {A : Arith} {H : HashOrder} i o r0 e0 r e x k0,
  good_call i o → simple_csr (in_row i) (in_col i) → in_corr i = true →
  agglomerate_one_level (uncorrected i) o = (r0, e0) → agglomerate_one_level i o = (r, e) →
  (∀ k, iso_id i o r0 k ∧ (Z.of_nat (size (cells_in (o_fc2cc r0) k)) <= corr_size i)%Z ↔ k = k0) →
  cells_in (o_fc2cc r0) k0 = {[x]} →
  (∀ k, beside (in_row i) (in_col i) (iso_id i o r0) (o_fc2cc r0) k0 {[x]} k →
     ¬ gains (in_row i) (in_col i) {[x]} (cells_in (o_fc2cc r0) k)) →
  ∀ y k k', o_fc2cc r0 !! y = Some k → k ≠ k0 → o_fc2cc r !! y = o_fc2cc r !! x →
    beside (in_row i) (in_col i) (iso_id i o r0) (o_fc2cc r0) k0 {[x]} k' →
    faces_with (in_row i) (in_col i) x (cells_in (o_fc2cc r0) k')
      ≤ faces_with (in_row i) (in_col i) x (cells_in (o_fc2cc r0) k).
Proof. exact @C46_lem. Qed.
Print Assumptions C46_most_faces_partial.

Example C46_most_faces_partial_example :
  let r0 := Outs [0;0;1;1;2;2;3] [] [] in let i := chain7 true in
  good_call i o0 ∧ simple_csr (in_row i) (in_col i) ∧ in_corr i = true ∧
  agglomerate_one_level (uncorrected i) o0 = (r0, Ok ()) ∧
  (∀ k, iso_id i o0 r0 k ∧ (Z.of_nat (size (cells_in (o_fc2cc r0) k)) <= corr_size i)%Z ↔ k = 3) ∧
  cells_in (o_fc2cc r0) 3 = {[6]} ∧
  (∀ k, beside (in_row i) (in_col i) (iso_id i o0 r0) (o_fc2cc r0) 3 {[6]} k →
     ¬ gains (in_row i) (in_col i) {[6]} (cells_in (o_fc2cc r0) k)).
Proof. exact @C46_ex. Qed.

(** C46 at full strength ("we prefer the coarse cell which shares the most faces
    with the fine cell", Coarse_Cell_Container.h:326-329) is false: a coarse cell
    which becomes more compact is preferred even if it shares fewer faces. *)
Theorem C46_most_faces_refuted :
  ∃ (i : @input qarith) o r0 r x k0 y k z k',
  good_call i o ∧ simple_csr (in_row i) (in_col i) ∧ in_corr i = true ∧
  agglomerate_one_level (uncorrected i) o = (r0, Ok ()) ∧ agglomerate_one_level i o = (r, Ok ()) ∧
  (Z.of_nat (size (cells_in (o_fc2cc r0) k0)) <= corr_size i)%Z ∧ cells_in (o_fc2cc r0) k0 = {[x]} ∧
  o_fc2cc r0 !! y = Some k ∧ o_fc2cc r !! y = o_fc2cc r !! x ∧
  o_fc2cc r0 !! z = Some k' ∧ o_fc2cc r !! z ≠ o_fc2cc r !! x ∧
  beside (in_row i) (in_col i) (iso_id i o r0) (o_fc2cc r0) k0 {[x]} k' ∧
  faces_with (in_row i) (in_col i) x (cells_in (o_fc2cc r0) k)
    < faces_with (in_row i) (in_col i) x (cells_in (o_fc2cc r0) k').
Proof. exact @C46_ref. Qed.
Print Assumptions C46_most_faces_refuted.
