(** * SpecPiece: a call for one piece of a mesh (C63) *)

From Verif Require Import Main Spec SpecSub SpecRenum.

Section piece.
Context {A : Arith}.
Implicit Types (i : input).

(** [i1] describes a piece of the mesh of [i] by itself: cell [x] of the piece
    is cell [f x] of [i], [h] is the inverse of [f].  The faces of a cell of the
    piece are the same in both, so that none of them leads out of the piece. *)
Record piece (f h : nat → nat) i1 i : Prop := {
  pc_left : ∀ x, h (f x) = x;
  pc_some : 0 < in_n i1;
  pc_cells : ∀ x, f x < in_n i ↔ x < in_n i1;
  pc_csr : csr (in_n i1) (in_row i1) (in_col i1);
  pc_val : length (in_val i1) = length (in_col i1);
  pc_faces : ∀ x, entries (in_row i) (in_col i) (in_val i) (f x) ≡ₚ
    prod_map f id <$> entries (in_row i1) (in_col i1) (in_val i1) x;
  pc_vol : ∀ x, in_vol i !! f x = in_vol i1 !! x;
  pc_cen : ∀ x, in_cen i !! f x = in_cen i1 !! x;
  pc_prio : ∀ x, in_prio i !! f x = in_prio i1 !! x;
  pc_bnd : ∀ x, in_bnd i !! f x = in_bnd i1 !! x;
  pc_compl : ∀ x, x ∈ in_compl i1 ↔ f x ∈ in_compl i;
  pc_rest : i1 = put_mesh i (in_row i1) (in_col i1) (in_val i1) (in_vol i1) (in_cen i1) (in_prio i1)
    (in_compl i1) (in_bnd i1);
}.

(** The lines [ls1] of the piece are those of the lines [ls] of the mesh which
    have cells in the piece, in the same order; the other ones have no cell in
    it. *)
Inductive lines_among (f : nat → nat) : list (list nat) → list (list nat) → Prop :=
| la_nil : lines_among f [] []
| la_in l ls1 ls : lines_among f ls1 ls → lines_among f (l :: ls1) ((f <$> l) :: ls)
| la_out l ls1 ls : (∀ x, f x ∉ l) → lines_among f ls1 ls → lines_among f ls1 (l :: ls).
End piece.
