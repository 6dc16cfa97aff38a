(** * SpecRenum: the same call with the cells numbered otherwise (C60) *)

From Verif Require Import Main Spec SpecSub.

Section renum.
Context {A : Arith}.
Implicit Types (i : input).

(** Other vectors, the same scalar arguments. *)
Definition put_mesh i (row col : list nat) (val vol : list W) (cen : list (list W)) (prio : list W)
    (compl : list nat) (bnd : list Z) : input :=
  @Input A row col val vol cen prio compl bnd (in_build i) (in_aniso i)
    (in_odd i) (in_thr i) (in_order i) (in_corr i) (in_dim i) (in_goal i) (in_min i) (in_max i) (in_ar i) (in_sing i)
    (in_maxline i) (in_coupling i) (in_force i) (in_iter i) (in_nbh i).

(** [i'] describes the mesh of [i] with cell [x] called [f x]; [h] is the
    inverse of [f].  The faces of a cell may be listed in another order too. *)
Record relabelled (f h : nat → nat) i i' : Prop := {
  rn_left : ∀ x, h (f x) = x;
  rn_right : ∀ x, f (h x) = x;
  rn_cells : ∀ x, f x < in_n i ↔ x < in_n i;
  rn_csr : csr (in_n i) (in_row i') (in_col i');
  rn_val : length (in_val i') = length (in_col i');
  rn_faces : ∀ x, entries (in_row i') (in_col i') (in_val i') (f x) ≡ₚ
    prod_map f id <$> entries (in_row i) (in_col i) (in_val i) x;
  rn_vol : ∀ x, in_vol i' !! f x = in_vol i !! x;
  rn_cen : ∀ x, in_cen i' !! f x = in_cen i !! x;
  rn_prio : ∀ x, in_prio i' !! f x = in_prio i !! x;
  rn_bnd : ∀ x, in_bnd i' !! f x = in_bnd i !! x;
  rn_compl : ∀ x, f x ∈ in_compl i' ↔ x ∈ in_compl i;
  rn_rest : i' = put_mesh i (in_row i') (in_col i') (in_val i') (in_vol i') (in_cen i') (in_prio i')
    (in_compl i') (in_bnd i');
}.

(** Cells whose priorities do not differ keep their relative order. *)
Definition keeps_ties (f : nat → nat) i : Prop :=
  ∀ x y wx wy, in_prio i !! x = Some wx → in_prio i !! y = Some wy →
    wlt wx wy = false → wlt wy wx = false → x < y → f x < f y.

(** Cells which do not have the same number of boundary faces, counted up to
    the dimension, keep their relative order. *)
Definition keeps_levels (f : nat → nat) i : Prop :=
  ∀ x y bx b_y, in_bnd i !! x = Some bx → in_bnd i !! y = Some b_y →
    Z.min bx (in_dim i) ≠ Z.min b_y (in_dim i) → x < y → f x < f y.
End renum.
