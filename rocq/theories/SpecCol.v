(** * SpecCol: cells arranged in columns, as in boundary layers (C69)

    "Detection and treatment of anisotropic regions" is announced by
    README.md:20.  Nothing in here uses a function of the model. *)

From Verif Require Import Base Main Spec SpecSub SpecFeat SpecLine SpecGrid.

Section col.
Context {A : Arith}.

(** [x] and [y] follow each other in the column [c], in this order or in the
    other one. *)
Definition beside (c : list nat) (x y : nat) : Prop :=
  ∃ k, c !! k = Some x ∧ c !! S k = Some y ∨ c !! k = Some y ∧ c !! S k = Some x.

(** [y] is coupled to [x] above 90% of the highest coupling of [x]. *)
Definition strong (i : input) (x y : nat) : Prop :=
  ∃ w, high_coupled (in_row i) (in_col i) (in_val i) (in_cen i)
    (bool_decide (in_coupling i = 1%Z)) (in_thr i) x y w.

(** The direction of a line which comes from [p] and ends in [x], seen backwards. *)
Definition coming (i : input) (p x : nat) (d : list W) : Prop :=
  d = unit_vec (centre (in_cen i) x) (centre (in_cen i) p) ∨
  d = opposite (unit_vec (centre (in_cen i) p) (centre (in_cen i) x)).

(** The anisotropic cells form columns: they are strongly coupled to the next
    cells of their column and to no other anisotropic cells.  If the direction of
    lines is forced, columns are straight and no anisotropic cell lies in the
    prolongation of a column. *)
Record columns (i : input) (cols : list (list nat)) : Prop := {
  cl_cells : ∀ x, x ∈ concat cols ↔
    anisotropic (in_row i) (in_col i) (in_val i) (bool_decide (in_dim i = 2%Z)) (in_compl i) (in_thr i) x;
  cl_once : NoDup (concat cols);
  cl_next : ∀ c x y, c ∈ cols → beside c x y → strong i x y;
  cl_only : ∀ c x y, c ∈ cols → x ∈ c → y ∈ concat cols → strong i x y → beside c x y;
  cl_straight : in_force i = true → ∀ c p x y d, c ∈ cols → beside c p x → beside c x y → y ≠ p →
    coming i p x d → ∃ a, aligned (in_cen i) x d y a;
  cl_end : in_force i = true → ∀ c p x y d a, c ∈ cols → beside c p x → (∀ z, beside c x z → z = p) →
    coming i p x d → y ∈ concat cols → in_edge i x y → y ≠ p → ¬ aligned (in_cen i) x d y a;
}.

(** A regular grid with [size k] cells in direction [k]; [co x k] is the
    coordinate of [x] in direction [k].  Faces across direction 0 have weight [a],
    the others have weight [b]. *)
Record stretched_grid (i : input) (size : nat → nat) (co : nat → nat → nat) (a b : W) : Prop := {
  sg_in : ∀ x k, x < in_n i → k < axes i → co x k < size k;
  sg_all : ∀ f : nat → nat, (∀ k, k < axes i → f k < size k) →
    ∃ x, x < in_n i ∧ ∀ k, k < axes i → co x k = f k;
  sg_one : ∀ x y, x < in_n i → y < in_n i → (∀ k, k < axes i → co x k = co y k) → x = y;
  sg_edge : ∀ x y, x < in_n i → y < in_n i →
    in_edge i x y ↔ ∃ k, k < axes i ∧ (co y k = S (co x k) ∨ co x k = S (co y k)) ∧
      ∀ j, j < axes i → j ≠ k → co x j = co y j;
  sg_val : ∀ x y w, (y, w) ∈ entries (in_row i) (in_col i) (in_val i) x →
    w = if bool_decide (co x 0 = co y 0) then b else a;
}.

(** The weights [a] and [b] are far enough from each other for all the cells to be
    anisotropic and for lines to follow direction 0. *)
Record far_apart (i : input) (a b : W) : Prop := {
  fa_pos : wlt a w0 = false;
  fa_low : wlt a b = false;
  fa_max : wlt wmaxv b = false;
  fa_own : wlt (wmul w090 a) a = true;
  fa_other : wlt (wmul w090 a) b = false;
  fa_thr : wlt (ratio_limit (in_thr i)) w0 = true ∨
    wle (ratio_limit (in_thr i)) (if bool_decide (in_dim i = 2%Z) then wdiv a b else wsqrt (wdiv a b)) = true;
}.
End col.
