(** * PropsCol: columns of anisotropic cells (C69) *)

From Verif Require Import Main Spec SpecSub SpecFeat SpecLine SpecGrid SpecCol LineT ColT ColG ColE GridE ApiE Inst.

#[local] Existing Instance qarith | 100.
#[local] Existing Instance ord_id | 100.

(** C69.  If the anisotropic cells form columns, the lines which are built are these columns,
    and each of them is cut into coarse cells of two cells, starting from its end with more boundary
    faces; an odd cell joins the last pair or is left to the isotropic part. *)
Theorem C69_columns : ∀ {A : Arith} {H : HashOrder} (N : W → Prop) i o cols r e,
  line_order N i → good_call i o → aniso_on i o →
  in_build i = true → columns i cols → in_maxline i = None ∨ (∃ m, in_maxline i = Some m ∧ m <= 0)%Z →
  agglomerate_one_level i o = (r, e) →
  ∃ cs, cs ≡ₚ filter (λ c : list nat, 2 ≤ length c) cols ∧
    Forall2 (λ c ids, ∃ l parts rest, (oriented i c l ∨ oriented i (reverse c) l) ∧
      cut_spec (in_odd i) l parts rest ∧
      Forall2 (λ p id, ∀ x, o_fc2cc r !! x = Some id ↔ x ∈ p) parts ids ∧
      ∀ x c, x ∈ rest → o_fc2cc r !! x = Some c → ¬ aniso_id i o r c) cs (split_lines (o_idx r) (o_lines r)).
Proof. exact @C69_lem. Qed.
Print Assumptions C69_columns.

Example C69_columns_example :
  (line_order (λ _, True) (st16 false)) ∧ (∀ f, good_call (st16 f) o0 ∧ aniso_on (st16 f) o0) ∧
  (∀ f, columns (st16 f) st_cols) ∧ stretched_grid (st16 false) (λ _, 4) sq_co (qc 9 1) (qc 1 1) ∧
  far_apart (st16 false) (qc 9 1) (qc 1 1) ∧ (∀ x, x < in_n (st16 false) → x ∈ in_compl (st16 false)) ∧
  (∀ f, agglomerate_one_level (st16 f) o0 =
    (Outs [0;0;1;1;2;2;3;3;4;4;5;5;6;6;7;7] [0;2;4;6;8] [0;1;2;3;4;5;6;7], Ok ())).
Proof. exact @C69_ex. Qed.

(** C69.  The coarse cells of a grid stretched in a direction with an even number of cells are
    its pairs of cells in this direction: the grid is only coarsened across the layer. *)
Theorem C69_stretched_grid : ∀ {A : Arith} {H : HashOrder} (N : W → Prop) i o size co (a b : W) h kk r e,
  line_order N i → good_call i o → aniso_on i o → in_build i = true → stretched_grid i size co a b → far_apart i a b →
  in_coupling i ≠ 1%Z → in_force i = false → (∀ x, x < in_n i → x ∈ in_compl i) →
  size 0 = 2 * h → 0 < kk < axes i → 2 ≤ size kk →
  in_maxline i = None ∨ (∃ m, in_maxline i = Some m ∧ m <= 0)%Z → agglomerate_one_level i o = (r, e) →
  e = Ok () ∧ length (o_fc2cc r) = in_n i ∧
  ∀ x y, x < in_n i → y < in_n i → o_fc2cc r !! x = o_fc2cc r !! y ↔
    co x 0 / 2 = co y 0 / 2 ∧ ∀ k, 0 < k < axes i → co x k = co y k.
Proof. exact @C69_grid_lem. Qed.
Print Assumptions C69_stretched_grid.

Example C69_stretched_grid_example :
  (line_order (λ _, True) (st16 false)) ∧ (∀ f, good_call (st16 f) o0 ∧ aniso_on (st16 f) o0) ∧
  (∀ f, columns (st16 f) st_cols) ∧ stretched_grid (st16 false) (λ _, 4) sq_co (qc 9 1) (qc 1 1) ∧
  far_apart (st16 false) (qc 9 1) (qc 1 1) ∧ (∀ x, x < in_n (st16 false) → x ∈ in_compl (st16 false)) ∧
  (∀ f, agglomerate_one_level (st16 f) o0 =
    (Outs [0;0;1;1;2;2;3;3;4;4;5;5;6;6;7;7] [0;2;4;6;8] [0;1;2;3;4;5;6;7], Ok ())).
Proof. exact @C69_ex. Qed.
