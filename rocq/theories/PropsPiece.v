(** * PropsPiece: pieces of a mesh (C63) *)

From Verif Require Import Main Spec SpecSub SpecFeat SpecHash SpecLine SpecMove SpecFeed SpecWhole SpecRenum SpecReline SpecPiece Inst ApiE UseE PieceU PieceE PieceL PieceM PieceN PieceO.

#[local] Existing Instance qarith | 100.
#[local] Existing Instance ord_id | 100.

(** C63, the part that holds.  With the boundary priority pool (order 0), a piece of the
    mesh that no face links to the rest is cut into the same coarse cells as in a
    call for it alone, numbered in the same order, and none of them has cells of
    the rest, as long as cells of equal priority keep their relative order.
    This is the case without lines.
    Missing: corrections that dissolve coarse cells of more than
    one fine cell, and the other pools, for which it is false (below). *)
Theorem C63_pieces_partial : ∀ {A : Arith} {H : HashOrder} f h i1 i o r1 e1 r e,
  exact_arith → total_order A → good_call i o → simple_csr (in_row i) (in_col i) →
  sym_weights (in_row i) (in_col i) (in_val i) → extremes_fine i →
  in_corr i = false ∨ (corr_size i <= 1)%Z → ¬ aniso_on i o → in_order i = 0%Z →
  piece f h i1 i → keeps_ties f i1 →
  agglomerate_one_level i o = (r, e) → agglomerate_one_level i1 o = (r1, e1) →
  e = Ok () ∧ e1 = Ok () ∧
  (∀ x y c d c1 d1, o_fc2cc r !! f x = Some c → o_fc2cc r !! f y = Some d → o_fc2cc r1 !! x = Some c1 →
    o_fc2cc r1 !! y = Some d1 → (c = d ↔ c1 = d1) ∧ (c < d ↔ c1 < d1)) ∧
  (∀ x y c, o_fc2cc r !! f x = Some c → o_fc2cc r !! y = Some c → ∃ z, y = f z).
Proof. exact @C63_lem. Qed.
Print Assumptions C63_pieces_partial.

Example C63_pieces_partial_example :
  (good_call two_paths o0 ∧ ¬ aniso_on two_paths o0 ∧ in_order two_paths = 0%Z ∧
   simple_csr (in_row two_paths) (in_col two_paths) ∧ sym_weights (in_row two_paths) (in_col two_paths) (in_val two_paths) ∧
   in_corr two_paths = true ∧ corr_size two_paths = 1%Z ∧
   agglomerate_one_level two_paths o0 = (Outs [1;2;1;2;1;4;3;4;3;4;0] [] [], Ok ())) ∧
  (piece (into l_a 11) (back k_a 11) (cut l_a k_a two_paths) two_paths ∧ keeps_ties (into l_a 11) (cut l_a k_a two_paths) ∧
   into l_a 11 <$> seq 0 5 = [0;2;4;6;8] ∧
   agglomerate_one_level (cut l_a k_a two_paths) o0 = (Outs [0;0;0;1;1] [] [], Ok ())) ∧
  (piece (into l_b 11) (back k_b 11) (cut l_b k_b two_paths) two_paths ∧ keeps_ties (into l_b 11) (cut l_b k_b two_paths) ∧
   into l_b 11 <$> seq 0 6 = [9;7;5;3;1;10] ∧
   agglomerate_one_level (cut l_b k_b two_paths) o0 = (Outs [2;2;2;1;1;0] [] [], Ok ())).
Proof. exact @C63_ex. Qed.

(** C63 with lines, given by the caller or built.  The lines given in the call for the
    piece are those of the call for the whole mesh that have cells in the piece, in
    the same order.  For lines that are built, neighbours must keep their relative
    order.  The faces of each cell are listed in the same order in both calls.
    Missing: as above. *)
Theorem C63_lines_partial : ∀ {A : Arith} {H : HashOrder} f h i1 i o1 o r1 e1 r e,
  exact_arith → total_order A → equal_ties → good_call i o → good_call i1 o1 → simple_csr (in_row i) (in_col i) →
  sym_weights (in_row i) (in_col i) (in_val i) → extremes_fine i →
  in_corr i = false ∨ (corr_size i <= 1)%Z → aniso_on i o → in_order i = 0%Z →
  piece f h i1 i → keeps_ties f i1 → (in_build i = true → keeps_neighbours f i1) →
  (in_build i = false → lines_among f (split_lines (o_idx o1) (o_lines o1)) (split_lines (o_idx o) (o_lines o))) →
  (∀ x, nb_list (in_row i) (in_col i) (f x) = f <$> nb_list (in_row i1) (in_col i1) x) →
  agglomerate_one_level i o = (r, e) → agglomerate_one_level i1 o1 = (r1, e1) →
  e = Ok () ∧ e1 = Ok () ∧
  (∀ x y c d c1 d1, o_fc2cc r !! f x = Some c → o_fc2cc r !! f y = Some d → o_fc2cc r1 !! x = Some c1 →
    o_fc2cc r1 !! y = Some d1 → (c = d ↔ c1 = d1) ∧ (c < d ↔ c1 < d1)) ∧
  (∀ x y c, o_fc2cc r !! f x = Some c → o_fc2cc r !! y = Some c → ∃ z, y = f z).
Proof. exact @C63_lines_lem. Qed.
Print Assumptions C63_lines_partial.

Example C63_lines_partial_example :
  (good_call paths_g o_paths ∧ aniso_on paths_g o_paths ∧ in_build paths_g = false ∧ in_order paths_g = 0%Z ∧
   simple_csr (in_row paths_g) (in_col paths_g) ∧ sym_weights (in_row paths_g) (in_col paths_g) (in_val paths_g) ∧
   in_corr paths_g = true ∧ corr_size paths_g = 1%Z ∧
   agglomerate_one_level paths_g o_paths = (Outs [1;5;1;5;2;0;2;0;3;0;4] [0;1;3] [0;1;2], Ok ())) ∧
  (piece (into l_a 11) (back k_a 11) (cut l_a k_a paths_g) paths_g ∧ keeps_ties (into l_a 11) (cut l_a k_a paths_g) ∧
   good_call (cut l_a k_a paths_g) o_pa ∧
   (∀ x, nb_list (in_row paths_g) (in_col paths_g) (into l_a 11 x) =
     into l_a 11 <$> nb_list (in_row (cut l_a k_a paths_g)) (in_col (cut l_a k_a paths_g)) x) ∧
   lines_among (into l_a 11) (split_lines (o_idx o_pa) (o_lines o_pa)) (split_lines (o_idx o_paths) (o_lines o_paths)) ∧
   into l_a 11 <$> seq 0 5 = [0;2;4;6;8] ∧
   agglomerate_one_level (cut l_a k_a paths_g) o_pa = (Outs [0;0;1;1;2] [0;2] [0;1], Ok ())) ∧
  (piece (into l_d 11) (back k_d 11) (cut l_d k_d paths_g) paths_g ∧ good_call (cut l_d k_d paths_g) o0 ∧
   lines_among (into l_d 11) (split_lines (o_idx o0) (o_lines o0)) (split_lines (o_idx o_paths) (o_lines o_paths)) ∧
   agglomerate_one_level (cut l_d k_d paths_g) o0 = (Outs [0] [] [], Ok ())) ∧
  (good_call paths_b o0 ∧ aniso_on paths_b o0 ∧ in_build paths_b = true ∧ in_order paths_b = 0%Z ∧
   simple_csr (in_row paths_b) (in_col paths_b) ∧ sym_weights (in_row paths_b) (in_col paths_b) (in_val paths_b) ∧
   in_corr paths_b = true ∧ corr_size paths_b = 1%Z ∧
   piece (into l_e 11) (back k_e 11) (cut l_e k_e paths_b) paths_b ∧ keeps_ties (into l_e 11) (cut l_e k_e paths_b) ∧
   keeps_neighbours (into l_e 11) (cut l_e k_e paths_b) ∧ good_call (cut l_e k_e paths_b) o0 ∧
   (∀ x, nb_list (in_row paths_b) (in_col paths_b) (into l_e 11 x) =
     into l_e 11 <$> nb_list (in_row (cut l_e k_e paths_b)) (in_col (cut l_e k_e paths_b)) x) ∧
   into l_e 11 <$> seq 0 6 = [1;3;5;7;9;10] ∧
   agglomerate_one_level paths_b o0 = (Outs [0;2;0;2;1;3;1;3;4;6;5] [0;2;4] [0;1;2;3], Ok ()) ∧
   agglomerate_one_level (cut l_e k_e paths_b) o0 = (Outs [0;0;1;1;3;2] [0;2] [0;1], Ok ())) ∧
  @exact_arith qarith ∧ total_order qarith ∧ @equal_ties qarith.
Proof. exact @C63_lines_ex. Qed.

(** C63 for a mesh made of two pieces: the number of coarse cells of the mesh is the sum
    of those of the two pieces by themselves.  Without lines.  Missing: as above. *)
Theorem C63_numbers_add_partial : ∀ {A : Arith} {H : HashOrder} f h f' h' i1 i2 i o r1 e1 r2 e2 r e,
  exact_arith → total_order A → good_call i o → simple_csr (in_row i) (in_col i) →
  sym_weights (in_row i) (in_col i) (in_val i) → extremes_fine i →
  in_corr i = false ∨ (corr_size i <= 1)%Z → ¬ aniso_on i o → in_order i = 0%Z →
  piece f h i1 i → keeps_ties f i1 → piece f' h' i2 i → keeps_ties f' i2 →
  (∀ y, y < in_n i → (∃ x, y = f x) ↔ ¬ ∃ x, y = f' x) →
  agglomerate_one_level i o = (r, e) → agglomerate_one_level i1 o = (r1, e1) → agglomerate_one_level i2 o = (r2, e2) →
  ∃ m1 m2, (∀ c, c ∈ o_fc2cc r1 ↔ c < m1) ∧ (∀ c, c ∈ o_fc2cc r2 ↔ c < m2) ∧ (∀ c, c ∈ o_fc2cc r ↔ c < m1 + m2).
Proof. exact @C63_add_lem. Qed.
Print Assumptions C63_numbers_add_partial.

Example C63_numbers_add_partial_example :
  good_call two_paths o0 ∧ ¬ aniso_on two_paths o0 ∧ in_order two_paths = 0%Z ∧ corr_size two_paths = 1%Z ∧
  simple_csr (in_row two_paths) (in_col two_paths) ∧ sym_weights (in_row two_paths) (in_col two_paths) (in_val two_paths) ∧
  piece (into l_a 11) (back k_a 11) (cut l_a k_a two_paths) two_paths ∧ keeps_ties (into l_a 11) (cut l_a k_a two_paths) ∧
  piece (into l_b 11) (back k_b 11) (cut l_b k_b two_paths) two_paths ∧ keeps_ties (into l_b 11) (cut l_b k_b two_paths) ∧
  (∀ y, y < in_n two_paths → (∃ x, y = into l_a 11 x) ↔ ¬ ∃ x, y = into l_b 11 x) ∧
  agglomerate_one_level two_paths o0 = (Outs [1;2;1;2;1;4;3;4;3;4;0] [] [], Ok ()) ∧
  agglomerate_one_level (cut l_a k_a two_paths) o0 = (Outs [0;0;0;1;1] [] [], Ok ()) ∧
  agglomerate_one_level (cut l_b k_b two_paths) o0 = (Outs [2;2;2;1;1;0] [] [], Ok ()).
Proof. exact @C63_add_ex. Qed.

(** The same with lines.  Missing: as above. *)
Theorem C63_numbers_add_lines_partial : ∀ {A : Arith} {H : HashOrder} f h f' h' i1 i2 i o1 o2 o r1 e1 r2 e2 r e,
  exact_arith → total_order A → equal_ties → good_call i o → good_call i1 o1 → good_call i2 o2 → simple_csr (in_row i) (in_col i) →
  sym_weights (in_row i) (in_col i) (in_val i) → extremes_fine i →
  in_corr i = false ∨ (corr_size i <= 1)%Z → aniso_on i o → in_order i = 0%Z →
  piece f h i1 i → keeps_ties f i1 → (in_build i = true → keeps_neighbours f i1) →
  piece f' h' i2 i → keeps_ties f' i2 → (in_build i = true → keeps_neighbours f' i2) →
  (in_build i = false → lines_among f (split_lines (o_idx o1) (o_lines o1)) (split_lines (o_idx o) (o_lines o)) ∧
    lines_among f' (split_lines (o_idx o2) (o_lines o2)) (split_lines (o_idx o) (o_lines o))) →
  (∀ x, nb_list (in_row i) (in_col i) (f x) = f <$> nb_list (in_row i1) (in_col i1) x) →
  (∀ x, nb_list (in_row i) (in_col i) (f' x) = f' <$> nb_list (in_row i2) (in_col i2) x) →
  (∀ y, y < in_n i → (∃ x, y = f x) ↔ ¬ ∃ x, y = f' x) →
  agglomerate_one_level i o = (r, e) → agglomerate_one_level i1 o1 = (r1, e1) → agglomerate_one_level i2 o2 = (r2, e2) →
  ∃ m1 m2, (∀ c, c ∈ o_fc2cc r1 ↔ c < m1) ∧ (∀ c, c ∈ o_fc2cc r2 ↔ c < m2) ∧ (∀ c, c ∈ o_fc2cc r ↔ c < m1 + m2).
Proof. exact @C63_add_lines_lem. Qed.
Print Assumptions C63_numbers_add_lines_partial.

Example C63_numbers_add_lines_partial_example :
  good_call paths_g o_paths ∧ good_call (cut l_a k_a paths_g) o_pa ∧ good_call (cut l_b k_b paths_g) o_pb ∧
  aniso_on paths_g o_paths ∧ in_build paths_g = false ∧ in_order paths_g = 0%Z ∧ corr_size paths_g = 1%Z ∧
  simple_csr (in_row paths_g) (in_col paths_g) ∧ sym_weights (in_row paths_g) (in_col paths_g) (in_val paths_g) ∧
  (piece (into l_a 11) (back k_a 11) (cut l_a k_a paths_g) paths_g ∧ keeps_ties (into l_a 11) (cut l_a k_a paths_g) ∧
   (∀ x, nb_list (in_row paths_g) (in_col paths_g) (into l_a 11 x) =
     into l_a 11 <$> nb_list (in_row (cut l_a k_a paths_g)) (in_col (cut l_a k_a paths_g)) x) ∧
   lines_among (into l_a 11) (split_lines (o_idx o_pa) (o_lines o_pa)) (split_lines (o_idx o_paths) (o_lines o_paths))) ∧
  (piece (into l_b 11) (back k_b 11) (cut l_b k_b paths_g) paths_g ∧ keeps_ties (into l_b 11) (cut l_b k_b paths_g) ∧
   (∀ x, nb_list (in_row paths_g) (in_col paths_g) (into l_b 11 x) =
     into l_b 11 <$> nb_list (in_row (cut l_b k_b paths_g)) (in_col (cut l_b k_b paths_g)) x) ∧
   lines_among (into l_b 11) (split_lines (o_idx o_pb) (o_lines o_pb)) (split_lines (o_idx o_paths) (o_lines o_paths))) ∧
  (∀ y, y < in_n paths_g → (∃ x, y = into l_a 11 x) ↔ ¬ ∃ x, y = into l_b 11 x) ∧
  agglomerate_one_level paths_g o_paths = (Outs [1;5;1;5;2;0;2;0;3;0;4] [0;1;3] [0;1;2], Ok ()) ∧
  agglomerate_one_level (cut l_a k_a paths_g) o_pa = (Outs [0;0;1;1;2] [0;2] [0;1], Ok ()) ∧
  agglomerate_one_level (cut l_b k_b paths_g) o_pb = (Outs [0;0;0;2;2;1] [0;1] [0], Ok ()).
Proof. exact @C63_add_lines_ex. Qed.

(** C63 is false with the neighbourhood pool, even if all the priorities differ: two
    cells of the piece are together in the call for the whole mesh and apart in the
    call for the piece. *)
Theorem C63_order1_refuted :
  ∃ (i1 i : @input qarith) o f h x y c d c1 d1,
  @exact_arith qarith ∧ total_order qarith ∧ good_call i o ∧ simple_csr (in_row i) (in_col i) ∧
  sym_weights (in_row i) (in_col i) (in_val i) ∧ in_ar i ≠ 8%Z ∧ in_corr i = false ∧ ¬ aniso_on i o ∧
  piece f h i1 i ∧ keeps_ties f i1 ∧ in_order i = 1%Z ∧
  o_fc2cc (agglomerate_one_level i o).1 !! f x = Some c ∧ o_fc2cc (agglomerate_one_level i o).1 !! f y = Some d ∧
  o_fc2cc (agglomerate_one_level i1 o).1 !! x = Some c1 ∧ o_fc2cc (agglomerate_one_level i1 o).1 !! y = Some d1 ∧
  c = d ∧ c1 ≠ d1.
Proof. exact @pool1_refuted. Qed.
Print Assumptions C63_order1_refuted.

(** C63 is false with the pool that starts from one cell. *)
Theorem C63_order10_refuted :
  ∃ (i1 i : @input qarith) o f h x y c d c1 d1,
  @exact_arith qarith ∧ total_order qarith ∧ good_call i o ∧ simple_csr (in_row i) (in_col i) ∧
  sym_weights (in_row i) (in_col i) (in_val i) ∧ in_ar i ≠ 8%Z ∧ in_corr i = false ∧ ¬ aniso_on i o ∧
  piece f h i1 i ∧ keeps_ties f i1 ∧ in_order i = 10%Z ∧
  o_fc2cc (agglomerate_one_level i o).1 !! f x = Some c ∧ o_fc2cc (agglomerate_one_level i o).1 !! f y = Some d ∧
  o_fc2cc (agglomerate_one_level i1 o).1 !! x = Some c1 ∧ o_fc2cc (agglomerate_one_level i1 o).1 !! y = Some d1 ∧
  c = d ∧ c1 ≠ d1.
Proof. exact @pool10_refuted. Qed.
Print Assumptions C63_order10_refuted.

(** C63 is false with the neighbourhood pool that starts from one cell. *)
Theorem C63_order11_refuted :
  ∃ (i1 i : @input qarith) o f h x y c d c1 d1,
  @exact_arith qarith ∧ total_order qarith ∧ good_call i o ∧ simple_csr (in_row i) (in_col i) ∧
  sym_weights (in_row i) (in_col i) (in_val i) ∧ in_ar i ≠ 8%Z ∧ in_corr i = false ∧ ¬ aniso_on i o ∧
  piece f h i1 i ∧ keeps_ties f i1 ∧ in_order i = 11%Z ∧
  o_fc2cc (agglomerate_one_level i o).1 !! f x = Some c ∧ o_fc2cc (agglomerate_one_level i o).1 !! f y = Some d ∧
  o_fc2cc (agglomerate_one_level i1 o).1 !! x = Some c1 ∧ o_fc2cc (agglomerate_one_level i1 o).1 !! y = Some d1 ∧
  c = d ∧ c1 ≠ d1.
Proof. exact @pool11_refuted. Qed.
Print Assumptions C63_order11_refuted.

(** C63 is false if cells of equal priority do not keep their order. *)
Theorem C63_ties_refuted :
  ∃ (i1 i : @input qarith) o f h x y c d c1 d1,
  @exact_arith qarith ∧ total_order qarith ∧ good_call i o ∧ simple_csr (in_row i) (in_col i) ∧
  sym_weights (in_row i) (in_col i) (in_val i) ∧ in_ar i ≠ 8%Z ∧ in_corr i = false ∧ ¬ aniso_on i o ∧
  piece f h i1 i ∧ in_order i = 0%Z ∧
  o_fc2cc (agglomerate_one_level i o).1 !! f x = Some c ∧ o_fc2cc (agglomerate_one_level i o).1 !! f y = Some d ∧
  o_fc2cc (agglomerate_one_level i1 o).1 !! x = Some c1 ∧ o_fc2cc (agglomerate_one_level i1 o).1 !! y = Some d1 ∧
  c = d ∧ c1 ≠ d1.
Proof. exact @piece_ties_refuted. Qed.
Print Assumptions C63_ties_refuted.

(** C63 with lines that are built is false if neighbours do not keep their relative
    order, even if all the priorities differ. *)
Theorem C63_neighbours_refuted :
  ∃ (i1 i : @input qarith) f h x y c d c1 d1,
  @exact_arith qarith ∧ total_order qarith ∧ @equal_ties qarith ∧ good_call i o0 ∧ good_call i1 o0 ∧ simple_csr (in_row i) (in_col i) ∧
  sym_weights (in_row i) (in_col i) (in_val i) ∧ in_ar i ≠ 8%Z ∧ in_corr i = false ∧ aniso_on i o0 ∧ in_build i = true ∧
  piece f h i1 i ∧ keeps_ties f i1 ∧ in_order i = 0%Z ∧
  (∀ x, nb_list (in_row i) (in_col i) (f x) = f <$> nb_list (in_row i1) (in_col i1) x) ∧
  o_fc2cc (agglomerate_one_level i o0).1 !! f x = Some c ∧ o_fc2cc (agglomerate_one_level i o0).1 !! f y = Some d ∧
  o_fc2cc (agglomerate_one_level i1 o0).1 !! x = Some c1 ∧ o_fc2cc (agglomerate_one_level i1 o0).1 !! y = Some d1 ∧
  c = d ∧ c1 ≠ d1.
Proof. exact @piece_neighbours_refuted. Qed.
Print Assumptions C63_neighbours_refuted.

(** C63 is false if coarse cells of two cells are corrected, even if all the priorities
    differ: two cells of the piece are apart in the call for the whole mesh and together
    in the call for the piece, and one of them is with a cell of the rest. *)
Theorem C63_correction_refuted :
  ∃ (i1 i : @input qarith) f h x y z c d c1,
  @exact_arith qarith ∧ total_order qarith ∧ good_call i o0 ∧ simple_csr (in_row i) (in_col i) ∧
  sym_weights (in_row i) (in_col i) (in_val i) ∧ in_ar i ≠ 8%Z ∧ in_corr i = true ∧ corr_size i = 2%Z ∧ ¬ aniso_on i o0 ∧
  piece f h i1 i ∧ keeps_ties f i1 ∧ in_order i = 0%Z ∧
  o_fc2cc (agglomerate_one_level i o0).1 !! f x = Some c ∧ o_fc2cc (agglomerate_one_level i o0).1 !! f y = Some d ∧ c ≠ d ∧
  o_fc2cc (agglomerate_one_level i1 o0).1 !! x = Some c1 ∧ o_fc2cc (agglomerate_one_level i1 o0).1 !! y = Some c1 ∧
  o_fc2cc (agglomerate_one_level i o0).1 !! z = Some c ∧ ¬ ∃ x', z = f x'.
Proof. exact @piece_torn_refuted. Qed.
Print Assumptions C63_correction_refuted.
