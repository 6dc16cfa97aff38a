(** * PropsApi: the library call (C01-C07, C09-C14, C16, C27, C36) *)

From Verif Require Import SpecLine ApiT ApiE.

#[local] Existing Instance qarith | 100.
#[local] Existing Instance ord_id | 100.

(** C01.  A well-formed call returns normally and gives one identifier to
    each fine cell. *)
Theorem C01_every_cell_once : ∀ {A : Arith} {H : HashOrder} (i : input) (o : outs),
  good_call i o →
  ∃ r, agglomerate_one_level i o = (r, Ok ()) ∧ length (o_fc2cc r) = in_n i.
Proof. exact @C01_lem. Qed.
Print Assumptions C01_every_cell_once.

Example C01_every_cell_once_example :
  good_call grid9_in o0 ∧
  agglomerate_one_level grid9_in o0 = (Outs [0;0;1;0;0;1;2;2;2] [] [], Ok ()).
Proof. exact @C01_ex. Qed.

(** C01.  In the container from which the result is read each fine cell is in
    exactly one coarse cell, that of the identifier given to it. *)
Theorem C01_one_coarse_cell : ∀ {A : Arith} {H : HashOrder} (i : input) (o : outs),
  good_call i o → in_corr i = false ∨ thresh_one i →
  ∃ r ctA p lo ct, agglomerate_one_level i o = (r, Ok ()) ∧
    phase1 i o = Ok (ctA, p, lo) ∧ phase2 i ctA p = Ok ct ∧
    ∀ x, x < in_n i → ∃ k cc, o_fc2cc r !! x = Some k ∧ ct_ccs ct !! k = Some cc ∧ x ∈ cc_fcs cc ∧
      ∀ k' cc', ct_ccs ct !! k' = Some cc' → x ∈ cc_fcs cc' → k' = k.
Proof. exact @C01_cells_lem. Qed.
Print Assumptions C01_one_coarse_cell.

Example C01_one_coarse_cell_example :
  good_call grid9_in o0 ∧ (in_corr grid9_in = false ∨ thresh_one grid9_in).
Proof. exact @C01_cells_ex. Qed.

(** C02, when at most single cells are corrected.  Missing: larger thresholds,
    for which the property is false (next theorem). *)
Theorem C02_contiguous_partial : ∀ {A : Arith} {H : HashOrder} (i : input) (o : outs) (r : outs) (e : res ()),
  good_call i o → in_corr i = false ∨ thresh_one i →
  agglomerate_one_level i o = (r, e) → contiguous (o_fc2cc r).
Proof. exact @C02_lem. Qed.
Print Assumptions C02_contiguous_partial.

Example C02_contiguous_partial_example :
  good_call (chain7 true) o0 ∧ thresh_one (chain7 true) ∧
  agglomerate_one_level (chain7 false) o0 = (Outs [0;0;1;1;2;2;3] [] [], Ok ()) ∧
  agglomerate_one_level (chain7 true) o0 = (Outs [0;0;1;1;2;2;2] [] [], Ok ()).
Proof. exact @C02_ex. Qed.

(** C02 is false with a threshold of two: the identifiers left are 0, 1, 3. *)
Theorem C02_contiguous_refuted :
  ∃ i o r, good_call i o ∧ in_corr i = true ∧
  agglomerate_one_level i o = (r, Ok ()) ∧ ¬ contiguous (o_fc2cc r).
Proof. exact @C02_ref. Qed.
Print Assumptions C02_contiguous_refuted.

(** C03, when at most single cells are corrected.  Missing: larger thresholds,
    for which the property is false (next theorem). *)
Theorem C03_connected_partial : ∀ {A : Arith} {H : HashOrder} (i : input) (o : outs) (r : outs) (e : res ()),
  good_call i o → given_paths i o → in_corr i = false ∨ thresh_one i →
  agglomerate_one_level i o = (r, e) → ∀ c, connected (in_edge i) (cells_of (o_fc2cc r) c).
Proof. exact @C03_lem. Qed.
Print Assumptions C03_connected_partial.

Example C03_connected_partial_example :
  good_call (line7 true None) o_line5 ∧ given_paths (line7 true None) o_line5 ∧
  thresh_one (line7 true None) ∧
  agglomerate_one_level (line7 true None) o_line5 = (Outs [0;0;1;1;1;2;2] [0;2] [0;1], Ok ()).
Proof. exact @C03_ex. Qed.

(** C03 is false with a threshold of two: a cell keeps the identifier of a
    removed coarse cell, which is given to another one. *)
Theorem C03_connected_refuted :
  ∃ i o r c, good_call i o ∧ given_paths i o ∧
  agglomerate_one_level i o = (r, Ok ()) ∧ ¬ connected (in_edge i) (cells_of (o_fc2cc r) c).
Proof. exact @C03_ref. Qed.
Print Assumptions C03_connected_refuted.

(** C04.  Without correction no isotropic coarse cell has more than [max_card]
    cells. *)
Theorem C04_max_card : ∀ {A : Arith} {H : HashOrder} (i : input) (o : outs) (r : outs) (e : res ()),
  good_call i o → in_corr i = false →
  agglomerate_one_level i o = (r, e) → ∀ c (X : gset nat), ¬ aniso_id i o r c →
  (∀ x, x ∈ X ↔ o_fc2cc r !! x = Some c) → (Z.of_nat (size X) <= in_max i)%Z.
Proof. exact @C04_lem. Qed.
Print Assumptions C04_max_card.

Example C04_max_card_example :
  good_call (chain7 false) o0 ∧ in_corr (chain7 false) = false ∧
  agglomerate_one_level (chain7 false) o0 = (Outs [0;0;1;1;2;2;3] [] [], Ok ()) ∧
  in_max (chain7 false) = 2%Z.
Proof. exact @C04_ex. Qed.

(** C05.  Without correction identifiers follow the order of creation; all
    neighbours of an isotropic coarse cell with less than [min_card] cells
    are in coarse cells created before it. *)
Theorem C05_small_cells : ∀ {A : Arith} {H : HashOrder} (i : input) (o : outs) (r : outs) (e : res ()),
  good_call i o → in_corr i = false →
  agglomerate_one_level i o = (r, e) → ∀ c (X : gset nat), ¬ aniso_id i o r c →
  (∀ x, x ∈ X ↔ o_fc2cc r !! x = Some c) → (Z.of_nat (size X) < in_min i)%Z →
  ∀ x y, x ∈ X → in_edge i x y → y ∉ X → ∃ c', c' < c ∧ o_fc2cc r !! y = Some c'.
Proof. exact @C05_lem. Qed.
Print Assumptions C05_small_cells.

Example C05_small_cells_example :
  good_call (chain7 false) o0 ∧ in_corr (chain7 false) = false ∧
  agglomerate_one_level (chain7 false) o0 = (Outs [0;0;1;1;2;2;3] [] [], Ok ()) ∧
  in_min (chain7 false) = 2%Z ∧ in_edge (chain7 false) 6 5.
Proof. exact @C05_ex. Qed.

(** C06.  A well-formed call has no undefined behaviour, assertion failure or
    exception.  [good_call] leaves out three situations accepted by the
    checks in which the code has undefined behaviour, shown below. *)
Theorem C06_no_error_partial : ∀ {A : Arith} {H : HashOrder} (i : input) (o : outs),
  good_call i o → ∀ r e, agglomerate_one_level i o ≠ (r, Err e).
Proof. exact @C06_lem. Qed.
Print Assumptions C06_no_error_partial.

Example C06_no_error_partial_example :
  good_call (line7 true (Some 4%Z)) o_line5 ∧
  agglomerate_one_level (line7 true (Some 4%Z)) o_line5 = (Outs [0;0;1;1;1;2;2] [0;2] [0;1], Ok ()).
Proof. exact @C06_ex. Qed.

(** C06 is false for a line one cell shorter than an odd limit. *)
Theorem C06_odd_limit_refuted :
  ∃ i o, wf_mesh i ∧ accepted i ∧ prio_pos i ∧ wf_lines (in_n i) (o_idx o) (o_lines o) ∧
  given_paths i o ∧ agglomerate_one_level i o = (o, Err EUB).
Proof. exact @C06_limit_ref. Qed.
Print Assumptions C06_odd_limit_refuted.

(** C06 is false for one-point initialisation with non-positive priorities. *)
Theorem C06_one_point_refuted :
  ∃ i, wf_mesh i ∧ accepted i ∧ in_aniso i = false ∧
  ∀ o, agglomerate_one_level i o = (o, Err EUB).
Proof. exact @C06_one_point_ref. Qed.
Print Assumptions C06_one_point_refuted.

(** C06 is false when lines are built with a negative threshold and a
    compliant cell without neighbours. *)
Theorem C06_threshold_refuted :
  ∃ i, wf_mesh i ∧ accepted i ∧ prio_pos i ∧ in_build i = true ∧ in_maxline i = None ∧
  ∀ o, agglomerate_one_level i o = (o, Err EUB).
Proof. exact @C06_threshold_ref. Qed.
Print Assumptions C06_threshold_refuted.

(** C07.  The fuel given to the loops of a well-formed call is never exhausted;
    at most as many coarse cells as fine cells are created. *)
Theorem C07_terminates : ∀ {A : Arith} {H : HashOrder} (i : input) (o : outs),
  good_call i o → ∃ r ctA p lo ct,
  agglomerate_one_level i o = (r, Ok ()) ∧ phase1 i o = Ok (ctA, p, lo) ∧ phase2 i ctA p = Ok ct ∧
  ct_n ct ≤ in_n i ∧ (∀ x c, o_fc2cc r !! x = Some c → c < ct_n ct).
Proof. exact @C07_lem. Qed.
Print Assumptions C07_terminates.

Example C07_terminates_example :
  good_call (line7 true (Some 4%Z)) o_line5 ∧
  agglomerate_one_level (line7 true (Some 4%Z)) o_line5 = (Outs [0;0;1;1;1;2;2] [0;2] [0;1], Ok ()).
Proof. exact @C06_ex. Qed.

(** C09.  After correction all neighbours of a single cell are in anisotropic
    coarse cells. *)
Theorem C09_no_avoidable_single_cell : ∀ {A : Arith} {H : HashOrder} (i : input) (o : outs) (r : outs) (e : res ()),
  good_call i o → in_corr i = true → thresh_one i →
  agglomerate_one_level i o = (r, e) → ∀ c x, ¬ aniso_id i o r c →
  (∀ y, o_fc2cc r !! y = Some c ↔ y = x) →
  ∀ y c', in_edge i x y → y ≠ x → o_fc2cc r !! y = Some c' → aniso_id i o r c'.
Proof. exact @C09_lem. Qed.
Print Assumptions C09_no_avoidable_single_cell.

Example C09_no_avoidable_single_cell_example :
  good_call (line7 false None) (Outs [] [0;3;6] [0;1;2;4;5;6]) ∧ in_corr (line7 false None) = true ∧
  thresh_one (line7 false None) ∧
  agglomerate_one_level (line7 true None) (Outs [] [0;3;6] [0;1;2;4;5;6]) =
    (Outs [0;0;0;2;1;1;1] [0;1;2] [0;1], Ok ()).
Proof. exact @C09_ex. Qed.

(** C10.  With and without correction the exported lines are the same and so
    are the cells of each anisotropic coarse cell. *)
Theorem C10_correction_keeps_anisotropic_cells : ∀ {A : Arith} {H : HashOrder} (i : input) (o : outs),
  good_call i o →
  ∃ r0 r1, agglomerate_one_level (with_corr false i) o = (r0, Ok ()) ∧
    agglomerate_one_level (with_corr true i) o = (r1, Ok ()) ∧
    o_idx r0 = o_idx r1 ∧ o_lines r0 = o_lines r1 ∧
    ∀ c, aniso_id i o r0 c → ∀ x, o_fc2cc r0 !! x = Some c ↔ o_fc2cc r1 !! x = Some c.
Proof. exact @C10_lem. Qed.
Print Assumptions C10_correction_keeps_anisotropic_cells.

Example C10_correction_keeps_anisotropic_cells_example :
  good_call (line7 true None) o_line5 ∧
  agglomerate_one_level (with_corr false (line7 true None)) o_line5 = (Outs [0;0;1;1;1;2;2] [0;2] [0;1], Ok ()).
Proof. exact @C10_ex. Qed.

(** C11.  Each line, taken from the end which comes first ([oriented]: more
    boundary faces, then higher priority, then lower index), is cut in pairs and possibly a
    final triple, which are the coarse cells of the exported line; the
    left-over cell is not in an anisotropic coarse cell. *)
Theorem C11_line_pieces : ∀ {A : Arith} {H : HashOrder} (i : input) (o : outs) (r : outs) (e : res ()),
  good_call i o → aniso_on i o →
  in_maxline i = None ∨ in_build i = true ∧ (∃ m, in_maxline i = Some m ∧ m <= 0)%Z →
  agglomerate_one_level i o = (r, e) →
  ∃ lines, call_lines i o = Ok lines ∧
    (in_build i = false → lines = filter (λ l, 2 ≤ length l) (split_lines (o_idx o) (o_lines o))) ∧
    Forall2 (λ line ids, ∃ l parts rest, oriented i line l ∧
      cut_spec (in_odd i) l parts rest ∧
      Forall2 (λ p id, ∀ x, o_fc2cc r !! x = Some id ↔ x ∈ p) parts ids ∧
      ∀ x c, x ∈ rest → o_fc2cc r !! x = Some c → ¬ aniso_id i o r c)
      lines (split_lines (o_idx r) (o_lines r)).
Proof. exact @C11_lem. Qed.
Print Assumptions C11_line_pieces.

Example C11_line_pieces_example :
  good_call (line7 true None) o_line5 ∧ aniso_on (line7 true None) o_line5 ∧
  agglomerate_one_level (line7 true None) o_line5 = (Outs [0;0;1;1;1;2;2] [0;2] [0;1], Ok ()) ∧
  good_call (line7 false None) o_line5 ∧ aniso_on (line7 false None) o_line5 ∧
  agglomerate_one_level (line7 false None) o_line5 = (Outs [0;0;1;1;2;2;2] [0;2] [0;1], Ok ()).
Proof. exact @C11_ex. Qed.

(** C12.  What the limit does for well-formed calls: exactly the first K cells
    are looked at.  A limit which is not positive is ignored for lines to be built
    (C11) and keeps all the cells of given lines from being agglomerated.
    Missing: the two situations of the next theorems, in which the property is
    false. *)
Theorem C12_line_limit_partial : ∀ {A : Arith} {H : HashOrder} (i : input) (o : outs) (r : outs) (e : res ()) (m : Z),
  good_call i o → aniso_on i o → in_maxline i = Some m → (0 < m)%Z ∨ in_build i = false →
  agglomerate_one_level i o = (r, e) →
  ∃ lines, call_lines i o = Ok lines ∧
    (in_build i = false → lines = filter (λ l, 2 ≤ length l) (split_lines (o_idx o) (o_lines o))) ∧
    Forall2 (λ line ids, ∃ l K parts rest, oriented i line l ∧
      Z.of_nat K = (if bool_decide (Z.even m = true ∧ Z.of_nat (length l) = m + 1) then m + 1
                    else Z.max 0 (Z.min m (Z.of_nat (length l))))%Z ∧
      cut_spec (in_odd i) (take K l) parts rest ∧
      Forall2 (λ p id, ∀ x, o_fc2cc r !! x = Some id ↔ x ∈ p) parts ids ∧
      ∀ x c, x ∈ l → x ∉ concat parts → o_fc2cc r !! x = Some c → ¬ aniso_id i o r c)
      lines (split_lines (o_idx r) (o_lines r)).
Proof. exact @C12_lem. Qed.
Print Assumptions C12_line_limit_partial.

Example C12_line_limit_partial_example :
  good_call (line7 true (Some 2%Z)) o_line5 ∧ aniso_on (line7 true (Some 2%Z)) o_line5 ∧
  agglomerate_one_level (line7 true (Some 2%Z)) o_line5 = (Outs [0;0;1;1;2;2;2] [0;1] [0], Ok ()) ∧
  good_call (line7 true (Some 0%Z)) o_line5 ∧ in_build (line7 true (Some 0%Z)) = false ∧
  agglomerate_one_level (line7 true (Some 0%Z)) o_line5 = (Outs [0;0;1;1;2;2;2] [0;0] [], Ok ()).
Proof. exact @C12_ex. Qed.

(** C12 is false: with the limit 3 a line of two cells is left. *)
Theorem C12_leaves_line_refuted :
  ∃ i o m, wf_mesh i ∧ accepted i ∧ wf_lines (in_n i) (o_idx o) (o_lines o) ∧
  given_paths i o ∧ in_maxline i = Some m ∧ (0 < m)%Z ∧ agglomerate_one_level i o = (o, Err EUB).
Proof. exact @C12_ub_ref. Qed.
Print Assumptions C12_leaves_line_refuted.

(** C12 is false: with the limit 2 a line of three cells is agglomerated. *)
Theorem C12_limit_exceeded_refuted :
  ∃ i o m r c, good_call i o ∧ in_maxline i = Some m ∧ (0 < m)%Z ∧
  agglomerate_one_level i o = (r, Ok ()) ∧ o_lines r = [c] ∧
  ∃ X : gset nat, (∀ x, x ∈ X → o_fc2cc r !! x = Some c) ∧ (m < Z.of_nat (size X))%Z.
Proof. exact @C12_limit_ref. Qed.
Print Assumptions C12_limit_exceeded_refuted.

(** C13.  The exported lines are both empty or a valid index structure; they
    list, once, identifiers present in the result. *)
Theorem C13_exported_lines : ∀ {A : Arith} {H : HashOrder} (i : input) (o : outs) (r : outs) (e : res ()),
  good_call i o → aniso_on i o → agglomerate_one_level i o = (r, e) →
  (o_idx r = [] ∧ o_lines r = [] ∨
   o_idx r !! 0 = Some 0 ∧ (∀ k a b, o_idx r !! k = Some a → o_idx r !! S k = Some b → a ≤ b) ∧
   last (o_idx r) = Some (length (o_lines r))) ∧
  NoDup (o_lines r) ∧ (∀ c, c ∈ o_lines r → ∃ x, o_fc2cc r !! x = Some c) ∧
  concat (split_lines (o_idx r) (o_lines r)) = o_lines r.
Proof. exact @C13_lem. Qed.
Print Assumptions C13_exported_lines.

Example C13_exported_lines_example :
  good_call (line7 true None) (Outs [] [0;3;3;6] [0;1;2;4;5;6]) ∧
  aniso_on (line7 true None) (Outs [] [0;3;3;6] [0;1;2;4;5;6]) ∧
  agglomerate_one_level (line7 true None) (Outs [] [0;3;3;6] [0;1;2;4;5;6]) =
    (Outs [0;0;0;2;1;1;1] [0;1;2] [0;1], Ok ()).
Proof. exact @C13_ex. Qed.

(** C14.  The lines built are disjoint paths of at least two compliant cells. *)
Theorem C14_built_lines : ∀ {A : Arith} {H : HashOrder} (i : input) (o : outs) (r : outs) (e : res ()),
  good_call i o → aniso_on i o → in_build i = true →
  agglomerate_one_level i o = (r, e) →
  ∃ lines, call_lines i o = Ok lines ∧
    length lines = length (split_lines (o_idx r) (o_lines r)) ∧
    (∀ l, l ∈ lines → 2 ≤ length l ∧ path (in_edge i) l) ∧
    NoDup (concat lines) ∧ (∀ x, x ∈ concat lines → x ∈ in_compl i).
Proof. exact @C14_lem. Qed.
Print Assumptions C14_built_lines.

Example C14_built_lines_example :
  good_call (built6 0 false) o0 ∧ aniso_on (built6 0 false) o0 ∧ in_build (built6 0 false) = true ∧
  call_lines (built6 0 false) o0 = Ok [[0;1;2];[3;4;5]] ∧
  agglomerate_one_level (built6 0 false) o0 = (Outs [0;0;0;1;1;1] [0;1;2] [0;1], Ok ()).
Proof. exact @C14_ex. Qed.

(** C16.  With boundary priority each isotropic coarse cell has a cell whose
    number of boundary faces (clipped to the dimension) is the highest among
    the cells which were not agglomerated at its creation. *)
Theorem C16_seeds_of_run : ∀ {A : Arith} {H : HashOrder} (i : input) (o : outs) (r : outs) (e : res ()),
  good_call i o → in_corr i = false → in_order i = 0%Z ∨ in_order i = 10%Z →
  agglomerate_one_level i o = (r, e) → ∀ c x0, ¬ aniso_id i o r c → o_fc2cc r !! x0 = Some c →
  ∃ s b, o_fc2cc r !! s = Some c ∧ in_bnd i !! s = Some b ∧
    ∀ x cx bx, o_fc2cc r !! x = Some cx → c ≤ cx → in_bnd i !! x = Some bx →
      (Z.min bx (in_dim i) <= Z.min b (in_dim i))%Z.
Proof. exact @C16_run_lem. Qed.
Print Assumptions C16_seeds_of_run.

Example C16_seeds_of_run_example :
  good_call (chain7 false) o0 ∧ in_corr (chain7 false) = false ∧ in_order (chain7 false) = 0%Z ∧
  agglomerate_one_level (chain7 false) o0 = (Outs [0;0;1;1;2;2;3] [] [], Ok ()).
Proof. exact @C16_run_ex. Qed.

(** C27.  The compactness recorded for each isotropic coarse cell is that of its
    definition and that computed from scratch. *)
Theorem C27_compactness_of_run : ∀ {A : Arith} {H : HashOrder} (i : input) (o : outs),
  good_call i o → simple_csr (in_row i) (in_col i) →
  ∃ r ctA p lo ct, agglomerate_one_level i o = (r, Ok ()) ∧
    phase1 i o = Ok (ctA, p, lo) ∧ phase2 i ctA p = Ok ct ∧
    ∀ k cc, ct_ccs ct !! k = Some cc → cc_iso cc = true →
      compactness (in_row i) (in_col i) (cc_fcs cc) (cc_cpt cc) ∧
      min_compactness (graph_of i) (cc_fcs cc) = Ok (cc_cpt cc).
Proof. exact @C27_run_lem. Qed.
Print Assumptions C27_compactness_of_run.

Example C27_compactness_of_run_example :
  good_call grid9_in o0 ∧ simple_csr (in_row grid9_in) (in_col grid9_in) ∧
  ∃ ctA p lo ct, phase1 grid9_in o0 = Ok (ctA, p, lo) ∧ phase2 grid9_in ctA p = Ok ct ∧
    cc_cpt <$> ct_ccs ct !! 0 = Some 2%Z.
Proof. exact @C27_run_ex. Qed.

(** C36, without correction: the counter is the number of coarse cells after
    the anisotropic and after the isotropic part.  Missing: after correction,
    where the property is false (next theorem). *)
Theorem C36_number_of_cells_partial : ∀ {A : Arith} {H : HashOrder} (i : input) (o : outs),
  good_call i o → in_corr i = false →
  ∃ r ctA p lo ct, agglomerate_one_level i o = (r, Ok ()) ∧
    phase1 i o = Ok (ctA, p, lo) ∧ phase2 i ctA p = Ok ct ∧
    (∀ c, c < ct_n ctA ↔ aniso_id i o r c) ∧
    (∀ c, c < ct_n ct ↔ ∃ x, o_fc2cc r !! x = Some c).
Proof. exact @C36_lem. Qed.
Print Assumptions C36_number_of_cells_partial.

Example C36_number_of_cells_partial_example :
  good_call (chain7 false) o0 ∧ in_corr (chain7 false) = false.
Proof. exact @C36_ex. Qed.

(** C36 is false after the correction has removed a coarse cell. *)
Theorem C36_number_of_cells_refuted :
  ∃ i o r ctA p lo ct, good_call i o ∧ thresh_one i ∧
  agglomerate_one_level i o = (r, Ok ()) ∧ phase1 i o = Ok (ctA, p, lo) ∧ phase2 i ctA p = Ok ct ∧
  ¬ (∀ c, c < ct_n ct ↔ ∃ x, o_fc2cc r !! x = Some c).
Proof. exact @C36_ref. Qed.
Print Assumptions C36_number_of_cells_refuted.
