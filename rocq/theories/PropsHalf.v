(** * PropsHalf: the number of coarse cells (C61) *)

From Verif Require Import Main UtilM Spec SpecChain HalfT HalfE ApiE Inst SpecSub SpecMove MoveE HalfU HalfV.

#[local] Existing Instance qarith | 100.
#[local] Existing Instance ord_id | 100.

(** C61, when single cells are corrected, without lines: if each cell has a
    neighbour, there are at most half as many coarse cells as cells.  Missing:
    calls without correction or with lines, for which it is false (below); larger
    thresholds: [C61_any_threshold]. *)
Theorem C61_at_most_half_partial : ∀ {A : Arith} {H : HashOrder} (i : input) (o : outs) (r : outs) (e : res ()),
  good_call i o → ¬ aniso_on i o → in_corr i = true → thresh_one i →
  (∀ x, x < in_n i → ∃ y, in_edge i x y ∧ y ≠ x) → agglomerate_one_level i o = (r, e) →
  ∃ m, (∀ c, c ∈ o_fc2cc r ↔ c < m) ∧ 2 * m ≤ in_n i.
Proof. exact @C61_half_lem. Qed.
Print Assumptions C61_at_most_half_partial.

Example C61_at_most_half_partial_example :
  good_call (chain7 true) o0 ∧ ¬ aniso_on (chain7 true) o0 ∧ in_corr (chain7 true) = true ∧
  thresh_one (chain7 true) ∧ (∀ x, x < in_n (chain7 true) → ∃ y, in_edge (chain7 true) x y ∧ y ≠ x) ∧
  agglomerate_one_level (chain7 true) o0 = (Outs [0;0;1;1;2;2;2] [] [], Ok ()).
Proof. exact @C61_half_ex. Qed.

(** C61 for corrections with any threshold, without lines: at most half as many numbers
    are in use as there are cells, although they may have gaps then. *)
Theorem C61_any_threshold : ∀ {A : Arith} {H : HashOrder} i o r e,
  good_call i o → simple_csr (in_row i) (in_col i) → ¬ aniso_on i o → in_corr i = true →
  (∀ x, x < in_n i → ∃ y, in_edge i x y ∧ y ≠ x) → agglomerate_one_level i o = (r, e) →
  2 * size (list_to_set (o_fc2cc r) : gset nat) ≤ in_n i.
Proof. exact @C61_any_lem. Qed.
Print Assumptions C61_any_threshold.

Example C61_any_threshold_example :
  let i := tree10_in true 2 in
  good_call i o0 ∧ simple_csr (in_row i) (in_col i) ∧ ¬ aniso_on i o0 ∧ in_corr i = true ∧ corr_size i = 2%Z ∧
  (∀ x, x < in_n i → ∃ y, in_edge i x y ∧ y ≠ x) ∧
  agglomerate_one_level i o0 = (Outs [0;0;0;0;1;1;1;1;1;3] [] [], Ok ()) ∧
  size (list_to_set [0;0;0;0;1;1;1;1;1;3] : gset nat) = 3.
Proof. exact @C61_any_ex. Qed.

(** C61 for corrections with any threshold, with lines: the cells [L] all of whose
    neighbours are in coarse cells of lines are the only ones to be added. *)
Theorem C61_any_threshold_lines : ∀ {A : Arith} {H : HashOrder} i o r e (L : gset nat),
  good_call i o → simple_csr (in_row i) (in_col i) → in_corr i = true → agglomerate_one_level i o = (r, e) →
  (∀ x, x < in_n i →
    (∀ y c, in_edge i x y → y ≠ x → o_fc2cc r !! y = Some c → aniso_id i o r c) → x ∈ L) →
  2 * size (list_to_set (o_fc2cc r) : gset nat) ≤ in_n i + size L.
Proof. exact @C61_alone_any_lem. Qed.
Print Assumptions C61_any_threshold_lines.

Example C61_any_threshold_lines_example :
  good_call comb6_s2 o_comb ∧ simple_csr (in_row comb6_s2) (in_col comb6_s2) ∧
  in_corr comb6_s2 = true ∧ corr_size comb6_s2 = 2%Z ∧
  agglomerate_one_level comb6_s2 o_comb = (Outs [0;0;1;2;3;4] [0;1] [0], Ok ()) ∧
  let r := Outs [0;0;1;2;3;4] [0;1] [0] in
  let L : gset nat := {[2; 3; 4; 5]} in
  (∀ x, x < in_n comb6_s2 →
    (∀ y c, in_edge comb6_s2 x y → y ≠ x → o_fc2cc r !! y = Some c → aniso_id comb6_s2 o_comb r c) → x ∈ L) ∧
  2 * size (list_to_set (o_fc2cc r) : gset nat) = in_n comb6_s2 + size L.
Proof. exact @C61_alone_any_ex. Qed.

(** C61 with lines: the cells [L] all of whose neighbours are in coarse cells
    of lines are the only ones to be added to the count. *)
Theorem C61_cells_left_alone : ∀ {A : Arith} {H : HashOrder} (i : input) (o : outs) (r : outs) (e : res ()) (L : gset nat),
  good_call i o → in_corr i = true → thresh_one i → agglomerate_one_level i o = (r, e) →
  (∀ x, x < in_n i →
    (∀ y c, in_edge i x y → y ≠ x → o_fc2cc r !! y = Some c → aniso_id i o r c) → x ∈ L) →
  ∃ m, (∀ c, c ∈ o_fc2cc r ↔ c < m) ∧ 2 * m ≤ in_n i + size L.
Proof. exact @C61_count_lem. Qed.
Print Assumptions C61_cells_left_alone.

Example C61_cells_left_alone_example :
  good_call comb6 o_comb ∧ in_corr comb6 = true ∧ thresh_one comb6 ∧
  agglomerate_one_level comb6 o_comb = (Outs [0;0;1;2;3;4] [0;1] [0], Ok ()) ∧
  let r := Outs [0;0;1;2;3;4] [0;1] [0] in
  let L : gset nat := {[2; 3; 4; 5]} in
  (∀ x, x < in_n comb6 →
    (∀ y c, in_edge comb6 x y → y ≠ x → o_fc2cc r !! y = Some c → aniso_id comb6 o_comb r c) → x ∈ L) ∧
  2 * 5 = in_n comb6 + size L.
Proof. exact @C61_count_ex. Qed.

(** C61 for several levels of a mesh in one piece: [k] levels divide the number
    of cells by at least [2 ^ k] until one cell is left, and a mesh of fewer than
    [2 ^ (k + 1)] cells becomes one cell. *)
Theorem C61_levels : ∀ {A : Arith} {H : HashOrder} (i : input) (o : outs) (cs : list (list nat)),
  good_call i o → in_connected i → in_aniso i = false → in_corr i = true → thresh_one i →
  weak_order (@wlt A) (λ _, True) →
  ∃ i' o', levels cs i o = Ok (i', o') ∧ 0 < in_n i' ∧
    (in_n i' = 1 ∨ 2 ^ length cs * in_n i' ≤ in_n i) ∧
    (in_n i < 2 * 2 ^ length cs → in_n i' = 1).
Proof. exact @C61_levels_lem. Qed.
Print Assumptions C61_levels.

Example C61_levels_example :
  good_call (chain7 true) o0 ∧ in_connected (chain7 true) ∧ in_aniso (chain7 true) = false ∧
  in_corr (chain7 true) = true ∧ thresh_one (chain7 true) ∧ weak_order (@wlt qarith) (λ _, True) ∧
  match levels [[]] (chain7 true) o0, levels [[]; []] (chain7 true) o0, levels [[]; []; []] (chain7 true) o0 with
  | Ok (a, _), Ok (b, _), Ok (c, _) => (in_n a, in_n b, in_n c) = (3, 1, 1)
  | _, _, _ => False
  end.
Proof. exact @C61_levels_ex. Qed.

(** C61 in the other direction: without correction and lines, the cells fit in
    the coarse cells with the maximal cardinal each. *)
Theorem C61_not_too_few : ∀ {A : Arith} {H : HashOrder} (i : input) (o : outs) (r : outs) (e : res ()),
  good_call i o → ¬ aniso_on i o → in_corr i = false → agglomerate_one_level i o = (r, e) →
  ∃ m, (∀ c, c ∈ o_fc2cc r ↔ c < m) ∧ (Z.of_nat (in_n i) <= Z.of_nat m * in_max i)%Z.
Proof. exact @C61_few_lem. Qed.
Print Assumptions C61_not_too_few.

Example C61_not_too_few_example :
  good_call (chain7 false) o0 ∧ ¬ aniso_on (chain7 false) o0 ∧ in_corr (chain7 false) = false ∧
  agglomerate_one_level (chain7 false) o0 = (Outs [0;0;1;1;2;2;3] [] [], Ok ()) ∧ in_max (chain7 false) = 2%Z.
Proof. exact @C61_few_ex. Qed.

(** C61 is false without the correction. *)
Theorem C61_uncorrected_refuted :
  ∃ (i : @input qarith) o r, good_call i o ∧ in_connected i ∧ in_aniso i = false ∧
  in_corr i = false ∧ agglomerate_one_level i o = (r, Ok ()) ∧
  ∀ m, (∀ c, c ∈ o_fc2cc r ↔ c < m) → in_n i < 2 * m.
Proof. exact @C61_uncorrected_ref. Qed.
Print Assumptions C61_uncorrected_refuted.

(** C61 is false with lines, even those which are paths of the mesh. *)
Theorem C61_lines_refuted :
  ∃ (i : @input qarith) o r, good_call i o ∧ in_connected i ∧ given_paths i o ∧
  in_corr i = true ∧ thresh_one i ∧ agglomerate_one_level i o = (r, Ok ()) ∧
  ∀ m, (∀ c, c ∈ o_fc2cc r ↔ c < m) → in_n i < 2 * m.
Proof. exact @C61_lines_ref. Qed.
Print Assumptions C61_lines_refuted.

(** The other direction is false with the correction. *)
Theorem C61_not_too_few_refuted :
  ∃ (i : @input qarith) o r, good_call i o ∧ in_aniso i = false ∧
  in_corr i = true ∧ thresh_one i ∧ agglomerate_one_level i o = (r, Ok ()) ∧
  ∃ m, (∀ c, c ∈ o_fc2cc r ↔ c < m) ∧ (Z.of_nat m * in_max i < Z.of_nat (in_n i))%Z.
Proof. exact @C61_few_ref. Qed.
Print Assumptions C61_not_too_few_refuted.
