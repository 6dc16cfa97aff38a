(** * PropsFeat: features and aspect ratios (C28, C39) *)

From Verif Require Import Features Spec SpecSub SpecFeat SpecAR FeatU FeatE Inst.

#[local] Existing Instance qarith | 100.
#[local] Existing Instance ord_id | 100.

(** C28.  The features obtained by adding cells one at a time are those of the
    resulting set of cells, each aspect ratio keeping the ones it needs. *)
Theorem C28_features : ∀ {A : Arith} {H : HashOrder} (g : graph) (dim : nat) (k : ar_kind) (seed : nat) (l : list nat),
  exact_arith → weak_order (@wlt A) (λ _, True) → mesh_data g dim →
  NoDup (seed :: l) → (∀ x, x ∈ seed :: l → x < g_n g) →
  ∃ f, features_of k g seed l = Ok f ∧ feats_right g dim k (list_to_set (seed :: l)) f.
Proof. exact @C28_features. Qed.
Print Assumptions C28_features.

Example C28_features_example :
  exact_arith ∧ weak_order (@wlt qarith) (λ _, True) ∧
  (∀ a b, @wlt qarith a b = false → wlt b a = false → a = b) ∧ mesh_data g4 1 ∧
  features_of ExternalW g4 0 [1; 2] = Ok (f4 ExternalW) ∧
  f_meas (f4 ExternalW) = qc 6 1 ∧ f_int (f4 ExternalW) = qc 6 1 ∧ f_ext (f4 ExternalW) = qc 6 1 ∧
  f_nint (f4 ExternalW) = 2%Z ∧
  features_of Diameter g4 0 [1; 2] = Ok (f4 Diameter) ∧
  f_sqdiam (f4 Diameter) = qc 900 1 ∧ f_sqmin (f4 Diameter) = qc 100 1 ∧
  features_of MaxOverMinBary g4 0 [1; 2] = Ok (f4 MaxOverMinBary) ∧
  f_sum (f4 MaxOverMinBary) = [qc 80 1] ∧
  map (λ x, f_facets (f4 MaxOverMinBary) !! x) (seq 0 4) = [Some 1%Z; Some 0%Z; Some 1%Z; None].
Proof. exact @C28_ex. Qed.

(** C28.  They do not depend on the order in which the cells are added. *)
Theorem C28_order : ∀ {A : Arith} {H : HashOrder} (g : graph) (dim : nat) (k : ar_kind) (seed seed' : nat) (l l' : list nat),
  exact_arith → weak_order (@wlt A) (λ _, True) → (∀ a b, wlt a b = false → wlt b a = false → a = b) →
  mesh_data g dim → NoDup (seed :: l) → (∀ x, x ∈ seed :: l → x < g_n g) → seed :: l ≡ₚ seed' :: l' →
  ∃ f f', features_of k g seed l = Ok f ∧ features_of k g seed' l' = Ok f' ∧
    f_meas f = f_meas f' ∧ f_nint f = f_nint f' ∧
    (needs_weights k = true → f_int f = f_int f' ∧ f_ext f = f_ext f') ∧
    (needs_distances k = true → f_sqdiam f = f_sqdiam f' ∧ f_sqmin f = f_sqmin f') ∧
    (needs_moments k = true → f_sum f = f_sum f') ∧
    (needs_facets k = true → ∀ x, x ∈ seed :: l → f_facets f !! x = f_facets f' !! x).
Proof. exact @C28_order. Qed.
Print Assumptions C28_order.

Example C28_order_example :
  exact_arith ∧ weak_order (@wlt qarith) (λ _, True) ∧
  (∀ a b, @wlt qarith a b = false → wlt b a = false → a = b) ∧ mesh_data g4 1 ∧
  features_of ExternalW g4 0 [1; 2] = Ok (f4 ExternalW) ∧
  f_meas (f4 ExternalW) = qc 6 1 ∧ f_int (f4 ExternalW) = qc 6 1 ∧ f_ext (f4 ExternalW) = qc 6 1 ∧
  f_nint (f4 ExternalW) = 2%Z ∧
  features_of Diameter g4 0 [1; 2] = Ok (f4 Diameter) ∧
  f_sqdiam (f4 Diameter) = qc 900 1 ∧ f_sqmin (f4 Diameter) = qc 100 1 ∧
  features_of MaxOverMinBary g4 0 [1; 2] = Ok (f4 MaxOverMinBary) ∧
  f_sum (f4 MaxOverMinBary) = [qc 80 1] ∧
  map (λ x, f_facets (f4 MaxOverMinBary) !! x) (seq 0 4) = [Some 1%Z; Some 0%Z; Some 1%Z; None].
Proof. exact @C28_ex. Qed.

(** C39.  The aspect ratio given to a candidate is that of the cell obtained by
    adding it.  Missing: the point from which the two last kinds take distances is
    the sum of the centres weighted by the volumes divided by the number of cells,
    instead of the measure; and the ratio of the diameter to the minimal edge is the
    squared diameter for two cells. *)
Theorem C39_aspect_ratio_partial : ∀ {A : Arith} {H : HashOrder} (g : graph) (dim : nat) (k : ar_kind) (seed i : nat) (l : list nat),
  exact_arith → weak_order (@wlt A) (λ _, True) → mesh_data g dim →
  NoDup (i :: seed :: l) → (∀ x, x ∈ i :: seed :: l → x < g_n g) →
  let X := list_to_set (seed :: l) in let Y := {[i]} ∪ X in
  let q := wofZ (Z.of_nat (size Y)) in
  (k = MaxOverMinBary → extremes_ok g q Y) →
  ∃ f s a f', features_of k g seed l = Ok f ∧ compute_features k g i f X = Ok (s, a, f') ∧
    s = Z.of_nat (nb_in (g_row g) (g_col g) X (λ y, y ≠ i) i) ∧ feats_right g dim k Y f' ∧
    if two_cells_edge k Y then is_diam (g_cen g) Y a else is_ar g dim q k Y a.
Proof. exact @C39_ratio. Qed.
Print Assumptions C39_aspect_ratio_partial.

Example C39_aspect_ratio_partial_example1 :
  compute_features ExternalW g4 3 (f4 ExternalW) {[0; 1; 2]} = Ok (a4 ExternalW) ∧
  (a4 ExternalW).1.1 = 1%Z ∧ @weq qarith (a4 ExternalW).1.2 (qc 9 1) = true ∧
  @weq qarith (a4 (DiamOverRadius true)).1.2 (qc 200 1) = true ∧
  @weq qarith (a4 DiamOverMinEdge).1.2 (qc 16 1) = true ∧
  @weq qarith (a4 (MaxBaryOverRadius true)).1.2 (qc 200 1) = true.
Proof. exact @C39_ex. Qed.

Example C39_aspect_ratio_partial_example2 :
  extremes_ok g4 (@wofZ qarith 4) ({[3]} ∪ list_to_set [0; 1; 2]).
Proof. exact @C39_extremes. Qed.

Example C39_aspect_ratio_partial_example3 :
  compute_features MaxOverMinBary g4 3 (f4 MaxOverMinBary) {[0; 1; 2]} = Ok (a4 MaxOverMinBary) ∧
  @weq qarith (a4 MaxOverMinBary).1.2 (qc 40 40) = true.
Proof. exact @C39_minmax_ex. Qed.

(** C39 is false for the maximal distance from the barycentre over the radius. *)
Theorem C39_barycentre_refuted :
  ∃ g f s a f', mesh_data g 1 ∧ features_of (MaxBaryOverRadius true) g 0 [] = Ok f ∧
  compute_features (MaxBaryOverRadius true) g 1 f (list_to_set [0]) = Ok (s, a, f') ∧
  let Y := {[1]} ∪ list_to_set [0] in ¬ is_ar g 1 (measure (g_vol g) Y) (MaxBaryOverRadius true) Y a.
Proof. exact @C39_bary_ref. Qed.
Print Assumptions C39_barycentre_refuted.

(** C39 is false for the ratio of the diameter to the minimal edge of two cells. *)
Theorem C39_min_edge_refuted :
  ∃ g f s a f', mesh_data g 1 ∧ features_of DiamOverMinEdge g 0 [] = Ok f ∧
  compute_features DiamOverMinEdge g 1 f (list_to_set [0]) = Ok (s, a, f') ∧
  ∀ q, ¬ is_ar g 1 q DiamOverMinEdge ({[1]} ∪ list_to_set [0]) a.
Proof. exact @C39_edge_ref. Qed.
Print Assumptions C39_min_edge_refuted.
