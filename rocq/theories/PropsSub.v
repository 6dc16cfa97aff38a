(** * PropsSub: connectivity and subgraphs (C30, C31) *)

From Verif Require Import Graph Subgraph Spec SpecSub GraphP ConnT SubT SubE LeafT LeafE Inst.

#[local] Existing Instance qarith | 100.
#[local] Existing Instance ord_id | 100.

(** C30.  For a graph of one cell or with at least one face: the answers of any
    number of successive calls tell whether the graph is connected.  Missing: graphs
    of several cells without any face, see the next theorems. *)
Theorem C30_connectivity_partial : ∀ {A : Arith} (g : graph) (k : nat),
  csr (g_n g) (g_row g) (g_col g) → csr_sym (g_row g) (g_col g) → length (g_val g) = length (g_col g) →
  0 < g_n g → g_n g = 1 ∨ g_col g ≠ [] →
  ∃ l, conn_calls k g [] = Ok l ∧ length l = k ∧
    ∀ b, b ∈ l → b = true ↔ connected (edge (g_row g) (g_col g)) (λ x, x < g_n g).
Proof. exact @C30_pos. Qed.
Print Assumptions C30_connectivity_partial.

Example C30_connectivity_partial_example :
  csr (g_n g_chain) (g_row g_chain) (g_col g_chain) ∧ csr_sym (g_row g_chain) (g_col g_chain) ∧
  length (g_val g_chain) = length (g_col g_chain) ∧ conn_calls 3 g_chain [] = Ok [true; true; true] ∧
  csr (g_n g_two) (g_row g_two) (g_col g_two) ∧ csr_sym (g_row g_two) (g_col g_two) ∧
  length (g_val g_two) = length (g_col g_two) ∧ conn_calls 3 g_two [] = Ok [false; false; false].
Proof. exact @C30_ex. Qed.

(** C30.  Several cells and no face: undefined behaviour, always. *)
Theorem C30_no_face_undefined : ∀ {A : Arith} (g : graph) vis,
  1 < g_n g → g_col g = [] → check_connectivity g vis = Err EUB.
Proof. exact @C30_neg. Qed.
Print Assumptions C30_no_face_undefined.

Example C30_no_face_undefined_example :
  ∃ g, csr (g_n g) (g_row g) (g_col g) ∧ csr_sym (g_row g) (g_col g) ∧
  length (g_val g) = length (g_col g) ∧ 0 < g_n g ∧ check_connectivity g [] = Err EUB.
Proof. exact @C30_ref. Qed.

(** C30 is false for a graph without any face. *)
Theorem C30_connectivity_refuted :
  ∃ g, csr (g_n g) (g_row g) (g_col g) ∧ csr_sym (g_row g) (g_col g) ∧
  length (g_val g) = length (g_col g) ∧ 0 < g_n g ∧ check_connectivity g [] = Err EUB.
Proof. exact @C30_ref. Qed.
Print Assumptions C30_connectivity_refuted.

(** C31.  The constructor builds the induced subgraph, with its compactness. *)
Theorem C31_constructor : ∀ {A : Arith} {H : HashOrder} (g : graph) (s : gset nat),
  csr (g_n g) (g_row g) (g_col g) → csr_sym (g_row g) (g_col g) →
  length (g_val g) = length (g_col g) → length (g_vol g) = g_n g → (∀ x, x ∈ s → x < g_n g) →
  ∃ sg, make_subgraph g s = Ok sg ∧
    induced (g_row g) (g_col g) (g_val g) (g_vol g) s
      (sg_row sg) (sg_col sg) (sg_val sg) (sg_vol sg) (sg_map sg) ∧
    sg_card sg = Z.of_nat (size s) ∧
    (simple_csr (g_row g) (g_col g) → compactness (g_row g) (g_col g) s (sg_cpt sg)).
Proof. exact @C31_cons. Qed.
Print Assumptions C31_constructor.

Example C31_constructor_example :
  make_subgraph g_chain {[1; 2]} = Ok sg_12 ∧ sg_row sg_12 = [0; 1; 2] ∧ sg_col sg_12 = [1; 0] ∧
  sg_map sg_12 = [1; 2] ∧ sg_cpt sg_12 = 1%Z ∧ sg_card sg_12 = 2%Z.
Proof. exact @C31_ex. Qed.

(** C31.  Insertion of a cell without any neighbour in the mesh.  Missing: all other
    cells, see the next theorem. *)
Theorem C31_insert_partial : ∀ {A : Arith} (g : graph) (s : gset nat) (sg : subg) x v w,
  csr (g_n g) (g_row g) (g_col g) → csr_sym (g_row g) (g_col g) →
  length (g_val g) = length (g_col g) →
  induced (g_row g) (g_col g) (g_val g) (g_vol g) s
    (sg_row sg) (sg_col sg) (sg_val sg) (sg_vol sg) (sg_map sg) →
  x ∉ s → (∀ y, ¬ edge (g_row g) (g_col g) x y) → g_vol g !! x = Some v →
  ∃ sg', insert_node sg (nb_list (g_row g) (g_col g) x) x v w = Ok sg' ∧
    induced (g_row g) (g_col g) (g_val g) (g_vol g) ({[x]} ∪ s)
      (sg_row sg') (sg_col sg') (sg_val sg') (sg_vol sg') (sg_map sg').
Proof. exact @C31_ins_pos. Qed.
Print Assumptions C31_insert_partial.

Example C31_insert_partial_example :
  csr (g_n g_iso) (g_row g_iso) (g_col g_iso) ∧ csr_sym (g_row g_iso) (g_col g_iso) ∧
  length (g_val g_iso) = length (g_col g_iso) ∧ make_subgraph g_iso {[0; 1; 3]} = Ok sg_iso ∧
  nb_list (g_row g_iso) (g_col g_iso) 2 = [] ∧
  insert_node sg_iso [] 2 (qc 3 1) [] = Ok sg_iso_i ∧ sg_map sg_iso_i = [0; 1; 3; 2] ∧ sg_row sg_iso_i = [0; 1; 2; 2; 2] ∧
  remove_node sg_iso 3 = Ok sg_iso_r ∧ sg_map sg_iso_r = [0; 1] ∧ sg_row sg_iso_r = [0; 1; 2] ∧ sg_col sg_iso_r = [1; 0].
Proof. exact @C31_iso_ex. Qed.

(** C31.  Inserting a cell which has a neighbour, inside the subgraph or not, never
    gives the induced subgraph. *)
Theorem C31_insert_never_right : ∀ {A : Arith} (g : graph) (s : gset nat) (sg : subg) x y v w (sg' : subg),
  csr (g_n g) (g_row g) (g_col g) → csr_sym (g_row g) (g_col g) →
  length (g_val g) = length (g_col g) →
  induced (g_row g) (g_col g) (g_val g) (g_vol g) s
    (sg_row sg) (sg_col sg) (sg_val sg) (sg_vol sg) (sg_map sg) →
  x ∉ s → edge (g_row g) (g_col g) x y →
  insert_node sg (nb_list (g_row g) (g_col g) x) x v w = Ok sg' →
  ¬ induced (g_row g) (g_col g) (g_val g) (g_vol g) ({[x]} ∪ s)
      (sg_row sg') (sg_col sg') (sg_val sg') (sg_vol sg') (sg_map sg').
Proof. exact @C31_ins_neg. Qed.
Print Assumptions C31_insert_never_right.

Example C31_insert_never_right_example :
  insert_node sg_12 (nb_list (g_row g_chain) (g_col g_chain) 3) 3 (qc 4 1) (adjw g_chain 3) = Ok sg_12i ∧
  sg_row sg_12i = [0; 2; 3; 4] ∧ sg_col sg_12i = [1; 2; 0; 1].
Proof. exact @C31_ins. Qed.

(** C31 is false for the insertion of a cell next to the subgraph. *)
Theorem C31_insert_refuted :
  ∃ (g : graph) s sg x v w sg',
  csr (g_n g) (g_row g) (g_col g) ∧ csr_sym (g_row g) (g_col g) ∧ length (g_val g) = length (g_col g) ∧
  make_subgraph g s = Ok sg ∧
  induced (g_row g) (g_col g) (g_val g) (g_vol g) s
    (sg_row sg) (sg_col sg) (sg_val sg) (sg_vol sg) (sg_map sg) ∧ x ∉ s ∧ g_vol g !! x = Some v ∧
  insert_node sg (nb_list (g_row g) (g_col g) x) x v w = Ok sg' ∧
  ¬ induced (g_row g) (g_col g) (g_val g) (g_vol g) ({[x]} ∪ s)
      (sg_row sg') (sg_col sg') (sg_val sg') (sg_vol sg') (sg_map sg').
Proof. exact @C31_ins_ref. Qed.
Print Assumptions C31_insert_refuted.

(** C31.  Removal of a cell without neighbour in the subgraph.  Missing: cells with
    neighbours, see the next theorem. *)
Theorem C31_remove_partial : ∀ {A : Arith} (g : graph) (s : gset nat) (sg : subg) x,
  csr (g_n g) (g_row g) (g_col g) → csr_sym (g_row g) (g_col g) →
  length (g_val g) = length (g_col g) →
  induced (g_row g) (g_col g) (g_val g) (g_vol g) s
    (sg_row sg) (sg_col sg) (sg_val sg) (sg_vol sg) (sg_map sg) →
  x ∈ s → (∀ y, y ∈ s → ¬ edge (g_row g) (g_col g) x y) →
  ∃ sg', remove_node sg x = Ok sg' ∧
    induced (g_row g) (g_col g) (g_val g) (g_vol g) (s ∖ {[x]})
      (sg_row sg') (sg_col sg') (sg_val sg') (sg_vol sg') (sg_map sg').
Proof. exact @C31_rem_pos. Qed.
Print Assumptions C31_remove_partial.

Example C31_remove_partial_example :
  csr (g_n g_iso) (g_row g_iso) (g_col g_iso) ∧ csr_sym (g_row g_iso) (g_col g_iso) ∧
  length (g_val g_iso) = length (g_col g_iso) ∧ make_subgraph g_iso {[0; 1; 3]} = Ok sg_iso ∧
  nb_list (g_row g_iso) (g_col g_iso) 2 = [] ∧
  insert_node sg_iso [] 2 (qc 3 1) [] = Ok sg_iso_i ∧ sg_map sg_iso_i = [0; 1; 3; 2] ∧ sg_row sg_iso_i = [0; 1; 2; 2; 2] ∧
  remove_node sg_iso 3 = Ok sg_iso_r ∧ sg_map sg_iso_r = [0; 1] ∧ sg_row sg_iso_r = [0; 1; 2] ∧ sg_col sg_iso_r = [1; 0].
Proof. exact @C31_iso_ex. Qed.

(** C31.  Removal of a cell with one neighbour in the subgraph: right exactly when the
    cell is the last one listed by its neighbour or a later row is not empty; otherwise
    undefined behaviour.  Missing: cells with several neighbours, see the next theorem. *)
Theorem C31_remove_leaf_partial : ∀ {A : Arith} (g : graph) (s : gset nat) (sg : subg) x y i e,
  csr (g_n g) (g_row g) (g_col g) → csr_sym (g_row g) (g_col g) →
  length (g_val g) = length (g_col g) → simple_csr (g_row g) (g_col g) →
  induced (g_row g) (g_col g) (g_val g) (g_vol g) s
    (sg_row sg) (sg_col sg) (sg_val sg) (sg_vol sg) (sg_map sg) →
  x ∈ s → y ∈ s → edge (g_row g) (g_col g) x y →
  (∀ z, z ∈ s → edge (g_row g) (g_col g) x z → z = y) →
  sg_map sg !! i = Some x → sg_map sg !! e = Some y →
  let safe := last (nb_list (sg_row sg) (sg_col sg) e) = Some i ∨
    ∃ k j, e < k ∧ edge (sg_row sg) (sg_col sg) k j in
  (safe → ∃ sg', remove_node sg x = Ok sg' ∧
    induced (g_row g) (g_col g) (g_val g) (g_vol g) (s ∖ {[x]})
      (sg_row sg') (sg_col sg') (sg_val sg') (sg_vol sg') (sg_map sg')) ∧
  (¬ safe → remove_node sg x = Err EUB).
Proof. exact @C31_leaf. Qed.
Print Assumptions C31_remove_leaf_partial.

Example C31_remove_leaf_partial_example :
  make_subgraph g_chain {[0; 1; 2; 3]} = Ok sg_ch ∧ sg_map sg_ch = [0; 1; 3; 2] ∧ sg_row sg_ch = [0; 1; 3; 4; 6] ∧
  sg_col sg_ch = [1; 0; 3; 3; 1; 2] ∧ remove_node sg_ch 0 = Ok sg_ch_r ∧
  sg_map sg_ch_r = [1; 3; 2] ∧ sg_row sg_ch_r = [0; 1; 2; 4] ∧ sg_col sg_ch_r = [2; 2; 0; 1] ∧
  make_subgraph g_star {[0; 1; 2]} = Ok sg_star ∧ sg_row sg_star = [0; 1; 2; 4] ∧ sg_col sg_star = [2; 2; 0; 1] ∧
  remove_node sg_star 0 = Err EUB ∧ remove_node sg_star 1 = Ok sg_star_r ∧
  sg_map sg_star_r = [0; 2] ∧ sg_row sg_star_r = [0; 1; 2] ∧ sg_col sg_star_r = [1; 0].
Proof. exact @C31_leaf_ex. Qed.

(** C31 is false for the removal of a leaf: undefined behaviour.  The example shows
    a wrong result for a triangle. *)
Theorem C31_remove_refuted :
  ∃ (g : graph) s sg x,
  csr (g_n g) (g_row g) (g_col g) ∧ csr_sym (g_row g) (g_col g) ∧ length (g_val g) = length (g_col g) ∧
  make_subgraph g s = Ok sg ∧
  induced (g_row g) (g_col g) (g_val g) (g_vol g) s
    (sg_row sg) (sg_col sg) (sg_val sg) (sg_vol sg) (sg_map sg) ∧ x ∈ s ∧ remove_node sg x = Err EUB.
Proof. exact @C31_rem_ref. Qed.
Print Assumptions C31_remove_refuted.

Example C31_remove_refuted_example :
  make_subgraph g_tri {[0; 1; 2]} = Ok sg_tri ∧ remove_node sg_tri 0 = Ok sg_tri_r ∧
  sg_map sg_tri_r = [1; 2] ∧ sg_row sg_tri_r = [0; 0; 2] ∧ sg_col sg_tri_r = [1; 0].
Proof. exact @C31_tri_ex. Qed.
