(** * PropsTools: Python helpers, scripts and test helpers (C72-C78) *)

From Verif Require Import Base Main UtilM ToolsM Spec SpecCoarse SpecHier SpecTools ToolsT ToolsU ToolsG ToolsL CoarseE GrowE ApiE GridE ToolsE Inst.

#[local] Existing Instance qarith | 100.
#[local] Existing Instance ord_id | 100.

(** C72.  If every cell reached from the wall has a neighbour, the Python function returns, and what it
    returns is what the C++ function returns: the distances to the wall. *)
Theorem C72_distances_partial : ∀ (n : nat) (idx col wall : list nat),
  csr n idx col → (∀ c, c ∈ wall → c < n) → 0 < n →
  (∀ x k, walk (edge idx col) (λ _, True) (λ c, c ∈ wall) k x → ∃ y, edge idx col x y) →
  ∃ d, py_wall_distance (zs idx) (zs col) (zs wall) = POk d ∧ length d = n ∧
    (∀ dist0, wall_distance idx col wall dist0 = Ok d) ∧
    ∀ x v, d !! x = Some v →
      (v = (-1)%Z ∧ ∀ k, ¬ walk (edge idx col) (λ _, True) (λ c, c ∈ wall) k x) ∨
      ∃ k, v = Z.of_nat k ∧ at_dist (edge idx col) (λ _, True) (λ c, c ∈ wall) k x.
Proof. exact @C72_lem. Qed.
Print Assumptions C72_distances_partial.

Example C72_distances_partial_example :
  csr 5 wi wc ∧ (∀ c, c ∈ [0] → c < 5) ∧
  (∀ x k, walk (edge wi wc) (λ _, True) (λ c, c ∈ [0]) k x → ∃ y, edge wi wc x y) ∧
  py_wall_distance (zs wi) (zs wc) [0%Z] = POk [0; 1; 2; -1; -1]%Z.
Proof. exact @C72_full_ex. Qed.

(** C72.  On a symmetric graph it is enough that wall cells have neighbours. *)
Theorem C72_symmetric_partial : ∀ (n : nat) (idx col wall : list nat),
  csr n idx col → csr_sym idx col → (∀ c, c ∈ wall → c < n) → 0 < n →
  (∀ x, x ∈ wall → ∃ y, edge idx col x y) →
  ∃ d, py_wall_distance (zs idx) (zs col) (zs wall) = POk d ∧ length d = n ∧
    (∀ dist0, wall_distance idx col wall dist0 = Ok d) ∧
    ∀ x v, d !! x = Some v →
      (v = (-1)%Z ∧ ∀ k, ¬ walk (edge idx col) (λ _, True) (λ c, c ∈ wall) k x) ∨
      ∃ k, v = Z.of_nat k ∧ at_dist (edge idx col) (λ _, True) (λ c, c ∈ wall) k x.
Proof. exact @C72_sym_lem. Qed.
Print Assumptions C72_symmetric_partial.

Example C72_symmetric_partial_example :
  csr 5 wi wc ∧ csr_sym wi wc ∧ (∀ c, c ∈ [0] → c < 5) ∧ (∀ x, x ∈ [0] → ∃ y, edge wi wc x y) ∧
  py_wall_distance (zs wi) (zs wc) [0%Z] = POk [0; 1; 2; -1; -1]%Z ∧ wall_distance wi wc [0] [] = Ok [0; 1; 2; -1; -1]%Z.
Proof. exact @C72_ex. Qed.

(** C72.  A cell without neighbours which is reached raises [ValueError]. *)
Theorem C72_raises : ∀ (n : nat) (idx col wall : list nat) x k,
  csr n idx col → (∀ c, c ∈ wall → c < n) →
  walk (edge idx col) (λ _, True) (λ c, c ∈ wall) k x → (∀ y, ¬ edge idx col x y) →
  py_wall_distance (zs idx) (zs col) (zs wall) = PRaise ValueError.
Proof. exact @C72_raise_lem. Qed.
Print Assumptions C72_raises.

Example C72_raises_example :
  csr 3 [0; 1; 2; 2] [1; 0] ∧ walk (edge [0; 1; 2; 2] [1; 0]) (λ _, True) (λ c, c ∈ [0; 2]) 0 2 ∧
  (∀ y, ¬ edge [0; 1; 2; 2] [1; 0] 2 y) ∧
  py_wall_distance (zs [0; 1; 2; 2]) (zs [1; 0]) [0; 2]%Z = PRaise ValueError.
Proof. exact @C72_raise_ex. Qed.

(** C72 at full strength fails: a wall cell without neighbours raises, the C++ function returns. *)
Theorem C72_refuted :
  ∃ n idx col wall d, csr n idx col ∧ csr_sym idx col ∧ simple_csr idx col ∧ (∀ c, c ∈ wall → c < n) ∧
  wall_distance idx col wall [] = Ok d ∧ py_wall_distance (zs idx) (zs col) (zs wall) = PRaise ValueError.
Proof. exact @C72_ref. Qed.
Print Assumptions C72_refuted.

(** C73.  The coarse graph of the Python helper: two coarse cells are neighbours when they hold
    neighbouring cells. *)
Theorem C73_graph : ∀ {A : Arith} (f : fgraph) (f2c : list nat),
  fine_ok f f2c → contiguous f2c → (∀ c, c ∈ f2c → weq (cell_vol f f2c c) w0 = false) →
  ∃ g m idx adj, py_coarse_of f f2c = POk g ∧ m ∈ f2c ∧ (∀ c, c ∈ f2c → c ≤ m) ∧
    pg_row g = zs idx ∧ pg_col g = zs adj ∧ csr (S m) idx adj ∧ simple_csr idx adj ∧
    (∀ a b, edge idx adj a b ↔ coarse_edge f f2c a b) ∧
    (csr_sym (fg_idx f) (fg_adj f) → csr_sym idx adj).
Proof. exact @C73_lem. Qed.
Print Assumptions C73_graph.

Example C73_graph_example :
  fine_ok chain4c f2c4 ∧ contiguous f2c4 ∧ (∀ c, c ∈ f2c4 → weq (cell_vol chain4c f2c4 c) w0 = false) ∧
  py_coarse_of chain4c f2c4 = POk (PGraph [0; 1; 2]%Z [1; 0]%Z [qc 1 1; qc 1 1] [qc 4 1; qc 2 1] [1; 2]%Z [[qc 3 4]; [qc 5 2]]).
Proof. exact @C73_ex. Qed.

(** C73.  Volumes are sums, boundary faces are maxima, centres are averages weighted by the volumes. *)
Theorem C73_data : ∀ {A : Arith} (f : fgraph) (f2c : list nat),
  fine_ok f f2c → contiguous f2c → (∀ c, c ∈ f2c → weq (cell_vol f f2c c) w0 = false) →
  ∃ g, py_coarse_of f f2c = POk g ∧
    (∀ c, c < length (pg_vol g) ↔ c ∈ f2c) ∧ length (pg_bnd g) = length (pg_vol g) ∧ length (pg_cen g) = length (pg_vol g) ∧
    ∀ c, c ∈ f2c →
      pg_vol g !! c = Some (cell_vol f f2c c) ∧
      (∃ b, pg_bnd g !! c = Some b ∧ (∃ x, f2c !! x = Some c ∧ fg_bnd f !! x = Some b) ∧
        ∀ x b', f2c !! x = Some c → fg_bnd f !! x = Some b' → (b' <= b)%Z) ∧
      ∃ l, pg_cen g !! c = Some l ∧ (∀ c0, fg_cen f !! 0 = Some c0 → length l = length c0) ∧
        ∀ k t, l !! k = Some t → t = wdiv (cell_moment f f2c c k) (cell_vol f f2c c).
Proof. exact @C73_data_lem. Qed.
Print Assumptions C73_data.

Example C73_data_example :
  fine_ok chain4c f2c4 ∧ contiguous f2c4 ∧ (∀ c, c ∈ f2c4 → weq (cell_vol chain4c f2c4 c) w0 = false) ∧
  py_coarse_of chain4c f2c4 = POk (PGraph [0; 1; 2]%Z [1; 0]%Z [qc 1 1; qc 1 1] [qc 4 1; qc 2 1] [1; 2]%Z [[qc 3 4]; [qc 5 2]]).
Proof. exact @C73_ex. Qed.

(** C73.  If a coarse number is not used, [AssertionError] is raised. *)
Theorem C73_numbers_left_out : ∀ {A : Arith} (f : fgraph) (f2c : list nat),
  fine_ok f f2c → ¬ contiguous f2c → (∀ c, c ∈ f2c → weq (cell_vol f f2c c) w0 = false) →
  py_coarse_of f f2c = PRaise AssertionError.
Proof. exact @C73_assert_lem. Qed.
Print Assumptions C73_numbers_left_out.

Example C73_numbers_left_out_example :
  fine_ok chain4c [0; 0; 2; 2] ∧ ¬ contiguous [0; 0; 2; 2] ∧
  (∀ c, c ∈ [0; 0; 2; 2] → weq (cell_vol chain4c [0; 0; 2; 2] c) w0 = false) ∧
  py_coarse_of chain4c [0; 0; 2; 2] = PRaise AssertionError.
Proof. exact @C73_hole_ex. Qed.

(** C73.  The weight of a coarse face is a sum over the faces between the two cells, but of the weights
    at the numbers of the neighbours instead of the positions of the faces; right if all weights are the same. *)
Theorem C73_weights_partial : ∀ {A : Arith} (f : fgraph) (f2c : list nat),
  fine_ok f f2c → contiguous f2c → (∀ c, c ∈ f2c → weq (cell_vol f f2c c) w0 = false) →
  ∃ g idx adj, py_coarse_of f f2c = POk g ∧ pg_row g = zs idx ∧ pg_col g = zs adj ∧ length (pg_val g) = length adj ∧
    ∀ k a b p q, idx !! a = Some p → idx !! S a = Some q → p ≤ k < q → adj !! k = Some b →
      pg_val g !! k = Some (wsum_l (omap (λ k, y ← fg_adj f !! k; fg_wgt f !! y) (faces f f2c a b))) ∧
      ∀ w, length (fg_wgt f) = length (fg_adj f) → (∀ w', w' ∈ fg_wgt f → w' = w) →
        pg_val g !! k = Some (wsum_l (omap (λ k, fg_wgt f !! k) (faces f f2c a b))).
Proof. exact @C73_weights_lem. Qed.
Print Assumptions C73_weights_partial.

Example C73_weights_partial_example :
  fine_ok chain4c f2c4 ∧ contiguous f2c4 ∧ (∀ c, c ∈ f2c4 → weq (cell_vol chain4c f2c4 c) w0 = false) ∧
  py_coarse_of chain4c f2c4 = POk (PGraph [0; 1; 2]%Z [1; 0]%Z [qc 1 1; qc 1 1] [qc 4 1; qc 2 1] [1; 2]%Z [[qc 3 4]; [qc 5 2]]).
Proof. exact @C73_ex. Qed.

(** C73 at full strength fails: the weight is not the sum of the weights of the faces. *)
Theorem C73_weights_refuted :
  ∃ f f2c g idx adj a p q k b, fine_ok f f2c ∧ contiguous f2c ∧ csr_sym (fg_idx f) (fg_adj f) ∧
  length (fg_wgt f) = length (fg_adj f) ∧ py_coarse_of f f2c = POk g ∧ pg_row g = zs idx ∧ pg_col g = zs adj ∧
  idx !! a = Some p ∧ idx !! S a = Some q ∧ p ≤ k < q ∧ adj !! k = Some b ∧
  pg_val g !! k ≠ Some (wsum_l (omap (λ k, fg_wgt f !! k) (faces f f2c a b))).
Proof. exact @C73_ref. Qed.
Print Assumptions C73_weights_refuted.

(** C74.  The coarse graph of the tests, given empty vectors for the neighbours and the weights: the
    graph, and the sums of the weights of the faces. *)
Theorem C74_graph_partial : ∀ {A : Arith} (f : fgraph) (f2c : list nat) (g0 : cgraph),
  fine_data f f2c → contiguous f2c → cg_adj g0 = [] → cg_wgt g0 = [] →
  ∃ g m, tu_build f f2c g0 = Ok g ∧ m ∈ f2c ∧ (∀ c, c ∈ f2c → c ≤ m) ∧
    csr (S m) (cg_idx g) (cg_adj g) ∧ simple_csr (cg_idx g) (cg_adj g) ∧
    (∀ a b, edge (cg_idx g) (cg_adj g) a b ↔ coarse_edge f f2c a b) ∧
    (csr_sym (fg_idx f) (fg_adj f) → csr_sym (cg_idx g) (cg_adj g)) ∧
    length (cg_wgt g) = length (cg_adj g) ∧
    ∀ k a b, coarse_pos g k a b → cg_wgt g !! k = Some (wsum_l (omap (λ k, fg_wgt f !! k) (faces f f2c a b))).
Proof. exact @C74_lem. Qed.
Print Assumptions C74_graph_partial.

Example C74_graph_partial_example :
  fine_data chain4y f2c4 ∧ contiguous f2c4 ∧ cg_adj g_empty = [] ∧ cg_wgt g_empty = [] ∧
  tu_build chain4y f2c4 g_empty = Ok (CGraph [0; 1; 2] [1; 0] [qc 5 1; qc 5 1] [qc 4 1; qc 2 1] [[qc 1 2]; [qc 5 2]] [] [1; 2]%Z) ∧
  coarse_pos (CGraph [0; 1; 2] [1; 0] [qc 5 1; qc 5 1] [qc 4 1; qc 2 1] [[qc 1 2]; [qc 5 2]] [] [1; 2]%Z) 1 1 0.
Proof. exact @C74_ex. Qed.

(** C74.  Volumes are sums, boundary faces are maxima, centres are averages not weighted. *)
Theorem C74_data_partial : ∀ {A : Arith} (f : fgraph) (f2c : list nat) (g0 : cgraph),
  fine_data f f2c → contiguous f2c → cg_adj g0 = [] → cg_wgt g0 = [] →
  ∃ g, tu_build f f2c g0 = Ok g ∧
    (∀ c, c < length (cg_vol g) ↔ c ∈ f2c) ∧ length (cg_bnd g) = length (cg_vol g) ∧ length (cg_cen g) = length (cg_vol g) ∧
    ∀ c, c ∈ f2c →
      cg_vol g !! c = Some (cell_vol f f2c c) ∧
      (∃ b, cg_bnd g !! c = Some b ∧ (0 <= b)%Z ∧ (b = 0%Z ∨ ∃ x, f2c !! x = Some c ∧ fg_bnd f !! x = Some b) ∧
        ∀ x b', f2c !! x = Some c → fg_bnd f !! x = Some b' → (b' <= b)%Z) ∧
      ∃ l, cg_cen g !! c = Some l ∧ (∀ c0, fg_cen f !! 0 = Some c0 → length l = length c0) ∧
        ∀ k t, l !! k = Some t → t = wdiv (cell_coord f f2c c k) (wofZ (Z.of_nat (length (fine_of f2c c)))).
Proof. exact @C74_data_lem. Qed.
Print Assumptions C74_data_partial.

Example C74_data_partial_example :
  fine_data chain4y f2c4 ∧ contiguous f2c4 ∧ cg_adj g_empty = [] ∧ cg_wgt g_empty = [] ∧
  tu_build chain4y f2c4 g_empty = Ok (CGraph [0; 1; 2] [1; 0] [qc 5 1; qc 5 1] [qc 4 1; qc 2 1] [[qc 1 2]; [qc 5 2]] [] [1; 2]%Z) ∧
  coarse_pos (CGraph [0; 1; 2] [1; 0] [qc 5 1; qc 5 1] [qc 4 1; qc 2 1] [[qc 1 2]; [qc 5 2]] [] [1; 2]%Z) 1 1 0.
Proof. exact @C74_ex. Qed.

(** C74 at full strength fails: vectors which are not empty give no graph. *)
Theorem C74_refuted :
  ∃ f f2c g0 g, fine_data f f2c ∧ contiguous f2c ∧ tu_build f f2c g0 = Ok g ∧
  length (cg_vol g) = 2 ∧ ¬ csr 2 (cg_idx g) (cg_adj g).
Proof. exact @C74_ref. Qed.
Print Assumptions C74_refuted.

(** C75.  Each cell gets the identifier of the line of its coarse cell, which is not the default; the
    cells of coarse cells which are in no line get the default. *)
Theorem C75_line_of_cell : ∀ n idx cells f2c deflt modulo perm,
  wf_lines n idx cells → shuffles (length idx - 1) perm →
  ∃ r, py_line_data (zs idx) (zs cells) (zs f2c) deflt modulo perm = POk r ∧ length r = length f2c ∧
    ∀ x c, f2c !! x = Some c →
      (∀ ln l, line_at idx cells ln l → c ∈ l → ∃ z, line_id deflt modulo perm ln = Some z ∧ r !! x = Some z ∧ z ≠ deflt) ∧
      ((∀ ln l, line_at idx cells ln l → c ∉ l) → r !! x = Some deflt).
Proof. exact @C75_lem. Qed.
Print Assumptions C75_line_of_cell.

Example C75_line_of_cell_example :
  wf_lines 6 [0; 2; 5] [3; 1; 0; 5; 4] ∧ shuffles (length [0; 2; 5] - 1) None ∧
  line_at [0; 2; 5] [3; 1; 0; 5; 4] 0 [3; 1] ∧ line_id 0 None None 0 = Some 1%Z ∧
  py_line_data (zs [0; 2; 5]) (zs [3; 1; 0; 5; 4]) (zs [0; 1; 2; 3; 3; 5]) 0 None None = POk [2; 1; 0; 1; 1; 2]%Z.
Proof. exact @C75_ex. Qed.

(** C75.  Without modulo, lines have different identifiers. *)
Theorem C75_distinct : ∀ n deflt perm ln ln' z,
  shuffles n perm → ln < n → ln' < n →
  line_id deflt None perm ln = Some z → line_id deflt None perm ln' = Some z → ln = ln'.
Proof. exact @C75_distinct_lem. Qed.
Print Assumptions C75_distinct.

Example C75_distinct_example :
  shuffles 2 (Some [1; 0]%Z) ∧ line_id 3 None (Some [1; 0]%Z) 0 = Some (-1)%Z ∧
  line_id 3 None (Some [1; 0]%Z) 1 = Some 0%Z.
Proof. exact @C75_distinct_ex. Qed.

(** C75.  Limiting the lines keeps the first cells of each of them. *)
Theorem C75_limit : ∀ n idx cells mx,
  wf_lines n idx cells →
  ∃ idx' cells', py_limit_lines (zs idx) cells (Z.of_nat mx) = POk (zs idx', cells') ∧
    length idx' = length idx ∧ wf_lines n idx' cells' ∧ head idx' = Some 0 ∧
    ∀ k l, line_at idx cells k l → line_at idx' cells' k (take mx l).
Proof. exact @C75_limit_lem. Qed.
Print Assumptions C75_limit.

Example C75_limit_example :
  wf_lines 6 [0; 2; 5] [3; 1; 0; 5; 4] ∧
  py_limit_lines (zs [0; 2; 5]) [3; 1; 0; 5; 4] (Z.of_nat 2) = POk (zs [0; 2; 4], [3; 1; 0; 5]).
Proof. exact @C75_limit_ex. Qed.

(** C75 at full strength fails: with a positive default, the identifier of the first line is not
    negative. *)
Theorem C75_negative_refuted :
  ∃ n idx cells f2c deflt r x c l z, wf_lines n idx cells ∧ (0 < deflt)%Z ∧
  py_line_data (zs idx) (zs cells) (zs f2c) deflt None None = POk r ∧ line_at idx cells 0 l ∧ c ∈ l ∧
  f2c !! x = Some c ∧ r !! x = Some z ∧ ¬ (z < 0)%Z.
Proof. exact @C75_ref. Qed.
Print Assumptions C75_negative_refuted.

(** C76.  The blocks have the sizes asked for, and are the data put end to end. *)
Theorem C76_blocks : ∀ {T} (data : list T) sizes,
  sum_list sizes = length data → sizes ≠ [] →
  concat (py_celldata data sizes) = data ∧ map length (py_celldata data sizes) = sizes.
Proof. exact @C76_blocks_lem. Qed.
Print Assumptions C76_blocks.

Example C76_blocks_example :
  sum_list [2; 0; 3] = length [7; 8; 9; 8; 7] ∧ [2; 0; 3] ≠ [] ∧
  py_celldata [7; 8; 9; 8; 7] [2; 0; 3] = [[7; 8]; []; [9; 8; 7]].
Proof. exact @C76_blocks_ex. Qed.

(** C76.  After shuffling, two cells have the same number if and only if they are in the same coarse cell. *)
Theorem C76_shuffle : ∀ array (f2c : list nat) m p,
  m ∈ f2c → (∀ c, c ∈ f2c → c ≤ m) → p ≡ₚ zs (seq 0 (S m)) →
  ∃ d, py_aggl_data array (zs f2c) [length f2c] None (Some p) = POk ([d], if array then d else zs f2c) ∧
    length d = length f2c ∧
    ∀ x y, x < length f2c → y < length f2c → d !! x = d !! y ↔ f2c !! x = f2c !! y.
Proof. exact @C76_shuffle_lem. Qed.
Print Assumptions C76_shuffle.

Example C76_shuffle_example :
  2 ∈ [0; 0; 2; 1] ∧ (∀ c, c ∈ [0; 0; 2; 1] → c ≤ 2) ∧ [1; 2; 0]%Z ≡ₚ zs (seq 0 3) ∧
  py_aggl_data true (zs [0; 0; 2; 1]) [4] None (Some [1; 2; 0]%Z) = POk ([[1; 1; 0; 2]%Z], [1; 1; 0; 2]%Z).
Proof. exact @C76_shuffle_ex. Qed.

(** C76.  With all options: each cell gets the number of its coarse cell, shuffled, modulo; the blocks have the sizes
    asked for; an array holds the same data afterwards, a list is left as it is. *)
Theorem C76_numbers : ∀ array (f2c : list nat) sizes modulo perm m,
  m ∈ f2c → (∀ c, c ∈ f2c → c ≤ m) →
  (∀ p, perm = Some p → p ≡ₚ zs (seq 0 (S m))) → sum_list sizes = length f2c → sizes ≠ [] →
  ∃ d bl, py_aggl_data array (zs f2c) sizes modulo perm = POk (bl, if array then d else zs f2c) ∧
    concat bl = d ∧ map length bl = sizes ∧ length d = length f2c ∧
    ∀ x c, f2c !! x = Some c → ∃ z, (match perm with Some p => p !! c | None => Some (Z.of_nat c) end) = Some z ∧
      d !! x = Some (match modulo with Some k => if bool_decide (1 < k)%Z then (z mod k)%Z else z | None => z end).
Proof. exact @C76_numbers_lem. Qed.
Print Assumptions C76_numbers.

Example C76_numbers_example :
  2 ∈ [0; 0; 2; 1] ∧ (∀ c, c ∈ [0; 0; 2; 1] → c ≤ 2) ∧ [1; 2; 0]%Z ≡ₚ zs (seq 0 3) ∧
  py_aggl_data false (zs [0; 0; 2; 1]) [1; 3] (Some 2%Z) (Some [1; 2; 0]%Z) = POk ([[1]; [1; 0; 0]]%Z, zs [0; 0; 2; 1]).
Proof. exact @C76_numbers_ex. Qed.

(** C76 at full strength fails: the array given by the caller is changed. *)
Theorem C76_in_place_refuted :
  ∃ data sizes modulo r data', py_aggl_data true data sizes modulo None = POk (r, data') ∧ data' ≠ data.
Proof. exact @C76_ref. Qed.
Print Assumptions C76_in_place_refuted.

(** C77.  The vector updated by the scripts tells in which coarse cell of the last level each cell is. *)
Theorem C77_follow : ∀ n (maps : list (list nat)),
  (∀ x, x < n → is_Some (follow maps x)) →
  ∃ l : list nat, py_updates n (map (λ f : list nat, zs f) maps) = POk (zs l) ∧ length l = n ∧ ∀ x, x < n → l !! x = follow maps x.
Proof. exact @C77_lem. Qed.
Print Assumptions C77_follow.

Example C77_follow_example :
  (∀ x, x < 5 → is_Some (follow [[0; 0; 1; 2; 1]; [1; 0; 0]] x)) ∧
  py_updates 5 (map (λ f : list nat, zs f) [[0; 0; 1; 2; 1]; [1; 0; 0]]) = POk (zs [1; 1; 0; 0; 0]).
Proof. exact @C77_ex. Qed.

(** C78.  A good call without lines, with the priorities of the scripts instead of its own: the entry after
    the last one is read, if the pool starts from one point or the last cell has most boundary faces. *)
Theorem C78_undefined : ∀ {A : Arith} {H : HashOrder} (i : input) (o : outs),
  good_call i o → ¬ aniso_on i o →
  (in_order i = 10%Z ∨ in_order i = 11%Z ∨
   ∃ b, in_bnd i !! (in_n i - 1) = Some b ∧ ((in_dim i <= b)%Z ∨ ∀ x b', in_bnd i !! x = Some b' → (b' <= b)%Z)) →
  agglomerate_one_level (give_prio (py_weights (in_n i)) i) o = (o, Err EUB).
Proof. exact @C78_lem. Qed.
Print Assumptions C78_undefined.

Example C78_undefined_example :
  good_call sq4 o0 ∧ ¬ aniso_on sq4 o0 ∧
  (∃ b, in_bnd sq4 !! (in_n sq4 - 1) = Some b ∧ ((in_dim sq4 <= b)%Z ∨ ∀ x b', in_bnd sq4 !! x = Some b' → (b' <= b)%Z)) ∧
  in_n sq4 = 4 ∧ py_weights (in_n sq4) = [qc 3 1; qc 2 1; qc 1 1] ∧
  (agglomerate_one_level sq4 o0).2 = Ok () ∧ agglomerate_one_level (give_prio (py_weights (in_n sq4)) sq4) o0 = (o0, Err EUB).
Proof. exact @C78_ex. Qed.

(** C78 fails: the scripts give one priority less than there are cells. *)
Theorem C78_priorities_refuted :
  ∃ (i : @input qarith) (o : outs), good_call i o ∧ length (py_weights (in_n i)) ≠ in_n i ∧
  (agglomerate_one_level i o).2 = Ok () ∧ (agglomerate_one_level (give_prio (py_weights (in_n i)) i) o).2 = Err EUB.
Proof. exact @C78_ref. Qed.
Print Assumptions C78_priorities_refuted.
