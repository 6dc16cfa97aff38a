(** * PropsUtil: the tools of Util.h (C19-C25) *)

From Verif Require Import UtilM Spec SpecCoarse WallT CoarseT CoarseU CoarseV CoarseE Inst.

#[local] Existing Instance qarith | 100.

(** C19.  Each cell gets the length of a shortest path to the wall, or -1 if there is
    no such path; the vector given for the result does not matter. *)
Theorem C19_wall_distance : ∀ (n : nat) (idx : list nat) (col : list nat) (wall : list nat) (dist0 : list Z),
  csr n idx col → csr_sym idx col → (∀ c, c ∈ wall → c < n) →
  ∃ d, wall_distance idx col wall dist0 = Ok d ∧ length d = n ∧
    ∀ x v, d !! x = Some v →
      let path_to_wall k := ∃ w, w ∈ wall ∧ walk (edge idx col) (λ _, True) (λ z, z = x) k w in
      (v = (-1)%Z ∧ ∀ k, ¬ path_to_wall k) ∨
      ∃ k, v = Z.of_nat k ∧ path_to_wall k ∧ ∀ k', path_to_wall k' → k ≤ k'.
Proof. exact @C19_sym_lem. Qed.
Print Assumptions C19_wall_distance.

Example C19_wall_distance_example :
  csr 5 (row_of 0 [[1]; [0; 2]; [1]; [4]; [3]]) [1; 0; 2; 1; 4; 3] ∧
  csr_sym (row_of 0 [[1]; [0; 2]; [1]; [4]; [3]]) [1; 0; 2; 1; 4; 3] ∧
  wall_distance (row_of 0 [[1]; [0; 2]; [1]; [4]; [3]]) [1; 0; 2; 1; 4; 3] [0] [7; 7]%Z = Ok [0; 1; 2; -1; -1]%Z.
Proof. exact @C19_ex. Qed.

(** C19.  In a graph which is not symmetric these are the distances from the wall. *)
Theorem C19_distance_from_wall : ∀ (n : nat) (idx : list nat) (col : list nat) (wall : list nat) (dist0 : list Z),
  csr n idx col → (∀ c, c ∈ wall → c < n) →
  ∃ d, wall_distance idx col wall dist0 = Ok d ∧ length d = n ∧
    ∀ x v, d !! x = Some v →
      (v = (-1)%Z ∧ ∀ k, ¬ walk (edge idx col) (λ _, True) (λ c, c ∈ wall) k x) ∨
      ∃ k, v = Z.of_nat k ∧ at_dist (edge idx col) (λ _, True) (λ c, c ∈ wall) k x.
Proof. exact @C19_lem. Qed.
Print Assumptions C19_distance_from_wall.

Example C19_distance_from_wall_example :
  csr 5 (row_of 0 [[1]; [0; 2]; [1]; [4]; [3]]) [1; 0; 2; 1; 4; 3] ∧
  csr_sym (row_of 0 [[1]; [0; 2]; [1]; [4]; [3]]) [1; 0; 2; 1; 4; 3] ∧
  wall_distance (row_of 0 [[1]; [0; 2]; [1]; [4]; [3]]) [1; 0; 2; 1; 4; 3] [0] [7; 7]%Z = Ok [0; 1; 2; -1; -1]%Z.
Proof. exact @C19_ex. Qed.

(** C20.  For consistent data: the coarse graph has exactly the edges induced by the
    fine one.  Missing: graphs in which a weight is read out of bounds, see [ff_wgt]
    and the last theorem about C20. *)
Theorem C20_coarse_graph_partial : ∀ {A : Arith} (f : fgraph) (f2c : list nat),
  fine_ok f f2c →
  ∃ g m, build_coarse_graph f f2c = Ok g ∧ m ∈ f2c ∧ (∀ c, c ∈ f2c → c ≤ m) ∧
    csr (S m) (cg_idx g) (cg_adj g) ∧ simple_csr (cg_idx g) (cg_adj g) ∧
    (∀ a b, edge (cg_idx g) (cg_adj g) a b ↔ coarse_edge f f2c a b) ∧
    (csr_sym (fg_idx f) (fg_adj f) → csr_sym (cg_idx g) (cg_adj g)) ∧
    length (cg_wgt g) = length (cg_adj g) ∧
    length (cg_vol g) = S m ∧ length (cg_cen g) = S m ∧
    length (cg_prio g) = S m ∧ length (cg_bnd g) = S m.
Proof. exact @C20_lem. Qed.
Print Assumptions C20_coarse_graph_partial.

Example C20_coarse_graph_partial_example :
  fine_ok chain4u f2c4 ∧ csr_sym (fg_idx chain4u) (fg_adj chain4u) ∧
  build_coarse_graph chain4u f2c4 = Ok chain4u_g ∧ cg_idx chain4u_g = [0; 1; 2] ∧ cg_adj chain4u_g = [1; 0].
Proof. exact @C20_ex. Qed.

(** C20.  The weights are never read out of bounds when each cell has a neighbour. *)
Theorem C20_no_isolated_cell : ∀ {A : Arith} (f : fgraph) (f2c : list nat),
  let n := length f2c in
  0 < n → csr n (fg_idx f) (fg_adj f) → length (fg_wgt f) = length (fg_adj f) →
  length (fg_vol f) = n → length (fg_cen f) = n →
  (∀ x c0 c, fg_cen f !! 0 = Some c0 → fg_cen f !! x = Some c → length c = length c0) →
  length (fg_prio f) = n → length (fg_bnd f) = n →
  (∀ x, x < n → ∃ y, edge (fg_idx f) (fg_adj f) x y) → fine_ok f f2c.
Proof. exact @C20_isolated_lem. Qed.
Print Assumptions C20_no_isolated_cell.

Example C20_no_isolated_cell_example :
  ∀ x, x < length f2c4 → ∃ y, edge (fg_idx chain4u) (fg_adj chain4u) x y.
Proof. exact @C20_isolated_ex. Qed.

(** C20 is false for a graph with two isolated cells: undefined behaviour. *)
Theorem C20_coarse_graph_refuted :
  ∃ f f2c, let n := length f2c in
  csr n (fg_idx f) (fg_adj f) ∧ csr_sym (fg_idx f) (fg_adj f) ∧ simple_csr (fg_idx f) (fg_adj f) ∧
  length (fg_wgt f) = length (fg_adj f) ∧ length (fg_vol f) = n ∧ length (fg_cen f) = n ∧
  length (fg_prio f) = n ∧ length (fg_bnd f) = n ∧
  (∀ c, c < 4 ↔ c ∈ f2c) ∧ build_coarse_graph f f2c = Err EUB.
Proof. exact @C20_ref. Qed.
Print Assumptions C20_coarse_graph_refuted.

(** C21.  Whenever the function returns: the volumes of the cells of each coarse cell are added, in the order of
    the cells; in exact arithmetic the total volume is conserved. *)
Theorem C21_volumes : ∀ {A : Arith} (f : fgraph) (f2c : list nat) (g : cgraph),
  build_coarse_graph f f2c = Ok g →
  ∃ m, m ∈ f2c ∧ (∀ c, c ∈ f2c → c ≤ m) ∧ length (cg_vol g) = S m ∧
    (∀ c, c ≤ m → cg_vol g !! c = Some (wsum_l (omap (λ x, fg_vol f !! x) (fine_of f2c c)))) ∧
    (length (fg_vol f) = length f2c →
     (∀ a b c, wadd a (wadd b c) = wadd (wadd a b) c) → (∀ a b, wadd a b = wadd b a) →
     (∀ a, wadd w0 a = a) → wsum_l (cg_vol g) = wsum_l (fg_vol f)).
Proof. exact @C21_lem. Qed.
Print Assumptions C21_volumes.

Example C21_volumes_example :
  build_coarse_graph chain4u f2c4 = Ok chain4u_g ∧ cg_vol chain4u_g = [qc 2 1; qc 2 1] ∧
  length (fg_vol chain4u) = length f2c4 ∧
  (∀ a b c : W, wadd a (wadd b c) = wadd (wadd a b) c) ∧ (∀ a b : W, wadd a b = wadd b a) ∧ (∀ a : W, wadd w0 a = a).
Proof. exact @C21_ex. Qed.

(** C21.  For consistent data the function does return, with these volumes. *)
Theorem C21_consistent_data : ∀ {A : Arith} (f : fgraph) (f2c : list nat),
  fine_ok f f2c →
  ∃ g m, build_coarse_graph f f2c = Ok g ∧ m ∈ f2c ∧ (∀ c, c ∈ f2c → c ≤ m) ∧ length (cg_vol g) = S m ∧
    (∀ c, c ≤ m → cg_vol g !! c = Some (wsum_l (omap (λ x, fg_vol f !! x) (fine_of f2c c)))) ∧
    ((∀ a b c, wadd a (wadd b c) = wadd (wadd a b) c) → (∀ a b, wadd a b = wadd b a) →
     (∀ a, wadd w0 a = a) → wsum_l (cg_vol g) = wsum_l (fg_vol f)).
Proof. exact @C21_fine_lem. Qed.
Print Assumptions C21_consistent_data.

Example C21_consistent_data_example1 :
  fine_ok chain4u f2c4 ∧ weak_order wlt (λ w, w ∈ wminv :: fg_prio chain4u) ∧
  (∀ b, b ∈ fg_bnd chain4u → (-2147483648 <= b)%Z) ∧
  cg_prio chain4u_g = [qc 2 1; qc 4 1] ∧ cg_bnd chain4u_g = [1; 2]%Z.
Proof. exact @C24_int_ex. Qed.

Example C21_consistent_data_example2 :
  build_coarse_graph chain4u f2c4 = Ok chain4u_g ∧ cg_vol chain4u_g = [qc 2 1; qc 2 1] ∧
  length (fg_vol chain4u) = length f2c4 ∧
  (∀ a b c : W, wadd a (wadd b c) = wadd (wadd a b) c) ∧ (∀ a b : W, wadd a b = wadd b a) ∧ (∀ a : W, wadd w0 a = a).
Proof. exact @C21_ex. Qed.

(** C22.  The weight of a coarse face is the sum over its fine faces of the weights
    found at the index of the neighbouring cell.  It is the sum of the weights of
    the fine faces if all weights are the same.  Missing: the next theorem. *)
Theorem C22_weights_partial : ∀ {A : Arith} (f : fgraph) (f2c : list nat),
  fine_ok f f2c →
  ∃ g, build_coarse_graph f f2c = Ok g ∧ length (cg_wgt g) = length (cg_adj g) ∧
    ∀ k a b, coarse_pos g k a b →
      cg_wgt g !! k = Some (wsum_l (omap (λ k, y ← fg_adj f !! k; fg_wgt f !! y) (faces f f2c a b))) ∧
      ∀ w, length (fg_wgt f) = length (fg_adj f) → (∀ w', w' ∈ fg_wgt f → w' = w) →
        cg_wgt g !! k = Some (wsum_l (omap (λ k, fg_wgt f !! k) (faces f f2c a b))).
Proof. exact @C22_lem. Qed.
Print Assumptions C22_weights_partial.

Example C22_weights_partial_example :
  fine_ok chain4u f2c4 ∧ coarse_pos chain4u_g 0 0 1 ∧ cg_wgt chain4u_g !! 0 = Some (qc 1 1) ∧
  length (fg_wgt chain4u) = length (fg_adj chain4u) ∧ ∀ w, w ∈ fg_wgt chain4u → w = qc 1 1.
Proof. exact @C22_ex. Qed.

(** C22 is false for weights which are not constant. *)
Theorem C22_weights_refuted :
  ∃ f f2c g k a b w, fine_ok f f2c ∧ csr_sym (fg_idx f) (fg_adj f) ∧
  length (fg_wgt f) = length (fg_adj f) ∧ build_coarse_graph f f2c = Ok g ∧
  coarse_pos g k a b ∧ cg_wgt g !! k = Some w ∧
  w ≠ wsum_l (omap (λ k, fg_wgt f !! k) (faces f f2c a b)).
Proof. exact @C22_ref. Qed.
Print Assumptions C22_weights_refuted.

(** C23.  A coarse centre is the volume-weighted sum divided by the number of cells,
    which is the volume-weighted average if the mean volume is one.  Missing: the next
    theorem. *)
Theorem C23_centres_partial : ∀ {A : Arith} (f : fgraph) (f2c : list nat),
  fine_ok f f2c →
  ∃ g m, build_coarse_graph f f2c = Ok g ∧ (∀ c, c ∈ f2c → c ≤ m) ∧ length (cg_cen g) = S m ∧
    ∀ c c0, c ≤ m → fg_cen f !! 0 = Some c0 →
      ∃ x, cg_cen g !! c = Some x ∧ length x = length c0 ∧
        ∀ k, k < length c0 → ∃ z, x !! k = Some z ∧
          let N := wofZ (Z.of_nat (length (fine_of f2c c))) in
          let vols := wsum_l (omap (λ y, fg_vol f !! y) (fine_of f2c c)) in
          let moment := wsum_l (omap (λ y, v ← fg_vol f !! y; cy ← fg_cen f !! y; t ← cy !! k; Some (wmul v t))
                                  (fine_of f2c c)) in
          z = wmul moment (wdiv w1 N) ∧
          ((∀ a, wmul (wmul a (wdiv w1 N)) N = a) → vols = N → wmul z vols = moment).
Proof. exact @C23_lem. Qed.
Print Assumptions C23_centres_partial.

Example C23_centres_partial_example :
  fine_ok chain4u f2c4 ∧ cg_cen chain4u_g = [[qc 1 2]; [qc 5 2]] ∧
  let N := wofZ (Z.of_nat (length (fine_of f2c4 0))) in
  (∀ a : W, wmul (wmul a (wdiv w1 N)) N = a) ∧ wsum_l (omap (λ y, fg_vol chain4u !! y) (fine_of f2c4 0)) = N.
Proof. exact @C23_ex. Qed.

(** C23 is false for volumes other than one: the centre is outside the cells. *)
Theorem C23_centres_refuted :
  ∃ f f2c g x, fine_ok f f2c ∧ build_coarse_graph f f2c = Ok g ∧
  cg_cen g !! 0 = Some [x] ∧
  (∀ y v, f2c !! y = Some 0 → fg_vol f !! y = Some v → wlt w0 v = true) ∧
  (∀ y z, f2c !! y = Some 0 → fg_cen f !! y = Some [z] → wlt z x = true).
Proof. exact @C23_ref. Qed.
Print Assumptions C23_centres_refuted.

(** C24.  The number of boundary faces is the maximum, and so is the priority if one
    priority exceeds the smallest positive number; otherwise it is this number.
    Missing: the next theorem. *)
Theorem C24_maxima_partial : ∀ {A : Arith} (f : fgraph) (f2c : list nat),
  fine_ok f f2c → weak_order wlt (λ w, w ∈ wminv :: fg_prio f) →
  (∀ b, b ∈ fg_bnd f → (-2147483648 <= b)%Z) →
  ∃ g m, build_coarse_graph f f2c = Ok g ∧ (∀ c, c ∈ f2c → c ≤ m) ∧
    length (cg_prio g) = S m ∧ length (cg_bnd g) = S m ∧
    ∀ c, c ∈ f2c → ∃ p b, cg_prio g !! c = Some p ∧ cg_bnd g !! c = Some b ∧
      (∃ x, f2c !! x = Some c ∧ fg_bnd f !! x = Some b) ∧
      (∀ x b', f2c !! x = Some c → fg_bnd f !! x = Some b' → (b' <= b)%Z) ∧
      (∀ x w, f2c !! x = Some c → fg_prio f !! x = Some w → wlt p w = false) ∧
      ((∃ x w, f2c !! x = Some c ∧ fg_prio f !! x = Some w ∧ wlt wminv w = true) ∧
         (∃ x, f2c !! x = Some c ∧ fg_prio f !! x = Some p) ∨
       (∀ x w, f2c !! x = Some c → fg_prio f !! x = Some w → wlt wminv w = false) ∧ p = wminv).
Proof. exact @C24_int_lem. Qed.
Print Assumptions C24_maxima_partial.

Example C24_maxima_partial_example :
  fine_ok chain4u f2c4 ∧ weak_order wlt (λ w, w ∈ wminv :: fg_prio chain4u) ∧
  (∀ b, b ∈ fg_bnd chain4u → (-2147483648 <= b)%Z) ∧
  cg_prio chain4u_g = [qc 2 1; qc 4 1] ∧ cg_bnd chain4u_g = [1; 2]%Z.
Proof. exact @C24_int_ex. Qed.

(** C24 is false for priorities which are not positive. *)
Theorem C24_maxima_refuted :
  ∃ f f2c g p, fine_ok f f2c ∧ build_coarse_graph f f2c = Ok g ∧
  (∀ w, w ∈ fg_prio f → w = w0) ∧ cg_prio g !! 0 = Some p ∧ wlt w0 p = true.
Proof. exact @C24_ref. Qed.
Print Assumptions C24_maxima_refuted.

(** C25.  If one allowed value is positive the cells whose number of edges is allowed,
    otherwise no cell, in increasing order.  Missing: the next theorem. *)
Theorem C25_filter_partial : ∀ (idx : list nat) (bnd : list Z) (allowed : list Z),
  length idx = S (length bnd) →
  ∃ l, filter_cells idx bnd allowed = Ok l ∧ StronglySorted lt l ∧
    ((∃ v, v ∈ allowed ∧ (0 < v)%Z) ∧ (∀ c, c ∈ l ↔ ∃ v, n_edges idx bnd c v ∧ v ∈ allowed) ∨
     (∀ v, v ∈ allowed → (v <= 0)%Z) ∧ l = []).
Proof. exact @C25_lem. Qed.
Print Assumptions C25_filter_partial.

Example C25_filter_partial_example :
  length [0; 1; 3; 4] = S (length [1; 1; 0]%Z) ∧
  filter_cells [0; 1; 3; 4] [1; 1; 0]%Z [2; 3]%Z = Ok [0; 1].
Proof. exact @C25_ex. Qed.

(** C25 is false when zero is allowed along with a positive value: cells without edges
    are kept. *)
Theorem C25_filter_refuted :
  ∃ idx bnd allowed l c, csr 3 idx [1; 0] ∧ length bnd = 3 ∧
  filter_cells idx bnd allowed = Ok l ∧ c ∈ l ∧ n_edges idx bnd c 0.
Proof. exact @C25_ref. Qed.
Print Assumptions C25_filter_refuted.
