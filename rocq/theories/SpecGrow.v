(** * SpecGrow: how an isotropic coarse cell is built (C40)

    Which cells are considered, which ones are added one after the other and
    how many of them are kept: comments of
    [choose_optimal_cc_and_update_seeds_pool], Agglomerator.h:1224-1474.
    Candidates and features are those of C29 and C28, the best candidate is
    that of C38. *)

From Verif Require Import Base Features Neigh Iso Spec SpecSub SpecFeat SpecBest FeatU.

(** ** The number of cells kept

    [K j] and [E j] are the compactness and the number of external faces of
    the coarse cell of [j] cells; [lo] to [hi] are the admissible sizes. *)
Section size.
Context (K E : nat → Z) (lo hi goal : Z).
Definition admissible (j : nat) : Prop := (lo <= Z.of_nat j <= hi)%Z.
(** The highest compactness, then the fewest external faces. *)
Definition optimal (j : nat) : Prop :=
  admissible j ∧ ∀ j', admissible j' → (K j' < K j)%Z ∨ K j' = K j ∧ (E j <= E j')%Z.
(** The goal if it is optimal, the largest optimal size otherwise. *)
Definition size_kept (k : nat) : Prop :=
  optimal k ∧ (Z.of_nat k = goal ∨ ∀ j, optimal j → Z.of_nat j ≠ goal ∧ j ≤ k).
End size.

(** The faces between [X] and the rest, including the boundary faces. *)
Definition external_faces (row col : list nat) (bnd : list Z) (X : gset nat) : Z :=
  foldr Z.add 0%Z (outer_faces row col bnd X <$> elements X).

(** The aspect ratios in the order of their numbers (CoMMADefs.h:77-108). *)
Definition ar_kinds (is2d : bool) : list ar_kind :=
  [DiamOverRadius is2d; DiamOverMinEdge; Diameter; OverMeasure; OverInternal; PerimOverRadius is2d; ExternalW;
   MaxBaryOverRadius is2d; MaxOverMinBary; AlgPerimOverMeasure].

Section grow.
Context {A : Arith} {H : HashOrder}.
Context (ip : iso_params) (g : graph) (prio : list W).
Implicit Types (dn : gmap nat Z) (X : gset nat).

Notation row := (g_row g).
Notation col := (g_col g).

(** [dn] gives the distance to [seed] of the free cells at distance at most
    [K] of it; [K] is as asked for and larger if there are not enough cells. *)
Record hood (free : nat → Prop) (seed K : nat) dn : Prop := {
  hd_dist : ∀ x v, dn !! x = Some v ↔ x ≠ seed ∧
    ∃ j, j ≤ K ∧ v = Z.of_nat j ∧ at_dist (edge row col) free (λ z, z = seed) j x;
  hd_stop : let order := Z.max (if bool_decide (ip_dim ip = 2)%Z then 2 else 3) (ip_max ip `quot` ip_dim ip) in
    (∀ j x, at_dist (edge row col) free (λ z, z = seed) j x → x = seed ∨ is_Some (dn !! x)) ∨
    (order <= Z.of_nat K)%Z ∧ (ip_max ip <= Z.of_nat (1 + size dn))%Z;
  hd_more : let order := Z.max (if bool_decide (ip_dim ip = 2)%Z then 2 else 3) (ip_max ip `quot` ip_dim ip) in
    K = 0 ∨ (Z.of_nat K <= order)%Z ∨
    ∃ Y : gset nat, (∀ x, x ∈ Y ↔ ∃ j, j < K ∧ at_dist (edge row col) free (λ z, z = seed) j x) ∧
      (Z.of_nat (size Y) < ip_max ip)%Z;
}.

(** After [seed] and the cells [pre], [c] is the first best candidate, judged
    with the [n] cells that could be added after it. *)
Definition next_cell dn (seed : nat) (pre : list nat) (n : nat) (c : nat) : Prop :=
  let X : gset nat := list_to_set (seed :: pre) in
  let left : gmap nat Z := filter (λ e : nat * Z, e.1 ∉ seed :: pre) dn in
  let faces x := Z.of_nat (nb_in row col X (λ y, y ≠ x) x) in
  ∃ f h (ar : nat → W) (look : nat → Z * W),
    features_of (ip_ar ip) g seed pre = Ok f ∧
    foldM (λ h c, l ← nbrs g c; nbh_update prio h c l) (seed :: pre)
      (nbh_create (dom dn) (if ip_front ip then Some (ip_dim ip) else None)) = Ok h ∧
    (∀ x, x ∈ nb_cand h → ∃ f', compute_features (ip_ar ip) g x f X = Ok (faces x, ar x, f') ∧
      match n with
      | O => look x = (faces x, ar x)
      | S n' => ∃ h' b', (l ← nbrs g x; nbh_update prio h x l) = Ok h' ∧
          best_iterative n' (ip_ar ip) g prio h' left f' ({[x]} ∪ X) 0 0%Z feats_default = Ok b' ∧
          look x = ahead (faces x) (ar x) (b_faces b')
      end) ∧
    first_best (λ x, ((look x).1, default 0%Z (dn !! x), (look x).2)) (nb_cand h) c.

(** The number of external faces as the program counts it: one less for every
    cell (Agglomerator.h:1310-1313 and 1362-1366). *)
Definition ext_of X : Z := (external_faces row col (g_bnd g) X - Z.of_nat (size X))%Z.

(** [X] is the coarse cell grown from [seed] when the cells satisfying [free]
    are available; [cpt] and [ext] say what the compactness and the number of
    external faces of a set of cells are. *)
Record grown_from (cpt : gset nat → Z → Prop) (ext : gset nat → Z) (free : nat → Prop) (seed : nat) X : Prop := {
  gf_seed : free seed;
  gf_cells : ∃ K dn, hood free seed K dn ∧
    let avail := Z.of_nat (1 + size dn) in
    if bool_decide (avail < ip_goal ip)%Z then X = {[seed]} ∪ dom dn
    else ∃ (l : list nat) (C : nat → Z) (k : nat),
      NoDup (seed :: l) ∧ Z.of_nat (1 + length l) = Z.min (ip_max ip) avail ∧
      (∀ j c, l !! j = Some c →
        next_cell dn seed (take j l)
          (if ip_it ip then Z.to_nat (Z.min (Z.of_nat (length l - j)) (ip_iter ip) - 1) else 0) c) ∧
      let first j : gset nat := list_to_set (take j (seed :: l)) in
      (∀ j, admissible (ip_min ip) (Z.of_nat (1 + length l)) j → cpt (first j) (C j)) ∧
      size_kept C (λ j, ext (first j)) (ip_min ip) (Z.of_nat (1 + length l)) (ip_goal ip) k ∧
      X = first k;
}.
End grow.
