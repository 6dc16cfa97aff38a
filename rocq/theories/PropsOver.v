(** * PropsOver: bounded integers in the tools of Util.h (C54) *)

From Verif Require Import UtilM UtilC Spec SpecCoarse OverT OverE.

(** C54.  The wall distance, with distances up to [top]: overflow exactly if a cell is at
    distance [top]; never with at most [top] cells. *)
Theorem C54_wall_distance : ∀ n idx col wall dist0 top,
  csr n idx col → (∀ c, c ∈ wall → c < n) →
  ((∃ x, at_dist (edge idx col) (λ _, True) (λ c, c ∈ wall) top x) →
     wall_distance_c (Z.of_nat top) idx col wall dist0 = Err EUB) ∧
  ((∀ x, ¬ at_dist (edge idx col) (λ _, True) (λ c, c ∈ wall) top x) →
     wall_distance_c (Z.of_nat top) idx col wall dist0 = wall_distance idx col wall dist0) ∧
  (n ≤ top → wall_distance_c (Z.of_nat top) idx col wall dist0 = wall_distance idx col wall dist0).
Proof. exact @C54_wall_lem. Qed.
Print Assumptions C54_wall_distance.

Example C54_wall_distance_example :
  wall_distance_c 3 [0; 1; 3; 5; 6] [1; 0; 2; 1; 3; 2] [0] [] = Err EUB ∧
  wall_distance_c 4 [0; 1; 3; 5; 6] [1; 0; 2; 1; 3; 2] [0] [] = Ok [0; 1; 2; 3]%Z ∧
  wall_distance [0; 1; 3; 5; 6] [1; 0; 2; 1; 3; 2] [0] [] = Ok [0; 1; 2; 3]%Z.
Proof. exact @C54_wall_ex. Qed.

(** C54.  Counting the faces of the cells with 32 bits gives the same selection if the
    numbers of faces fit. *)
Theorem C54_filter : ∀ idx bnd allowed,
  (∀ c v, n_edges idx bnd c v → (-2147483648 <= v <= 2147483647)%Z) →
  filter_cells_c idx bnd allowed = filter_cells idx bnd allowed.
Proof. exact @C54_filter_lem. Qed.
Print Assumptions C54_filter.

Example C54_filter_example :
  filter_cells_c [0; 1; 2] [1; 2147483647]%Z [2; -2147483648]%Z = Ok [0; 1] ∧
  filter_cells [0; 1; 2] [1; 2147483647]%Z [2; -2147483648]%Z = Ok [0].
Proof. exact @C54_filter_ex. Qed.
