(** * OverE: examples for bounded integers in the tools of Util.h (C54) *)

From Verif Require Import Spec SpecCoarse UtilM UtilC.

(** Four cells in a row, the first one being the wall, and distances up to 3, or
    up to 4. *)
Lemma C54_wall_ex :
  wall_distance_c 3 [0; 1; 3; 5; 6] [1; 0; 2; 1; 3; 2] [0] [] = Err EUB ∧
  wall_distance_c 4 [0; 1; 3; 5; 6] [1; 0; 2; 1; 3; 2] [0] [] = Ok [0; 1; 2; 3]%Z ∧
  wall_distance [0; 1; 3; 5; 6] [1; 0; 2; 1; 3; 2] [0] [] = Ok [0; 1; 2; 3]%Z.
Proof. split_and!; vm_compute; reflexivity. Qed.

(** A number of boundary faces so large that the sum becomes negative. *)
Lemma C54_filter_ex :
  filter_cells_c [0; 1; 2] [1; 2147483647]%Z [2; -2147483648]%Z = Ok [0; 1] ∧
  filter_cells [0; 1; 2] [1; 2147483647]%Z [2; -2147483648]%Z = Ok [0].
Proof. split; vm_compute; reflexivity. Qed.
