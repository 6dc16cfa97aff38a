(** * PropsHier: levels of regular grids (C70) *)

From Verif Require Import Main UtilM Spec SpecSub SpecGrid SpecChain SpecHier HierT HierE GridE ApiE Inst.

#[local] Existing Instance qarith | 100.
#[local] Existing Instance ord_id | 100.

(** C70.  Any number of levels on a regular grid whose sizes are divisible by the right power of
    two: the coarse cells after [m] levels are the blocks of [2 ^ m] cells in each direction, and the
    last coarse mesh is a regular grid again. *)
Theorem C70_levels : ∀ {A : Arith} {H : HashOrder} (i : input) (o : outs) (cs : list (list nat)) (size : nat → nat) (co : nat → nat → nat),
  good_call i o → in_aniso i = false →
  simple_csr (in_row i) (in_col i) → weak_order wlt (λ _, True) →
  regular_grid i (λ k, 2 ^ length cs * size k) co →
  in_max i = (2 ^ in_dim i)%Z → in_dim i = 2%Z ∨ in_nbh i = 0%Z ∧ in_iter i = 1%Z →
  (∃ i' o' co', levels cs i o = Ok (i', o') ∧ good_call i' o' ∧ regular_grid i' size co') ∧
  length (level_maps cs i o) = length cs ∧
  ∀ x y, x < in_n i → y < in_n i →
    is_Some (follow (level_maps cs i o) x) ∧
    (follow (level_maps cs i o) x = follow (level_maps cs i o) y ↔
     ∀ k, k < axes i → co x k / 2 ^ length cs = co y k / 2 ^ length cs).
Proof. exact @C70_blocks_lem. Qed.
Print Assumptions C70_levels.

Example C70_levels_example :
  good_call rc32 o0 ∧ in_aniso rc32 = false ∧ simple_csr (in_row rc32) (in_col rc32) ∧
  weak_order (@wlt qarith) (λ _, True) ∧ regular_grid rc32 (λ k, 2 ^ length [[0;1]; []] * rc_last k) rc_co ∧
  in_max rc32 = (2 ^ in_dim rc32)%Z ∧ in_dim rc32 = 2%Z ∧
  level_maps [[0;1]; []] rc32 o0 =
    [[0;0;4;4;5;5;1;1; 0;0;4;4;5;5;1;1; 2;2;6;6;7;7;3;3; 2;2;6;6;7;7;3;3]; [0;1;0;1;0;1;0;1]] ∧
  follow (level_maps [[0;1]; []] rc32 o0) <$> [0; 11; 27; 4; 31] = [Some 0; Some 0; Some 0; Some 1; Some 1].
Proof. exact @C70_ex. Qed.

(** C70.  The coordinates of the coarse cell which contains a cell are those of the cell divided
    by [2 ^ m]. *)
Theorem C70_coordinates : ∀ {A : Arith} {H : HashOrder} (i : input) (o : outs) (cs : list (list nat)) (size : nat → nat) (co : nat → nat → nat),
  good_call i o → in_aniso i = false →
  simple_csr (in_row i) (in_col i) → weak_order wlt (λ _, True) →
  regular_grid i (λ k, 2 ^ length cs * size k) co →
  in_max i = (2 ^ in_dim i)%Z → in_dim i = 2%Z ∨ in_nbh i = 0%Z ∧ in_iter i = 1%Z →
  ∃ i' o' co', levels cs i o = Ok (i', o') ∧ good_call i' o' ∧ simple_csr (in_row i') (in_col i') ∧
    axes i' = axes i ∧ regular_grid i' size co' ∧ length (level_maps cs i o) = length cs ∧
    ∀ x, x < in_n i → ∃ c, follow (level_maps cs i o) x = Some c ∧ c < in_n i' ∧
      ∀ k, k < axes i → co' c k = co x k / 2 ^ length cs.
Proof. exact @C70_lem. Qed.
Print Assumptions C70_coordinates.

Example C70_coordinates_example :
  good_call rc32 o0 ∧ in_aniso rc32 = false ∧ simple_csr (in_row rc32) (in_col rc32) ∧
  weak_order (@wlt qarith) (λ _, True) ∧ regular_grid rc32 (λ k, 2 ^ length [[0;1]; []] * rc_last k) rc_co ∧
  in_max rc32 = (2 ^ in_dim rc32)%Z ∧ in_dim rc32 = 2%Z ∧
  level_maps [[0;1]; []] rc32 o0 =
    [[0;0;4;4;5;5;1;1; 0;0;4;4;5;5;1;1; 2;2;6;6;7;7;3;3; 2;2;6;6;7;7;3;3]; [0;1;0;1;0;1;0;1]] ∧
  follow (level_maps [[0;1]; []] rc32 o0) <$> [0; 11; 27; 4; 31] = [Some 0; Some 0; Some 0; Some 1; Some 1].
Proof. exact @C70_ex. Qed.
