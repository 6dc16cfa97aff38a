(** * PropsLay: lines over several levels (C71) *)

From Verif Require Import Base Main UtilM Spec SpecLine SpecSub SpecGrid SpecCol SpecChain SpecHier SpecLay LineT LayT LayE ColE GridE ApiE Inst.

#[local] Existing Instance qarith | 100.
#[local] Existing Instance ord_id | 100.

(** C71.  A given line of [2 ^ m * h] cells: after [m] levels it is a line of [h] coarse cells, each
    made of [2 ^ m] consecutive cells of the line, and of nothing else. *)
Theorem C71_given_lines : ∀ {A : Arith} {H : HashOrder} (i : input) (o : outs) (cs : list (list nat)) (l : list nat) (h : nat),
  good_call i o → in_connected i → given_paths i o → in_corr i = false ∨ thresh_one i →
  weak_order (@wlt A) (λ _, True) → in_aniso i = true → in_build i = false → in_maxline i = None →
  l ∈ split_lines (o_idx o) (o_lines o) → length l = 2 ^ length cs * h → 0 < h →
  ∃ i' o' l', levels cs i o = Ok (i', o') ∧ length (level_maps cs i o) = length cs ∧
    l' ∈ split_lines (o_idx o') (o_lines o') ∧ NoDup l' ∧ length l' = h ∧ grouped (level_maps cs i o) (2 ^ length cs) l l'.
Proof. exact @C71_lem. Qed.
Print Assumptions C71_given_lines.

Example C71_given_lines_example :
  good_call gl16 o_gl ∧ in_connected gl16 ∧ given_paths gl16 o_gl ∧
  (in_corr gl16 = false ∨ thresh_one gl16) ∧ weak_order (@wlt qarith) (λ _, True) ∧
  in_aniso gl16 = true ∧ in_build gl16 = false ∧ in_maxline gl16 = None ∧
  [7;6;5;4] ∈ split_lines (o_idx o_gl) (o_lines o_gl) ∧ length [7;6;5;4] = 2 ^ length [[0;1]; []] * 1 ∧
  level_maps [[0;1]; []] gl16 o_gl = [[0;0;1;1;2;2;3;3;4;4;5;5;4;4;5;5]; [0;0;1;1;2;2]] ∧
  match levels [[0;1]; []] gl16 o_gl with Ok (_, o') => split_lines (o_idx o') (o_lines o') = [[0]; [1]] | Err _ => False end ∧
  grouped (level_maps [[0;1]; []] gl16 o_gl) 4 [7;6;5;4] [1].
Proof. exact @C71_given_ex. Qed.

(** C71.  The same when the lines are found by the first level in a mesh cut into columns. *)
Theorem C71_columns : ∀ {A : Arith} {H : HashOrder} (N : W → Prop) (i : input) (o : outs) (cols : list (list nat)) compl (cs : list (list nat)) (l : list nat) (h : nat),
  line_order N i → good_call i o → in_connected i → in_corr i = false ∨ thresh_one i →
  weak_order (@wlt A) (λ _, True) → in_aniso i = true → in_build i = true → in_maxline i = None →
  columns i cols → l ∈ cols → length l = 2 ^ length (compl :: cs) * h → 0 < h →
  ∃ i' o' l', levels (compl :: cs) i o = Ok (i', o') ∧ length (level_maps (compl :: cs) i o) = length (compl :: cs) ∧
    l' ∈ split_lines (o_idx o') (o_lines o') ∧ NoDup l' ∧ length l' = h ∧
    grouped (level_maps (compl :: cs) i o) (2 ^ length (compl :: cs)) l l'.
Proof. exact @C71_columns_lem. Qed.
Print Assumptions C71_columns.

Example C71_columns_example :
  line_order (λ _, True) (st16 false) ∧ good_call (st16 false) o0 ∧ in_connected (st16 false) ∧
  (in_corr (st16 false) = false ∨ thresh_one (st16 false)) ∧ weak_order (@wlt qarith) (λ _, True) ∧
  in_aniso (st16 false) = true ∧ in_build (st16 false) = true ∧ in_maxline (st16 false) = None ∧
  columns (st16 false) st_cols ∧ stretched_grid (st16 false) (λ _, 4) sq_co (qc 9 1) (qc 1 1) ∧
  far_apart (st16 false) (qc 9 1) (qc 1 1) ∧ (∀ x, x < in_n (st16 false) → x ∈ in_compl (st16 false)) ∧
  level_maps [[0;1]; []] (st16 false) o0 = [[0;0;1;1;2;2;3;3;4;4;5;5;6;6;7;7]; [0;0;1;1;2;2;3;3]] ∧
  follow (level_maps [[0;1]; []] (st16 false) o0) <$> [4; 5; 6; 7; 8] = [Some 1; Some 1; Some 1; Some 1; Some 2].
Proof. exact @C71_ex. Qed.

(** C71.  On a stretched grid, [m] levels divide the first coordinate by [2 ^ m] and leave the others
    as they are. *)
Theorem C71_stretched_grid : ∀ {A : Arith} {H : HashOrder} (N : W → Prop) (i : input) (o : outs) (cs : list (list nat)) (size : nat → nat) (co : nat → nat → nat) (a b : W) h kk,
  line_order N i → good_call i o → in_corr i = false ∨ thresh_one i → weak_order (@wlt A) (λ _, True) →
  in_aniso i = true → in_build i = true → in_maxline i = None →
  stretched_grid i size co a b → far_apart i a b →
  in_coupling i ≠ 1%Z → in_force i = false → (∀ x, x < in_n i → x ∈ in_compl i) →
  size 0 = 2 ^ length cs * h → 2 ≤ size 0 → 0 < kk < axes i → 2 ≤ size kk →
  (∃ i' o', levels cs i o = Ok (i', o')) ∧ length (level_maps cs i o) = length cs ∧
  ∀ x y, x < in_n i → y < in_n i →
    is_Some (follow (level_maps cs i o) x) ∧
    (follow (level_maps cs i o) x = follow (level_maps cs i o) y ↔
     co x 0 / 2 ^ length cs = co y 0 / 2 ^ length cs ∧ ∀ k, 0 < k < axes i → co x k = co y k).
Proof. exact @C71_grid_lem. Qed.
Print Assumptions C71_stretched_grid.

Example C71_stretched_grid_example :
  line_order (λ _, True) (st16 false) ∧ good_call (st16 false) o0 ∧ in_connected (st16 false) ∧
  (in_corr (st16 false) = false ∨ thresh_one (st16 false)) ∧ weak_order (@wlt qarith) (λ _, True) ∧
  in_aniso (st16 false) = true ∧ in_build (st16 false) = true ∧ in_maxline (st16 false) = None ∧
  columns (st16 false) st_cols ∧ stretched_grid (st16 false) (λ _, 4) sq_co (qc 9 1) (qc 1 1) ∧
  far_apart (st16 false) (qc 9 1) (qc 1 1) ∧ (∀ x, x < in_n (st16 false) → x ∈ in_compl (st16 false)) ∧
  level_maps [[0;1]; []] (st16 false) o0 = [[0;0;1;1;2;2;3;3;4;4;5;5;6;6;7;7]; [0;0;1;1;2;2;3;3]] ∧
  follow (level_maps [[0;1]; []] (st16 false) o0) <$> [4; 5; 6; 7; 8] = [Some 1; Some 1; Some 1; Some 1; Some 2].
Proof. exact @C71_ex. Qed.
