(** * PropsGrid: regular grids (C67, C68) *)

From Verif Require Import Main Spec SpecSub SpecGrid GridU GridE ApiE Inst.

#[local] Existing Instance qarith | 100.
#[local] Existing Instance ord_id | 100.

(** C67.  The coarse cells of a regular grid are its blocks of two cells in each direction: in
    two dimensions always, in three with the extended neighbourhood and without look-ahead. *)
Theorem C67_blocks : ∀ {A : Arith} {H : HashOrder} (i : input) (o : outs) (half : nat → nat) (co : nat → nat → nat) (r : outs) (e : res unit),
  good_call i o → ¬ aniso_on i o →
  simple_csr (in_row i) (in_col i) → weak_order wlt (λ _, True) → even_grid i half co →
  in_max i = (2 ^ in_dim i)%Z → in_dim i = 2%Z ∨ in_nbh i = 0%Z ∧ in_iter i = 1%Z → agglomerate_one_level i o = (r, e) →
  e = Ok () ∧ length (o_fc2cc r) = in_n i ∧
  ∀ x y, x < in_n i → y < in_n i → o_fc2cc r !! x = o_fc2cc r !! y ↔ same_block i co x y.
Proof. exact @C67_lem. Qed.
Print Assumptions C67_blocks.

Example C67_blocks_example :
  (weak_order (@wlt qarith) (λ _, True)) ∧
  (good_call sq16 o0 ∧ ¬ aniso_on sq16 o0 ∧ simple_csr (in_row sq16) (in_col sq16) ∧
   even_grid sq16 (λ _, 2) sq_co ∧ in_max sq16 = (2 ^ in_dim sq16)%Z ∧ (in_dim sq16 = 2)%Z ∧
   agglomerate_one_level sq16 o0 = (Outs [0;0;1;1;0;0;1;1;2;2;3;3;2;2;3;3] [] [], Ok ())) ∧
  (good_call (br16 2 1 0) o0 ∧ ¬ aniso_on (br16 2 1 0) o0 ∧ simple_csr (in_row (br16 2 1 0)) (in_col (br16 2 1 0)) ∧
   even_grid (br16 2 1 0) br_half br_co ∧ in_max (br16 2 1 0) = (2 ^ in_dim (br16 2 1 0))%Z ∧ in_nbh (br16 2 1 0) = 0%Z ∧ in_iter (br16 2 1 0) = 1%Z ∧
   agglomerate_one_level (br16 2 1 0) o0 = (Outs [0;0;1;1;0;0;1;1;0;0;1;1;0;0;1;1] [] [], Ok ())).
Proof. exact @C67_ex. Qed.

(** C68, positive part: two dimensions, any neighbourhood and any look-ahead.  Missing: three
    dimensions, where it is false. *)
Theorem C68_flat_partial : ∀ {A : Arith} {H : HashOrder} (i : input) (o : outs) (half : nat → nat) (co : nat → nat → nat) (r : outs) (e : res unit),
  good_call i o → ¬ aniso_on i o →
  simple_csr (in_row i) (in_col i) → weak_order wlt (λ _, True) → even_grid i half co →
  in_max i = (2 ^ in_dim i)%Z → in_dim i = 2%Z → agglomerate_one_level i o = (r, e) →
  e = Ok () ∧ length (o_fc2cc r) = in_n i ∧
  ∀ x y, x < in_n i → y < in_n i → o_fc2cc r !! x = o_fc2cc r !! y ↔ same_block i co x y.
Proof. exact @C68_flat_lem. Qed.
Print Assumptions C68_flat_partial.

Example C68_flat_partial_example :
  (weak_order (@wlt qarith) (λ _, True)) ∧
  (good_call sq16 o0 ∧ ¬ aniso_on sq16 o0 ∧ simple_csr (in_row sq16) (in_col sq16) ∧
   even_grid sq16 (λ _, 2) sq_co ∧ in_max sq16 = (2 ^ in_dim sq16)%Z ∧ (in_dim sq16 = 2)%Z ∧
   agglomerate_one_level sq16 o0 = (Outs [0;0;1;1;0;0;1;1;2;2;3;3;2;2;3;3] [] [], Ok ())) ∧
  (good_call (br16 2 1 0) o0 ∧ ¬ aniso_on (br16 2 1 0) o0 ∧ simple_csr (in_row (br16 2 1 0)) (in_col (br16 2 1 0)) ∧
   even_grid (br16 2 1 0) br_half br_co ∧ in_max (br16 2 1 0) = (2 ^ in_dim (br16 2 1 0))%Z ∧ in_nbh (br16 2 1 0) = 0%Z ∧ in_iter (br16 2 1 0) = 1%Z ∧
   agglomerate_one_level (br16 2 1 0) o0 = (Outs [0;0;1;1;0;0;1;1;0;0;1;1;0;0;1;1] [] [], Ok ())).
Proof. exact @C67_ex. Qed.

(** C68 is false in three dimensions with a look-ahead of four cells. *)
Theorem C68_look_ahead_refuted :
  ∃ (A : Arith) (H : HashOrder) (i : @input A) (o : outs) half co r,
  good_call i o ∧ ¬ aniso_on i o ∧ simple_csr (in_row i) (in_col i) ∧ weak_order wlt (λ _, True) ∧
  even_grid i half co ∧ in_max i = (2 ^ in_dim i)%Z ∧ in_nbh i = 0%Z ∧
  agglomerate_one_level i o = (r, Ok ()) ∧
  ∃ x y, x < in_n i ∧ y < in_n i ∧ same_block i co x y ∧ o_fc2cc r !! x ≠ o_fc2cc r !! y.
Proof. exact @C67_ahead_ref. Qed.
Print Assumptions C68_look_ahead_refuted.

(** C68 is false in three dimensions with the pure front. *)
Theorem C68_front_refuted :
  ∃ (A : Arith) (H : HashOrder) (i : @input A) (o : outs) half co r,
  good_call i o ∧ ¬ aniso_on i o ∧ simple_csr (in_row i) (in_col i) ∧ weak_order wlt (λ _, True) ∧
  even_grid i half co ∧ in_max i = (2 ^ in_dim i)%Z ∧ in_iter i = 1%Z ∧
  agglomerate_one_level i o = (r, Ok ()) ∧
  ∃ x y, x < in_n i ∧ y < in_n i ∧ same_block i co x y ∧ o_fc2cc r !! x ≠ o_fc2cc r !! y.
Proof. exact @C67_front_ref. Qed.
Print Assumptions C68_front_refuted.
