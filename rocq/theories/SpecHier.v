(** * SpecHier: several levels of agglomeration of a regular grid (C70) *)

From Verif Require Import Base Main UtilM Spec SpecGrid SpecChain.

Section hier.
Context {A : Arith} {H : HashOrder}.

(** The mesh is a regular grid with [size k] cells in direction [k]; [co x k] is
    the coordinate of cell [x] in direction [k].  Cells may be numbered in any
    way.  A cell has a boundary face for each direction in which it is the first
    or the last. *)
Record regular_grid (i : input) (size : nat → nat) (co : nat → nat → nat) : Prop := {
  rg_in : ∀ x k, x < in_n i → k < axes i → co x k < size k;
  rg_all : ∀ f : nat → nat, (∀ k, k < axes i → f k < size k) →
    ∃ x, x < in_n i ∧ ∀ k, k < axes i → co x k = f k;
  rg_one : ∀ x y, x < in_n i → y < in_n i → (∀ k, k < axes i → co x k = co y k) → x = y;
  rg_edge : ∀ x y, x < in_n i → y < in_n i →
    in_edge i x y ↔ ∃ k, k < axes i ∧ (co y k = S (co x k) ∨ co x k = S (co y k)) ∧
      ∀ j, j < axes i → j ≠ k → co x j = co y j;
  rg_bnd : ∀ x b, in_bnd i !! x = Some b →
    b = Z.of_nat (length (filter (λ k, co x k = 0 ∨ co x k = size k - 1) (seq 0 (axes i))));
}.

(** The fine-to-coarse maps of the levels of [levels cs i o]. *)
Fixpoint level_maps (cs : list (list nat)) (i : input) (o : outs) : list (list nat) :=
  match cs with
  | [] => []
  | compl :: cs =>
      let r := (agglomerate_one_level i o).1 in
      match build_coarse_graph (fine_graph i) (o_fc2cc r) with
      | Ok g => o_fc2cc r :: level_maps cs (next_input i g compl) r
      | Err _ => []
      end
  end.

(** The coarse cell of the last level in which the cell [x] of the mesh is. *)
Fixpoint follow (maps : list (list nat)) (x : nat) : option nat :=
  match maps with
  | [] => Some x
  | f :: maps => match f !! x with Some c => follow maps c | None => None end
  end.
End hier.
