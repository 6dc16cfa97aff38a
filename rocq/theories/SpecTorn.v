(** * SpecTorn: coarse cells torn by the correction (C66) *)

From Verif Require Import Spec SpecSub Main SpecMove.

Section torn.
Context {A : Arith}.
Implicit Types (i : input) (o r : outs).

(** In the uncorrected result [r0], cell [x] has a neighbour in an isotropic
    coarse cell other than its own. *)
Definition touches i o r0 (x : nat) : Prop :=
  ∃ k y k', o_fc2cc r0 !! x = Some k ∧ in_edge i x y ∧ o_fc2cc r0 !! y = Some k' ∧ k' ≠ k ∧ iso_id i o r0 k'.

(** [k] is one of the coarse cells of [r0] to correct. *)
Definition small_id i o r0 (k : nat) : Prop :=
  iso_id i o r0 k ∧ (Z.of_nat (size (cells_in (o_fc2cc r0) k)) <= corr_size i)%Z.

(** The moves of the correction lead from [r0] to [f1]; the coarse cells of [R]
    lost a cell; renumbering gives [r].  As in [corrected_from]. *)
Definition corrected_via i o r0 r (R : gset nat) (f1 : list nat) : Prop :=
  ∃ sing,
    StronglySorted (<) sing ∧ (∀ k, k ∈ sing ↔ small_id i o r0 k) ∧
    absorbed_all (in_row i) (in_col i) (iso_id i o r0) sing (o_fc2cc r0) f1 ∧
    (∀ k, k ∈ R ↔ k ∈ sing ∧ ∃ x, o_fc2cc r0 !! x = Some k ∧ f1 !! x ≠ Some k) ∧
    o_fc2cc r = (λ k, if decide (k ∈ R) then k else rank R k) <$> f1.

(** Cell [x] stays in the coarse cell [k], which lost other cells. *)
Definition left_behind r0 (R : gset nat) (f1 : list nat) (x k : nat) : Prop :=
  k ∈ R ∧ o_fc2cc r0 !! x = Some k ∧ f1 !! x = Some k.
End torn.
