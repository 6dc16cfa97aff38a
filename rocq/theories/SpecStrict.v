(** * SpecStrict: which coarse cells the correction removes (C65) *)

From Verif Require Import Spec SpecSub Main SpecMove.

Section strict.
Context {A : Arith}.

(** The correction leads from [r0] to [r] and removes the coarse cells of [R]
    (numbers of [r0]); as in [corrected_from]. *)
Definition corrected_by (i : input) (o r0 r : outs) (R : gset nat) : Prop :=
  ∃ sing f1,
    StronglySorted (<) sing ∧
    (∀ k, k ∈ sing ↔ iso_id i o r0 k ∧ (Z.of_nat (size (cells_in (o_fc2cc r0) k)) <= corr_size i)%Z) ∧
    absorbed_all (in_row i) (in_col i) (iso_id i o r0) sing (o_fc2cc r0) f1 ∧
    (∀ k, k ∈ R ↔ k ∈ sing ∧ ∃ x, o_fc2cc r0 !! x = Some k ∧ f1 !! x ≠ Some k) ∧
    o_fc2cc r = (λ k, if decide (k ∈ R) then k else rank R k) <$> f1.
End strict.
