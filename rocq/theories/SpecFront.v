(** * SpecFront: candidates of the pure-front neighbourhood (C29)

    Comments of [Neighbourhood_Pure_Front::update_it], Neighbourhood.h:352-364:
    at the very beginning every neighbour is a candidate; then the neighbours
    of the cell added last, if there are any; otherwise those of the cell added
    first, then of the last but one, then of the second, and so on. *)

From Verif Require Import Base Spec.

(** The turn at which the neighbours of the cell added [i] cells before the
    last one are considered, [m] cells having been added. *)
Definition turn (m i : nat) : nat :=
  if bool_decide (2 * i < m) then 2 * i else 2 * (m - 1 - i) + 1.

(** [x] may be added as a neighbour of the cell added [i] cells before the last
    one of [cs]. *)
Definition around (row col : list nat) (allowed : gset nat) (cs : list nat) (i x : nat) : Prop :=
  ∃ c, rev cs !! i = Some c ∧ edge row col c x ∧ x ∈ allowed ∧ x ∉ cs.

(** The candidates after the cells [cs]. *)
Definition front_candidates (row col : list nat) (allowed : gset nat) (d : Z) (cs : list nat) (cand : list nat) : Prop :=
  if bool_decide (Z.of_nat (length cs) <= d)%Z then ∀ x, x ∈ cand ↔ ∃ i, around row col allowed cs i x
  else (cand = [] ∧ ∀ i x, ¬ around row col allowed cs i x) ∨
    ∃ i, i < length cs ∧ cand ≠ [] ∧ (∀ x, x ∈ cand ↔ around row col allowed cs i x) ∧
      ∀ j x, turn (length cs) j < turn (length cs) i → j < length cs → ¬ around row col allowed cs j x.
