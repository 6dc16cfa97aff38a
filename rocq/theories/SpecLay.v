(** * SpecLay: lines over several levels of agglomeration (C71) *)

From Verif Require Import Base Main UtilM Spec SpecChain SpecHier.

(** The cells of the line [l], read from one of its ends, are put in the coarse
    cells [l'] of the last level by groups of [g] consecutive cells, and nothing
    else is put in these coarse cells. *)
Definition grouped (maps : list (list nat)) (g : nat) (l l' : list nat) : Prop :=
  (∃ l2, (l2 = l ∨ l2 = reverse l) ∧
     ∀ j x, l2 !! j = Some x → ∃ c, l' !! (j / g) = Some c ∧ follow maps x = Some c) ∧
  ∀ x c, follow maps x = Some c → c ∈ l' → x ∈ l.
