(** * SpecLevel: vocabulary for the levels of the scripts (C81) *)

From Verif Require Import Base Spec.

(** [maps] are the numbers of the coarse cells for one level after the other, from [n] cells:
    each level has one entry for each cell, and its numbers are those of the cells of the next one. *)
Fixpoint level_maps (n : nat) (maps : list (list nat)) : Prop :=
  match maps with
  | [] => True
  | f :: maps => length f = n ∧ ∃ m, (∀ c, c < m ↔ ∃ x, f !! x = Some c) ∧ level_maps m maps
  end.

(** Priorities for any number of cells: one for each of them, comparable, and not below the
    smallest positive number if the pool starts from one point. *)
Definition good_prio {A : Arith} (one_point : Prop) (prio : nat → list W) : Prop :=
  ∀ n, length (prio n) = n ∧ weak_order wlt (λ w, w ∈ prio n) ∧ (one_point → ∀ w, w ∈ prio n → wlt w wminv = false).

(** Volumes whose sums are not zero. *)
Record good_vol {A : Arith} (P : W → Prop) : Prop := {
  gv_zero : ∀ x, P x → P (wadd w0 x);
  gv_add : ∀ x y, P x → P y → P (wadd x y);
  gv_ne : ∀ x, P x → weq x w0 = false;
}.
