(** * SpecReline: calls with lines and the cells numbered otherwise (C60) *)

From Verif Require Import Main Spec SpecSub SpecWhole.

Section reline.
Context {A : Arith}.
Implicit Types (i : input) (o : outs).

(** Equal numbers are not below each other. *)
Definition equal_ties : Prop := ∀ a b : W, weq a b = true → wlt a b = false ∧ wlt b a = false.

(** The neighbours of a cell keep their relative order. *)
Definition keeps_neighbours (f : nat → nat) i : Prop :=
  ∀ x y z, in_edge i x y → in_edge i x z → y < z → f y < f z.

(** The faces of the cells of the lines are listed in the same order. *)
Definition same_along (f : nat → nat) i i' o : Prop :=
  ∀ lines x, lines_right i o lines → x ∈ concat lines →
    nb_list (in_row i') (in_col i') (f x) = f <$> nb_list (in_row i) (in_col i) x.

(** The lines given by the caller, with the new numbers. *)
Definition lines_called (f : nat → nat) o : outs := Outs (o_fc2cc o) (o_idx o) (f <$> o_lines o).
End reline.
