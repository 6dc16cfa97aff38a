(** * SpecHash: vocabulary for the iteration order of unordered containers (C26) *)

From Verif Require Import Spec Main.

(** The aspect ratios computed from distances: those of CoMMADefs.h:73-100
    whose value is 0 (diameter over radius), 1 (diameter over minimum edge), 2
    (diameter), 7 and 8 (distances from the barycentre). *)
Definition dist_ratio {A : Arith} (i : input) : Prop :=
  in_ar i ∈ [0; 1; 2; 7; 8]%Z.

(** [wlt] is a strict total order: there are neither incomparable numbers
    (NaN) nor different numbers which are equivalent (signed zeros). *)
Definition total_order (A : Arith) : Prop :=
  weak_order (@wlt A) (λ _, True) ∧ ∀ a b : W, wlt a b = false → wlt b a = false → a = b.

(** Sums of squares, added from left to right, and their square roots: the
    squared distances and distances the library compares are of this form. *)
Definition sq_sum {A : Arith} (ds : list W) : W := foldl (λ s d, wadd s (wmul d d)) w0 ds.
Definition is_dist {A : Arith} (a : W) : Prop := ∃ ds, a = sq_sum ds ∨ a = wsqrt (sq_sum ds).

(** [wlt] is a strict order, and distances which are above, or below, some number
    are ordered by it.  This is true of floating-point numbers too, with NaN and
    signed zeros (SpecDouble.v, C59). *)
Record dist_order (A : Arith) : Prop := {
  do_irr : ∀ x : W, wlt x x = false;
  do_tr : ∀ x y z : W, wlt x y = true → wlt y z = true → wlt x z = true;
  do_tot : ∀ a b m : W, is_dist a → is_dist b →
    wlt m a = true ∧ wlt m b = true ∨ wlt a m = true ∧ wlt b m = true →
    wlt a b = false → wlt b a = false → a = b;
}.
