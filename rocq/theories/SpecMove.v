(** * SpecMove: correction of the coarse cells which are too small (C41)

    Which coarse cell a cell or a whole coarse cell joins: comments of
    Coarse_Cell_Container.h:158-163, 257-270 and 326-338.  A state is the
    vector which gives the coarse cell of each cell; numbers are left as they
    are until the end. *)

From Verif Require Import Spec SpecSub Main.

Section move.
Context (row col : list nat) (iso : nat → Prop).
Implicit Types (f : list nat) (X Y : gset nat).

(** The cells of coarse cell [k]. *)
Definition cells_in f (k : nat) : gset nat :=
  list_to_set (filter (λ x, f !! x = Some k) (seq 0 (length f))).

(** Number of faces between cell [x] and the cells of [X]. *)
Definition faces_with (x : nat) X : nat := length (filter (λ y, y ∈ X) (nb_list row col x)).

(** The coarse cell [Y] is more compact with the cells of [X]. *)
Definition gains X Y : Prop :=
  ∃ a b, compactness row col Y a ∧ compactness row col (X ∪ Y) b ∧ (a < b)%Z.

(** [k] is an isotropic coarse cell other than [old] next to a cell of [X]. *)
Definition beside f (old : nat) X (k : nat) : Prop :=
  k ≠ old ∧ iso k ∧ ∃ x y, x ∈ X ∧ edge row col x y ∧ f !! y = Some k.

(** Coarse cell [k] is smaller than [k'], or has the lower number. *)
Definition smaller f (k k' : nat) : Prop :=
  size (cells_in f k) < size (cells_in f k') ∨ size (cells_in f k) = size (cells_in f k') ∧ k < k'.

(** Cell [x] would rather join [k] than [k']: coarse cells which become more
    compact come first, then those which share more faces with [x], then the
    smaller ones. *)
Definition rather f (x k k' : nat) : Prop :=
  let G c := gains {[x]} (cells_in f c) in
  let S c := faces_with x (cells_in f c) in
  G k ∧ ¬ G k' ∨ (G k ↔ G k') ∧ (S k' < S k ∨ S k' = S k ∧ smaller f k k').

(** Among the coarse cells satisfying [P], cell [x] joins [k]. *)
Definition joins (P : nat → Prop) f (x k : nat) : Prop :=
  P k ∧ ∀ k', P k' → k' ≠ k → rather f x k k'.
(** Among the coarse cells satisfying [P] which become more compact, the
    smallest one is [k]: it is the one which all the cells of [X] join. *)
Definition joins_whole (P : nat → Prop) f X (k : nat) : Prop :=
  P k ∧ gains X (cells_in f k) ∧ ∀ k', P k' → gains X (cells_in f k') → k' ≠ k → smaller f k k'.

(** The cells of a list join, one after the other, one of the coarse cells
    which were next to them in state [f0]; those next to none stay in [old]. *)
Inductive one_by_one f0 (old : nat) : list nat → list nat → list nat → Prop :=
| obo_nil f : one_by_one f0 old [] f f
| obo_move x k l f f' : joins (beside f0 old {[x]}) f x k →
    one_by_one f0 old l (<[x := k]> f) f' → one_by_one f0 old (x :: l) f f'
| obo_stay x l f f' : (∀ k, ¬ beside f0 old {[x]} k) →
    one_by_one f0 old l f f' → one_by_one f0 old (x :: l) f f'.

(** What becomes of the cells of coarse cell [old]: all of them together if
    there are several and a neighbouring coarse cell becomes more compact,
    else one by one, in some order. *)
Definition absorbed f (old : nat) f' : Prop :=
  let X := cells_in f old in
  (1 < size X ∧ ∃ k, joins_whole (beside f old X) f X k ∧
     f' = (λ c, if decide (c = old) then k else c) <$> f) ∨
  ((size X = 1 ∨ ∀ k, beside f old X k → ¬ gains X (cells_in f k)) ∧
   ∃ l, NoDup l ∧ (∀ x, x ∈ l ↔ x ∈ X) ∧ one_by_one f old l f f').

(** The coarse cells of a list are treated one after the other. *)
Inductive absorbed_all : list nat → list nat → list nat → Prop :=
| aa_nil f : absorbed_all [] f f
| aa_cons old l f f1 f2 : absorbed f old f1 → absorbed_all l f1 f2 → absorbed_all (old :: l) f f2.
End move.

(** The new number of coarse cell [k] once those of [R] are removed. *)
Definition rank (R : gset nat) (k : nat) : nat := length (filter (λ j, j ∉ R) (seq 0 k)).

(** The same call without correction. *)
Definition uncorrected {A : Arith} (i : input) : input :=
  @Input A (in_row i) (in_col i) (in_val i) (in_vol i) (in_cen i) (in_prio i) (in_compl i)
    (in_bnd i) (in_build i) (in_aniso i) (in_odd i) (in_thr i) (in_order i) false (in_dim i)
    (in_goal i) (in_min i) (in_max i) (in_ar i) (in_sing i) (in_maxline i) (in_coupling i)
    (in_force i) (in_iter i) (in_nbh i).

Section run.
Context {A : Arith}.

(** [k] is an isotropic coarse cell of the result [r]. *)
Definition iso_id (i : input) (o r : outs) (k : nat) : Prop :=
  (∃ x, o_fc2cc r !! x = Some k) ∧ ¬ aniso_id i o r k.

(** The greatest size of the coarse cells to correct: the given threshold if
    it is below the smallest accepted size (CoMMA.h:109, 276-282). *)
Definition corr_size (i : input) : Z :=
  if decide (in_sing i < in_min i)%Z then in_sing i else (in_min i - 1)%Z.

(** [r] comes from the uncorrected result [r0]: the isotropic coarse cells
    which are too small are treated by increasing number; those which lost a
    cell are removed and the remaining ones renumbered in the same order; a
    cell left in a removed coarse cell keeps its number. *)
Record corrected_from (i : input) (o r0 r : outs) : Prop := {
  cf_moves : ∃ sing f1 (R : gset nat),
    StronglySorted (<) sing ∧
    (∀ k, k ∈ sing ↔ iso_id i o r0 k ∧ (Z.of_nat (size (cells_in (o_fc2cc r0) k)) <= corr_size i)%Z) ∧
    absorbed_all (in_row i) (in_col i) (iso_id i o r0) sing (o_fc2cc r0) f1 ∧
    (∀ k, k ∈ R ↔ k ∈ sing ∧ ∃ x, o_fc2cc r0 !! x = Some k ∧ f1 !! x ≠ Some k) ∧
    o_fc2cc r = (λ k, if decide (k ∈ R) then k else rank R k) <$> f1;
  cf_idx : o_idx r = o_idx r0;
  cf_lines : o_lines r = o_lines r0;
}.
End run.
