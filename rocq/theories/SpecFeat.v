(** * SpecFeat: vocabulary of the statements about the shape of coarse cells
    (C28, C39)

    Nothing in here uses a function of the model. *)

From Coq Require Import Ring_theory.
From Verif Require Import Base Spec SpecSub.

Section feat.
Context {A : Arith}.

(** Exact arithmetic: a commutative ring, sums being sums in any order. *)
Record exact_arith : Prop := {
  ea_ring : ring_theory w0 w1 wadd wmul wsub (wsub w0) eq;
  ea_two : wofZ 2 = wadd w1 w1;
  ea_sum : ∀ l, wsum l = foldr wadd w0 l;
}.

Definition sum_l (l : list W) : W := foldr wadd w0 l.
(** The sum of [F x] over the cells [x] of [X]. *)
Definition sum_over (F : nat → W) (X : gset nat) : W := sum_l (F <$> elements X).

(** [m] is the greatest (resp. the least) of the numbers satisfying [P]. *)
Definition greatest (P : W → Prop) (m : W) : Prop := P m ∧ ∀ w, P w → wlt m w = false.
Definition least (P : W → Prop) (m : W) : Prop := P m ∧ ∀ w, P w → wlt w m = false.

(** Squared euclidean distance. *)
Definition dist2 (c c' : list W) : W :=
  sum_l (zip_with (λ x y, wmul (wsub x y) (wsub x y)) c c').

Section data.
Context (row col : list nat) (val vol : list W) (cen : list (list W)) (bnd : list Z).
Implicit Types X : gset nat.

(** The weights of the faces of [x] leading to cells satisfying [P]. *)
Definition faces_to (P : nat → Prop) `{∀ y, Decision (P y)} (x : nat) : list W :=
  (filter (λ e : nat * W, P e.1) (entries row col val x)).*2.

(** The two cells of a face give it the same weight. *)
Definition sym_weights : Prop := ∀ x y, faces_to (λ z, z = y) x ≡ₚ faces_to (λ z, z = x) y.

(** The neighbours of [x] in [X] satisfying [P], each counted once. *)
Definition nb_in X (P : nat → Prop) `{∀ y, Decision (P y)} (x : nat) : nat :=
  size (filter (λ y, P y ∧ y ∈ nb_list row col x) X).

(** The estimate of the weight of the boundary faces (documentation of
    [Dual_Graph::estimated_boundary_weight]): their number times the mean
    weight of the other faces. *)
Definition bnd_weight (x : nat) : W :=
  match bnd !! x with
  | None | Some 0%Z => w0
  | Some b => wdiv (wmul (wofZ b) (sum_l (faces_to (λ _, True) x)))
                (wofZ (Z.of_nat (length (nb_list row col x))))
  end.

(** ** The features of the set of cells [X] *)

Definition measure X : W := sum_over (λ x, default w0 (vol !! x)) X.
(** Internal faces are counted once, from their cell of higher index. *)
Definition internal_weight X : W := sum_over (λ x, sum_l (faces_to (λ y, y ∈ X ∧ y < x) x)) X.
Definition external_weight X : W :=
  sum_over (λ x, wadd (bnd_weight x) (sum_l (faces_to (λ y, y ∉ X ∨ y = x) x))) X.
Definition internal_faces X : Z :=
  Z.of_nat (sum_list_with (λ x, nb_in X (λ y, y < x) x) (elements X)).
(** Distances between the centres of two cells of [X]. *)
Definition pair_dist X (w : W) : Prop :=
  ∃ x y c c', x ∈ X ∧ y ∈ X ∧ x ≠ y ∧ cen !! x = Some c ∧ cen !! y = Some c' ∧ w = dist2 c c'.
(** The squared diameter and the squared minimal edge, with the values used
    for cells without pair of centres. *)
Definition is_diam X : W → Prop := greatest (λ w, w = wminv ∨ pair_dist X w).
Definition is_min_edge X : W → Prop := least (λ w, w = wmaxv ∨ pair_dist X w).
(** The sum of the centres weighted by the volumes. *)
Definition moment X (d : nat) : W :=
  sum_over (λ x, wmul (default w0 (vol !! x)) (default w0 (cen !! x ≫= (.!! d)))) X.
(** The faces of [x] which are not inside [X]. *)
Definition outer_faces X (x : nat) : Z :=
  (default 0 (bnd !! x) + Z.of_nat (length (nb_list row col x)) - Z.of_nat (nb_in X (λ y, y ≠ x) x))%Z.
End data.
End feat.
