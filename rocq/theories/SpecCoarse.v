(** * SpecCoarse: what a coarse graph should be *)

From Verif Require Import Spec UtilM.

(** ** Cells by number of edges *)

(** [c] has [v] edges: neighbours and boundary faces. *)
Definition n_edges (idx : list nat) (bnd : list Z) (c : nat) (v : Z) : Prop :=
  ∃ a z b, idx !! c = Some a ∧ idx !! S c = Some z ∧ bnd !! c = Some b ∧
    v = (Z.of_nat z - Z.of_nat a + b)%Z.

(** ** Coarse graphs *)

Section coarse.
Context {A : Arith}.
Implicit Types (f : fgraph) (f2c : list nat) (g : cgraph).

(** The fine cells of coarse cell [c], in increasing order. *)
Definition fine_of f2c (c : nat) : list nat :=
  filter (λ x, f2c !! x = Some c) (seq 0 (length f2c)).

(** The data given: vectors of the right size.  [ff_wgt]: the weights at the
    positions which are read; see [cg_neigh]. *)
Record fine_ok f f2c : Prop := {
  ff_pos : 0 < length f2c;
  ff_csr : csr (length f2c) (fg_idx f) (fg_adj f);
  ff_vol : length (fg_vol f) = length f2c;
  ff_cen : length (fg_cen f) = length f2c;
  ff_dim : ∀ x c0 c, fg_cen f !! 0 = Some c0 → fg_cen f !! x = Some c → length c = length c0;
  ff_prio : length (fg_prio f) = length f2c;
  ff_bnd : length (fg_bnd f) = length f2c;
  ff_wgt : ∀ x y, edge (fg_idx f) (fg_adj f) x y → f2c !! x ≠ f2c !! y → y < length (fg_wgt f);
}.

(** The faces between the coarse cells [a] and [b] as positions in the fine
    adjacency: those of a cell of [a] whose neighbour is in [b]. *)
Definition faces f f2c (a b : nat) : list nat :=
  x ← fine_of f2c a;
  match fg_idx f !! x, fg_idx f !! S x with
  | Some p, Some q =>
      filter (λ k, (fg_adj f !! k) ≫= (λ y, f2c !! y) = Some b) (seq p (q - p))
  | _, _ => []
  end.

(** Two coarse cells contain neighbouring fine cells. *)
Definition coarse_edge f f2c (a b : nat) : Prop :=
  a ≠ b ∧ ∃ x y, f2c !! x = Some a ∧ f2c !! y = Some b ∧ edge (fg_idx f) (fg_adj f) x y.

(** Position [k] is in the row of coarse cell [a] and holds [b]. *)
Definition coarse_pos g (k a b : nat) : Prop :=
  ∃ p q, cg_idx g !! a = Some p ∧ cg_idx g !! S a = Some q ∧ p ≤ k < q ∧ cg_adj g !! k = Some b.

(** The sum of a list of weights, from the left. *)
Definition wsum_l (l : list W) : W := foldl wadd w0 l.

(** [m] is a largest element of [l]. *)
Definition is_max (l : list W) (m : W) : Prop :=
  m ∈ l ∧ ∀ w, w ∈ l → wlt m w = false.

End coarse.
