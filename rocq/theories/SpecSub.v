(** * SpecSub: vocabulary of the statements about subgraphs (C31)

    Nothing in here uses a function of the model. *)

From Verif Require Import Base Spec.

Section sub.
Context {A : Arith}.

(** The faces of cell [i] as listed: neighbour and weight. *)
Definition entries (row col : list nat) (val : list W) (i : nat) : list (nat * W) :=
  match row !! i, row !! S i with
  | Some a, Some b => take (b - a) (drop a (zip col val))
  | _, _ => []
  end.

(** [srow], [scol], [sval], [svol] is the graph [row], [col], [val], [vol]
    restricted to the cells of [s], the [k]-th cell of the subgraph being the
    [k]-th one of [mp]; the faces of a cell may be listed in any order. *)
Record induced (row col : list nat) (val vol : list W) (s : gset nat)
    (srow scol : list nat) (sval svol : list W) (mp : list nat) : Prop := {
  ind_nd : NoDup mp;
  ind_map : ∀ x, x ∈ mp ↔ x ∈ s;
  ind_first : srow !! 0 = Some 0;
  ind_csr : csr (length mp) srow scol;
  ind_val : length sval = length scol;
  ind_faces : ∀ k x, mp !! k = Some x →
    (prod_map (λ j, mp !! j) id <$> entries srow scol sval k) ≡ₚ
    (prod_map Some id <$> filter (λ e, e.1 ∈ s) (entries row col val x));
  ind_vol_len : length svol = length mp;
  ind_vol : ∀ k x, mp !! k = Some x → svol !! k = vol !! x;
}.
End sub.
