(** * DrawM: what the example scripts compute themselves

    The cells drawn for each line by [ex_aniso_lines.py] and the priorities of
    the first level of [ex_rae.py]. *)

From Verif Require Export ToolsM.

(** The dictionary of [ex_aniso_lines.py:222-228] from identifiers of lines to
    fine cells, as the list of its values (the keys are [0], [1], ...):
    [np.flatnonzero(np.isin(f2c, alines[alines_idx[i]:alines_idx[i+1]]))] are the
    positions, increasing, whose coarse cell is in the slice; no keys if
    [len(alines_idx) - 1 < 0].  The commented loops of lines 229-238 are not
    modelled. *)
Definition py_line_dict (idxs cells f2c : list Z) : pyres (list (list nat)) :=
  pfold (λ dic ln,
    a <~ pget idxs (Z.of_nat ln);
    b <~ pget idxs (Z.of_nat ln + 1)%Z;
    POk (dic ++ [filter (λ x, f2c !! x ∈ Some <$> pslice cells a b) (seq 0 (length f2c))]))
    (seq 0 (length idxs - 1)) [].

(** The wall of [ex_rae.py:190-193]: [squares] are the cells with four points,
    [foil] those of them with a boundary face; [npts] is [len(cell)] for each
    cell of [mesh.cells], [bnd] is [mesh.boundary_cells]. *)
Definition rae_squares (npts : list nat) : list nat :=
  filter (λ x, npts !! x = Some 4) (seq 0 (length npts)).
Definition rae_foil (npts : list nat) (bnd : list Z) : pyres (list nat) :=
  pfold (λ l x, b <~ pget bnd (Z.of_nat x); POk (if bool_decide (0 < b)%Z then l ++ [x] else l)) (rae_squares npts) [].

(** [weights = np.reciprocal(1.0 + foil_distance.astype(float))],
    [ex_rae.py:202]; division by zero is that of the numbers (infinity for
    double, with a warning). *)
Definition rae_weights `{Arith} (dist : list Z) : list W :=
  map (λ d, wdiv w1 (wadd w1 (wofZ d))) dist.

(** Both, [ex_rae.py:190-202]. *)
Definition rae_prio `{Arith} (idx col : list Z) (npts : list nat) (bnd : list Z) : pyres (list W) :=
  foil <~ rae_foil npts bnd;
  d <~ py_wall_distance idx col (Z.of_nat <$> foil);
  POk (rae_weights d).
