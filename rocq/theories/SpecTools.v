(** * SpecTools: vocabulary for the Python helpers (C72-C78) *)

From Verif Require Import Base Main UtilM Spec SpecCoarse SpecArgs ToolsM.

(** Natural numbers as Python integers. *)
Notation zs := (fmap Z.of_nat).

Section spec.
Context {A : Arith}.

(** The total volume of the cells of coarse cell [c]. *)
Definition cell_vol (f : fgraph) (f2c : list nat) (c : nat) : W :=
  wsum_l (omap (λ x, fg_vol f !! x) (fine_of f2c c)).

(** The sum of the [k]-th coordinates of the centres, weighted by the volumes. *)
Definition cell_moment (f : fgraph) (f2c : list nat) (c k : nat) : W :=
  wsum_l (omap (λ x, cx ← fg_cen f !! x; t ← cx !! k; v ← fg_vol f !! x; Some (wmul t v)) (fine_of f2c c)).

(** The sum of the [k]-th coordinates of the centres. *)
Definition cell_coord (f : fgraph) (f2c : list nat) (c k : nat) : W :=
  wsum_l (omap (λ x, cx ← fg_cen f !! x; cx !! k) (fine_of f2c c)).

(** The data given to [build_coarse_CSR]: vectors of the right size. *)
Record fine_data (f : fgraph) (f2c : list nat) : Prop := {
  fd_pos : 0 < length f2c;
  fd_csr : csr (length f2c) (fg_idx f) (fg_adj f);
  fd_wgt : length (fg_wgt f) = length (fg_adj f);
  fd_vol : length (fg_vol f) = length f2c;
  fd_cen : length (fg_cen f) = length f2c;
  fd_dim : ∀ x c0 c, fg_cen f !! 0 = Some c0 → fg_cen f !! x = Some c → length c = length c0;
  fd_bnd : length (fg_bnd f) = length f2c;
}.

(** The Python function applied to the graph [f] (the priorities are not used). *)
Definition py_coarse_of (f : fgraph) (f2c : list nat) : pyres pgraph :=
  py_build_coarse (zs f2c) (zs (fg_idx f)) (zs (fg_adj f)) (fg_wgt f) (fg_vol f) (fg_bnd f) (fg_cen f).

(** The same call with other priorities. *)
Definition give_prio (prio : list W) (i : input) : input :=
  Input _ (in_row i) (in_col i) (in_val i) (in_vol i) (in_cen i) prio (in_compl i)
    (in_bnd i) (in_build i) (in_aniso i) (in_odd i) (in_thr i) (in_order i) (in_corr i) (in_dim i)
    (in_goal i) (in_min i) (in_max i) (in_ar i) (in_sing i) (in_maxline i) (in_coupling i)
    (in_force i) (in_iter i) (in_nbh i).
End spec.

(** The identifier of line [ln]: its number, shuffled if [perm], modulo [m] if
    [m] is more than one; then one-based if the default is zero, negated if the
    default is positive. *)
Definition line_id (deflt : Z) (modulo : option Z) (perm : option (list Z)) (ln : nat) : option Z :=
  match match perm with None => Some (Z.of_nat ln) | Some p => p !! ln end with
  | None => None
  | Some k =>
      let k := match modulo with Some m => if bool_decide (1 < m)%Z then (k mod m)%Z else k | None => k end in
      Some (if bool_decide (deflt = 0)%Z then (k + 1)%Z else if bool_decide (0 < deflt)%Z then (- k)%Z else k)
  end.

(** [perm] is a shuffling of the first [n] numbers. *)
Definition shuffles (n : nat) (perm : option (list Z)) : Prop :=
  match perm with None => True | Some p => p ≡ₚ zs (seq 0 n) end.
