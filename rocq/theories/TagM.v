(** * TagM: tagging anisotropic cells so as to preserve boundary layers
    (include/CoMMA/Dual_Graph.h:718-874)

    [Aniso.tag_anisotropic_cells] is the tagging with the value 0 of the
    argument [preserving], the only one used by the library
    (Agglomerator.h:552-561).  Here is the tagging with any value of it. *)

From Verif Require Export Aniso.

Section tag.
Context {A : Arith} {H : HashOrder}.
Implicit Types (g : graph) (ap : aniso_params) (prio : list W).

(** Dual_Graph.h:801 and 813: the number of neighbours, entries of [i] with
    itself being left aside. *)
Definition nb_others g (i : nat) : res Z :=
  l ← nbrs g i;
  k ← nb_nbrs g i;
  Ok (foldl (λ k n, if bool_decide (n ≠ i) then k else (k - 1)%Z) k l).

(** Dual_Graph.h:821-837: whether a cell which is anisotropic enough is added.
    There is no [break] at the end of [case 3]: the control falls through to
    the statements of [case 0], and the cell is added in any case.  It may be
    added twice, which makes no difference for a set. *)
Definition tag_keep (preserving : Z) g (i : nat) (k : Z) : res bool :=
  if bool_decide (preserving = 2%Z) then
    b ← is_on_boundary g i;
    Ok (b && bool_decide (k = 3%Z) || bool_decide (k = 4%Z))
  else if bool_decide (preserving = 3%Z) then
    b ← is_on_boundary g i; Ok true
  else Ok true.

(** One compliant cell, as in [Aniso.tag_cell]. *)
Definition tag_cell_p (preserving : Z) ap g prio (thr : W) (st : tag_state) (i : nat)
    : res tag_state :=
  let '(alt, mw, aw) := st in
  aw ← (if wlt thr w0 then
          p ← vget prio i; Ok (pset_insert (i, p) aw)
        else
          mm ← minmax_weight g i;
          k ← nb_others g i;
          if wle thr (compute_AR g mm.1 mm.2)
          then
            b ← tag_keep preserving g i k;
            if b : bool then p ← vget prio i; Ok (pset_insert (i, p) aw) else Ok aw
          else Ok aw);
  if ap_mindist ap then
    r ← inv_dists g i alt;
    mw ← vset mw i r.2;
    Ok (r.1, mw, aw)
  else
    m ← (if wlt thr w0 then w ← wgts g i; wmax_element w
         else mm ← minmax_weight g i; Ok mm.2);
    mw ← vset mw i m;
    Ok (alt, mw, aw).

Definition tag_anisotropic_cells_p (preserving : Z) ap g prio (thr : W)
    : res (list W * list W * list bool * list nat) :=
  let alt := if ap_mindist ap then replicate (length (g_val g)) w0 else [] in
  r ← foldM (tag_cell_p preserving ap g prio thr) (hset s_tag (g_compl g))
        (alt, replicate (g_n g) w0, []);
  let '(alt, mw, aw) := r in
  let seeds := map fst aw in
  ia ← foldM (λ v i, vset v i true) seeds (replicate (g_n g) false);
  Ok (alt, mw, ia, seeds).
End tag.
