(** * PropsFeed: all the coarse cells of a call (C45) *)

From Verif Require Import Features Neigh Iso Main Spec SpecSub SpecFeat SpecAR SpecBest SpecPool SpecGrow SpecFeed SpecLine FeatU GraphP FeedT GrowE FeedE BestE ApiE Inst.

#[local] Existing Instance qarith | 100.
#[local] Existing Instance ord_id | 100.

(** C45.  The isotropic coarse cells of a call without correction, from the
    first to the last.  The queues of seeds start with the free neighbours of the
    lines, in the order in which the lines are walked along, or with the cells
    with most boundary faces; then, until no cell is free, a seed is taken, a
    coarse cell is grown from it and its free neighbours are queued by distance,
    boundary faces, priority and index.  Anisotropic coarse cells have the first
    numbers, isotropic ones the next, in the order in which they are built. *)
Theorem C45_all_coarse_cells : ∀ {A : Arith} {H : HashOrder} i o r e,
  good_call i o → in_corr i = false → simple_csr (in_row i) (in_col i) →
  weak_order wlt (λ _, True) → agglomerate_one_level i o = (r, e) →
  ∃ ip m aggl p walked Xs,
    ip_dim ip = in_dim i ∧ ip_min ip = in_min i ∧ ip_goal ip = in_goal i ∧ ip_max ip = in_max i ∧
    ar_kinds (bool_decide (in_dim i = 2%Z)) !! Z.to_nat (in_ar i) = Some (ip_ar ip) ∧
    ip_front ip = negb (bool_decide (in_nbh i = 0%Z)) ∧
    ip_iter ip = in_iter i ∧ ip_it ip = bool_decide (1 < in_iter i)%Z ∧
    (∀ c, aniso_id i o r c ↔ c < m) ∧
    length aggl = in_n i ∧ (∀ x, is_free aggl x ↔ ∃ c, o_fc2cc r !! x = Some c ∧ ¬ aniso_id i o r c) ∧
    (¬ aniso_on i o → walked = []) ∧
    (aniso_on i o → ∃ lines, call_lines i o = Ok lines ∧ Forall2 (oriented i) lines walked) ∧
    started (in_prio i) (fixed_bnd i) (bool_decide (in_order i = 0 ∨ in_order i = 10)%Z)
      (bool_decide (in_order i = 10 ∨ in_order i = 11)%Z) aggl (line_neighbours i aggl walked) p ∧
    made ip (graph_of i) (in_prio i) (compactness (in_row i) (in_col i)) aggl p Xs ∧
    (∀ k x, (∃ X, Xs !! k = Some X ∧ x ∈ X) ↔ o_fc2cc r !! x = Some (m + k)).
Proof. exact @C45_lem. Qed.
Print Assumptions C45_all_coarse_cells.

Example C45_all_coarse_cells_example :
  (good_call grid9_nc o0 ∧ in_corr grid9_nc = false ∧ simple_csr (in_row grid9_nc) (in_col grid9_nc) ∧
   weak_order (@wlt qarith) (λ _, True) ∧
   agglomerate_one_level grid9_nc o0 = (Outs [0;0;1;0;0;1;2;2;2] [] [], Ok ())) ∧
  (good_call line7_nc o_line5 ∧ in_corr line7_nc = false ∧ simple_csr (in_row line7_nc) (in_col line7_nc) ∧
   aniso_on line7_nc o_line5 ∧ call_lines line7_nc o_line5 = Ok [[0;1;2;3;4]] ∧
   agglomerate_one_level line7_nc o_line5 = (Outs [0;0;1;1;1;2;2] [0;2] [0;1], Ok ()) ∧
   line_neighbours line7_nc [true;true;true;true;true;false;false] [[0;1;2;3;4]] = [5]).
Proof. exact @C45_ex. Qed.
