(** * SpecRules: the rules of C45 as one notion (C51) *)

From Verif Require Import Features Neigh Iso Main Spec SpecSub SpecFeat SpecBest SpecPool SpecGrow SpecFeed SpecLine ApiT.

Section rules.
Context {A : Arith} {H : HashOrder}.

(** The isotropic coarse cells of [r] are built by the rules of C45: the queues
    start as they should, and seeds, coarse cells and additions to the queues
    follow each other until no cell is free. *)
Definition by_rules (i : input) (o r : outs) : Prop :=
  ∃ ip m aggl p walked Xs,
    ip_dim ip = in_dim i ∧ ip_min ip = in_min i ∧ ip_goal ip = in_goal i ∧ ip_max ip = in_max i ∧
    ar_kinds (bool_decide (in_dim i = 2%Z)) !! Z.to_nat (in_ar i) = Some (ip_ar ip) ∧
    ip_front ip = negb (bool_decide (in_nbh i = 0%Z)) ∧
    ip_iter ip = in_iter i ∧ ip_it ip = bool_decide (1 < in_iter i)%Z ∧
    (∀ c, aniso_id i o r c ↔ c < m) ∧
    length aggl = in_n i ∧ (∀ x, is_free aggl x ↔ ∃ c, o_fc2cc r !! x = Some c ∧ ¬ aniso_id i o r c) ∧
    (¬ aniso_on i o → walked = []) ∧
    (aniso_on i o → ∃ lines, call_lines i o = Ok lines ∧ Forall2 (oriented i) lines walked) ∧
    started (in_prio i) (fixed_bnd i) (bool_decide (in_order i = 0 ∨ in_order i = 10)%Z)
      (bool_decide (in_order i = 10 ∨ in_order i = 11)%Z) aggl (line_neighbours i aggl walked) p ∧
    made ip (graph_of i) (in_prio i) (compactness (in_row i) (in_col i)) aggl p Xs ∧
    (∀ k x, (∃ X, Xs !! k = Some X ∧ x ∈ X) ↔ o_fc2cc r !! x = Some (m + k)).

(** [r'] has the anisotropic coarse cells of [r]. *)
Definition same_lines (i : input) (o r r' : outs) : Prop :=
  o_lines r' = o_lines r ∧
  ∀ x c, aniso_id i o r c → o_fc2cc r' !! x = Some c ↔ o_fc2cc r !! x = Some c.
End rules.
