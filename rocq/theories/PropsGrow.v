(** * PropsGrow: how an isotropic coarse cell is built (C40) *)

From Verif Require Import Features Neigh Iso Main Spec SpecSub SpecFeat SpecAR SpecBest SpecPool SpecGrow FeatU GrowR GrowE BestE ApiE Inst.

#[local] Existing Instance qarith | 100.
#[local] Existing Instance ord_id | 100.

(** C40.  Every isotropic coarse cell of a call without correction is grown from
    the seed that the pool gave when only the earlier coarse cells existed.  The
    free cells around the seed are collected; if there are fewer of them than the
    goal, they all are in the coarse cell.  Otherwise the best candidate is added,
    again and again, and the number of cells kept is the best one: highest
    compactness, then least count of external faces, then the goal, then the largest.
    Missing: the count of external faces is one too low for every cell
    ([ext_of]), so that larger coarse cells are favoured. *)
Theorem C40_grown_partial : ∀ {A : Arith} {H : HashOrder} i o r e,
  good_call i o → in_corr i = false → simple_csr (in_row i) (in_col i) →
  weak_order wlt (λ _, True) → agglomerate_one_level i o = (r, e) →
  ∃ ip, ip_dim ip = in_dim i ∧ ip_min ip = in_min i ∧ ip_goal ip = in_goal i ∧ ip_max ip = in_max i ∧
    ar_kinds (bool_decide (in_dim i = 2%Z)) !! Z.to_nat (in_ar i) = Some (ip_ar ip) ∧ ip_front ip = negb (bool_decide (in_nbh i = 0%Z)) ∧
    ip_iter ip = in_iter i ∧ ip_it ip = bool_decide (1 < in_iter i)%Z ∧
  ∀ c (X : gset nat), ¬ aniso_id i o r c → X ≠ ∅ → (∀ x, x ∈ X ↔ o_fc2cc r !! x = Some c) →
  ∃ aggl p seed p',
    pool_hist (in_prio i) (fixed_bnd i) (bool_decide (in_order i = 0 ∨ in_order i = 10)%Z)
      (bool_decide (in_order i = 10 ∨ in_order i = 11)%Z) aggl p ∧
    choose_new_seed (in_prio i) (fixed_bnd i) aggl p = Ok (Some seed, p') ∧
    (∀ x, is_free aggl x ↔ ∃ c', o_fc2cc r !! x = Some c' ∧ c ≤ c') ∧
    grown_from ip (graph_of i) (in_prio i) (compactness (in_row i) (in_col i)) (ext_of (graph_of i))
      (is_free aggl) seed X.
Proof. exact @C40_run. Qed.
Print Assumptions C40_grown_partial.

Example C40_grown_partial_example :
  good_call grid9_nc o0 ∧ in_corr grid9_nc = false ∧
  simple_csr (in_row grid9_nc) (in_col grid9_nc) ∧ weak_order (@wlt qarith) (λ _, True) ∧
  agglomerate_one_level grid9_nc o0 = (Outs [0;0;1;0;0;1;2;2;2] [] [], Ok ()) ∧
  ¬ aniso_id grid9_nc o0 (Outs [0;0;1;0;0;1;2;2;2] [] []) 0.
Proof. exact @C40_ex. Qed.

(** C40 is false with the true number of external faces: on a strip of four cells, three are kept,
    though two are as compact and have fewer external faces. *)
Theorem C40_external_faces_refuted :
  ∃ i o r ip (X : gset nat), good_call i o ∧ in_corr i = false ∧
  simple_csr (in_row i) (in_col i) ∧ weak_order (@wlt qarith) (λ _, True) ∧
  agglomerate_one_level i o = (r, Ok ()) ∧
  ip_dim ip = in_dim i ∧ ip_min ip = in_min i ∧ ip_goal ip = in_goal i ∧ ip_max ip = in_max i ∧
  ar_kinds (bool_decide (in_dim i = 2%Z)) !! Z.to_nat (in_ar i) = Some (ip_ar ip) ∧ ip_front ip = negb (bool_decide (in_nbh i = 0%Z)) ∧
  ip_iter ip = in_iter i ∧ ip_it ip = bool_decide (1 < in_iter i)%Z ∧
  ¬ aniso_id i o r 0 ∧ (∀ x, x ∈ X ↔ o_fc2cc r !! x = Some 0) ∧
  ∀ seed, ¬ grown_from ip (graph_of i) (in_prio i) (compactness (in_row i) (in_col i))
    (external_faces (in_row i) (in_col i) (fixed_bnd i))
    (λ x, ∃ c', o_fc2cc r !! x = Some c' ∧ 0 ≤ c') seed X.
Proof. exact @C40_ref. Qed.
Print Assumptions C40_external_faces_refuted.
