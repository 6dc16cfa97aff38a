(** * PropsFront: pure-front neighbourhood (C29) *)

From Verif Require Import NeighP Inst SearchT SpecFront FrontT.

(** C29.  The candidates of the pure-front neighbourhood after adding [cs]: all
    the eligible neighbours as long as there are at most [d] cells; afterwards
    the eligible neighbours of the first cell which has some, in the order: last
    added, first added, last but one, second, and so on. *)
Theorem C29_pure_front : ∀ `{A : Arith} (g : graph) (prio : list W)
    (allowed : gset nat) (d : Z) (cs : list nat),
  csr (g_n g) (g_row g) (g_col g) → csr_sym (g_row g) (g_col g) →
  length (g_val g) = length (g_col g) →
  length prio = g_n g → weak_order wlt (λ w, w ∈ prio) →
  (2 <= d)%Z → (∀ c, c ∈ cs → c < g_n g) →
  ∃ h, foldM (λ h c, l ← nbrs g c; nbh_update prio h c l) cs (nbh_create allowed (Some d)) = Ok h ∧
    front_candidates (g_row g) (g_col g) allowed d cs (nb_cand h) ∧
    prio_sorted prio (nb_cand h) ∧ NoDup (nb_cand h).
Proof. exact @C29_front_lem. Qed.
Print Assumptions C29_pure_front.

Example C29_pure_front_example :
  let run cs := foldM (λ h c, l ← @nbrs qarith grid9_g c; @nbh_update qarith (@in_prio qarith grid9_in) h c l) cs
         (@nbh_create qarith (list_to_set (seq 0 9)) (Some 2%Z)) in
  let cand cs := match run cs with Ok h => @nb_cand qarith h | Err _ => [] end in
  Permutation (cand [4; 1]) [0; 2; 3; 5; 7] ∧ Permutation (cand [4; 1; 0]) [3] ∧
  Permutation (cand [1; 4; 3; 0]) [2] ∧ Permutation (cand [4; 1; 3; 0]) [5; 7].
Proof. exact @C29_front_ex. Qed.
