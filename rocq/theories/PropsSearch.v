(** * PropsSearch: search and ordering (C15, C29, C37) *)

From Verif Require Import NbhP NeighP Inst SearchT.

(** C15.  The neighbourhood search returns normally a map holding exactly the
    free cells which are not seeds at distance 1..K of the seeds, with their
    distance; it stops early only if everything reachable is included, and
    goes beyond the requested order only while fewer than [max_card] cells are
    known. *)
Theorem C15_neighbourhood_search : ∀ `{A : Arith, H : HashOrder} (g : graph) (aggl : list bool)
    (seeds : gset nat) (nb_order max_card : Z),
  let E := edge (g_row g) (g_col g) in
  let free x := aggl !! x = Some false in
  let dist := at_dist E free (λ x, x ∈ seeds) in
  csr (g_n g) (g_row g) (g_col g) → csr_sym (g_row g) (g_col g) →
  length (g_val g) = length (g_col g) →
  length aggl = g_n g → (∀ x, x ∈ seeds → x < g_n g) → (1 < max_card)%Z →
  ∃ dn K, compute_neighbourhood_of_cc g seeds nb_order max_card aggl
            = Ok (dn, Z.of_nat (S K)) ∧
    (∀ x v, dn !! x = Some v ↔ x ∉ seeds ∧ ∃ j, j ≤ K ∧ v = Z.of_nat j ∧ dist j x) ∧
    ((∀ j x, dist j x → x ∈ seeds ∨ is_Some (dn !! x)) ∨
     (nb_order <= Z.of_nat K)%Z ∧ (max_card <= Z.of_nat (size seeds + size dn))%Z) ∧
    (K = 0 ∨ (Z.of_nat K <= nb_order)%Z ∨
     ∃ X : gset nat, (∀ x, x ∈ X ↔ ∃ j, j < K ∧ dist j x) ∧
       (Z.of_nat (size X) < max_card)%Z).
Proof. exact @C15_lem. Qed.
Print Assumptions C15_neighbourhood_search.

Example C15_neighbourhood_search_example :
  let g := grid9_g in
  csr (@g_n qarith g) (@g_row qarith g) (@g_col qarith g) ∧ csr_sym (@g_row qarith g) (@g_col qarith g) ∧
  match @compute_neighbourhood_of_cc qarith ord_id g {[0]} 2 4 (replicate 9 false) with
  | Ok (dn, k) => k = 3%Z ∧ size dn = 5 ∧
      map (λ c, dn !! c) [1; 3; 2; 4; 6] = map Some [1; 1; 2; 2; 2]%Z
  | Err _ => False
  end.
Proof. exact @C15_ex. Qed.

(** C29.  After adding the cells [cs] one by one, the candidates are eligible
    cells adjacent to the coarse cell and not in it; all of them for the
    extended neighbourhood ([front = None]); at least one if there is one.
    Candidates (pure front) or the candidates added last (extended) come by
    decreasing priority. *)
Theorem C29_growth_candidates : ∀ `{A : Arith, H : HashOrder} (g : graph) (prio : list W)
    (allowed : gset nat) (front : option Z) (cs : list nat),
  csr (g_n g) (g_row g) (g_col g) → csr_sym (g_row g) (g_col g) →
  length (g_val g) = length (g_col g) →
  length prio = g_n g → weak_order wlt (λ w, w ∈ prio) →
  (∀ d, front = Some d → (2 <= d)%Z) → (∀ c, c ∈ cs → c < g_n g) →
  ∃ h, foldM (λ h c, l ← nbrs g c; nbh_update prio h c l) cs (nbh_create allowed front) = Ok h ∧
    let border x := x ∈ allowed ∧ x ∉ cs ∧ ∃ y, y ∈ cs ∧ edge (g_row g) (g_col g) y x in
    NoDup (nb_cand h) ∧
    (∀ x, x ∈ nb_cand h → border x) ∧
    (front = None → ∀ x, border x → x ∈ nb_cand h) ∧
    ((∃ x, border x) → nb_cand h ≠ []) ∧
    (front ≠ None → prio_sorted prio (nb_cand h)) ∧
    (front = None → ∀ c h', c < g_n g → (l ← nbrs g c; nbh_update prio h c l) = Ok h' →
       ∃ new, nb_cand h' = remove_first c (nb_cand h) ++ new ∧ prio_sorted prio new).
Proof. exact @C29_lem. Qed.
Print Assumptions C29_growth_candidates.

Example C29_growth_candidates_example :
  ∃ h, foldM (λ h c, l ← @nbrs qarith grid9_g c; @nbh_update qarith (@in_prio qarith grid9_in) h c l) [4; 1]
         (@nbh_create qarith (list_to_set (seq 0 9)) None) = Ok h ∧
       @nb_cand qarith h = [3; 5; 7; 0; 2].
Proof. exact @C29_ex. Qed.

(** C37.  Both comparisons of (index, weight) pairs are strict weak orders,
    equivalent elements having the same index and equivalent weights. *)
Theorem C37_pair_orders : ∀ `{A : Arith} (P : W → Prop),
  weak_order wlt P →
  weak_order pair_gt (λ p, P p.2) ∧ weak_order pair_lt (λ p, P p.2) ∧
  (∀ p q, pair_lt p q = pair_gt q p) ∧
  (∀ p q, P p.2 → P q.2 → pair_gt p q = false ∧ pair_gt q p = false ↔
    p.1 = q.1 ∧ wlt p.2 q.2 = false ∧ wlt q.2 p.2 = false).
Proof. exact @C37_lem. Qed.
Print Assumptions C37_pair_orders.

Example C37_pair_orders_example :
  weak_order (@wlt qarith) (λ w, w ∈ [qc 1 2; qc 1 3; qc 1 2]) ∧
  @collect qarith (λ _, true) [qc 1 2; qc 1 3; qc 1 2] [1; 2; 0; 2]
    = Ok [(0, qc 1 2); (2, qc 1 2); (1, qc 1 3)].
Proof. exact @C37_ex. Qed.

(** C37.  An ordered set of pairs holds one entry per inserted cell, by
    decreasing weight then increasing index. *)
Theorem C37_ordered_sets : ∀ `{A : Arith} (prio : list W) (ps : list nat),
  weak_order wlt (λ w, w ∈ prio) → (∀ c, c ∈ ps → c < length prio) →
  ∃ s, collect (λ _, true) prio ps = Ok s ∧ NoDup (map fst s) ∧
    (∀ c w, (c, w) ∈ s ↔ c ∈ ps ∧ prio !! c = Some w) ∧ prio_sorted prio (map fst s).
Proof. exact @C37_set_lem. Qed.
Print Assumptions C37_ordered_sets.
