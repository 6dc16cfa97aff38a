(** * PropsPool: the choice of the seeds (C16-C18) *)

From Verif Require Import SpecPool PoolT PoolE.

#[local] Existing Instance qarith | 100.
#[local] Existing Instance ord_id | 100.

(** C16.  Whatever the history of a boundary-priority pool, the next seed is free
    and no free cell has more boundary faces.  It is the first free cell of the
    queue of its level or, if there is none, the one with the highest priority.
    There is no seed only if there is no free cell. *)
Theorem C16_seed_of_history : ∀ {A : Arith} {H : HashOrder} (prio : list W) (bnd : list Z) (HD : pool_data prio bnd) (one : bool) (aggl : list bool) (p : pool),
  (one = true → ∀ w, w ∈ prio → wlt w wminv = false) → pool_hist prio bnd true one aggl p →
  ∃ r p', choose_new_seed prio bnd aggl p = Ok (r, p') ∧
    match r with
    | None => ∀ c, ¬ is_free aggl c
    | Some s => ∃ b, is_free aggl s ∧ bnd !! s = Some b ∧ highest_free bnd aggl b ∧
        (first_of aggl p (Z.to_nat b) s ∨
         (∀ c, queued p (Z.to_nat b) c → ¬ is_free aggl c) ∧ best_of prio bnd aggl b s)
    end.
Proof. exact @C16_lem. Qed.
Print Assumptions C16_seed_of_history.

Example C16_seed_of_history_example :
  pool_data (ones 4) bnd4 ∧ pool_hist (ones 4) bnd4 true true aggl4 (pool4 true) ∧
  (∀ w, w ∈ ones 4 → wlt w wminv = false) ∧
  ∃ p', choose_new_seed (ones 4) bnd4 aggl4 (pool4 true) = Ok (Some 2, p').
Proof. exact @C16_ex. Qed.

(** C17.  Whatever the history of a neighbourhood-priority pool, the next seed is
    free and there is one if there is a free cell.  It is a cell in the queues as
    long as they have a free cell.  Otherwise it has the highest priority among the
    free cells with as many boundary faces; this number is that of the first
    free cell which reaches the level of the last seed or, when there is no such cell,
    the highest.  Missing: the next two theorems. *)
Theorem C17_seed_partial : ∀ {A : Arith} {H : HashOrder} (prio : list W) (bnd : list Z) (HD : pool_data prio bnd) (one : bool) (aggl : list bool) (p : pool),
  (one = true → ∀ w, w ∈ prio → wlt w wminv = false) → pool_hist prio bnd false one aggl p →
  ∃ r p', choose_new_seed prio bnd aggl p = Ok (r, p') ∧
    match r with
    | None => ∀ c, ¬ is_free aggl c
    | Some s => is_free aggl s ∧
        ((∃ l, first_of aggl p l s ∧ ∀ l' c, l < l' → queued p l' c → ¬ is_free aggl c) ∨
         (∀ l c, queued p l c → ¬ is_free aggl c) ∧
           ∃ t b, sp_top p = Some t ∧ best_of prio bnd aggl b s ∧
             (first_above bnd aggl t b ∨ highest_free bnd aggl b ∧ (b < t)%Z))
    end.
Proof. exact @C17_lem. Qed.
Print Assumptions C17_seed_partial.

Example C17_seed_partial_example :
  pool_data (ones 4) bnd4 ∧ pool_hist (ones 4) bnd4 false true aggl4 (pool4 false) ∧
  (∀ w, w ∈ ones 4 → wlt w wminv = false) ∧
  ∃ p', choose_new_seed (ones 4) bnd4 aggl4 (pool4 false) = Ok (Some 3, p').
Proof. exact @C17_ex. Qed.

(** C17 is false as far as neighbours are concerned: the second coarse cell does not touch
    the first one, though the first one has free neighbours. *)
Theorem C17_neighbour_refuted :
  ∃ i o r, good_call i o ∧ in_aniso i = false ∧ in_corr i = false ∧ in_order i = 1%Z ∧
  agglomerate_one_level i o = (r, Ok ()) ∧
  (∀ x y, o_fc2cc r !! x = Some 0 → o_fc2cc r !! y = Some 1 → ¬ in_edge i x y) ∧
  (∃ x y, o_fc2cc r !! x = Some 0 ∧ o_fc2cc r !! y = Some 2 ∧ in_edge i x y).
Proof. exact @C17_neighbour_ref. Qed.
Print Assumptions C17_neighbour_refuted.

(** C17 is false as far as the highest number of boundary faces is concerned: when the
    pool is exhausted the third coarse cell is made of cells with at most one boundary
    face, though a cell left has two. *)
Theorem C17_highest_refuted :
  ∃ i o r, good_call i o ∧ in_aniso i = false ∧ in_corr i = false ∧ in_order i = 11%Z ∧
  agglomerate_one_level i o = (r, Ok ()) ∧
  (∀ x y, o_fc2cc r !! x = Some 0 ∨ o_fc2cc r !! x = Some 1 → o_fc2cc r !! y = Some 2 ∨ o_fc2cc r !! y = Some 3 →
     ¬ in_edge i x y) ∧
  (∀ x b, o_fc2cc r !! x = Some 2 → in_bnd i !! x = Some b → (b <= 1)%Z) ∧
  (∃ x, o_fc2cc r !! x = Some 3 ∧ in_bnd i !! x = Some 2%Z).
Proof. exact @C17_highest_ref. Qed.
Print Assumptions C17_highest_refuted.

(** C18, when the priority of one of the cells with the most boundary faces is at least
    the smallest positive number.  Missing: the next theorem. *)
Theorem C18_first_seed_partial : ∀ {A : Arith} (prio : list W) (bnd : list Z) (HD : pool_data prio bnd)
  (Hwm : weak_order wlt (λ w, w ∈ wminv :: prio)) (bp : bool) (b : Z) (c : nat) (w : W),
  highest_free bnd (replicate (length bnd) false) b → bnd !! c = Some b → prio !! c = Some w → wlt w wminv = false →
  ∃ p s p', pool_initialize prio bnd (pool_new bp true) = Ok p ∧
    choose_new_seed prio bnd (replicate (length bnd) false) p = Ok (Some s, p') ∧
    best_of prio bnd (replicate (length bnd) false) b s.
Proof. exact @C18_lem. Qed.
Print Assumptions C18_first_seed_partial.

Example C18_first_seed_partial_example :
  pool_data (ones 4) bnd4 ∧ weak_order wlt (λ w, w ∈ wminv :: ones 4) ∧
  highest_free bnd4 (replicate (length bnd4) false) 2 ∧ bnd4 !! 0 = Some 2%Z ∧
  ones 4 !! 0 = Some (qc 1 1) ∧ wlt (qc 1 1) wminv = false.
Proof. exact @C18_ex. Qed.

(** C18.  In all other situations the behaviour is undefined. *)
Theorem C18_non_positive_undefined : ∀ {A : Arith} (prio : list W) (bnd : list Z) (HD : pool_data prio bnd)
  (Hwm : weak_order wlt (λ w, w ∈ wminv :: prio)) (bp : bool) (b : Z),
  highest_free bnd (replicate (length bnd) false) b →
  (∀ c w, bnd !! c = Some b → prio !! c = Some w → wlt w wminv = true) →
  ∃ p, pool_initialize prio bnd (pool_new bp true) = Ok p ∧
    choose_new_seed prio bnd (replicate (length bnd) false) p = Err EUB.
Proof. exact @C18_ub_lem. Qed.
Print Assumptions C18_non_positive_undefined.

Example C18_non_positive_undefined_example :
  pool_data (zeros 4) bnd4 ∧ weak_order wlt (λ w, w ∈ wminv :: zeros 4) ∧
  highest_free bnd4 (replicate (length bnd4) false) 2 ∧
  (∀ c w, bnd4 !! c = Some 2%Z → zeros 4 !! c = Some w → wlt w wminv = true).
Proof. exact @C18_ub_ex. Qed.

(** C18 is false when all priorities are zero. *)
Theorem C18_first_seed_refuted :
  ∃ prio bnd p, pool_data prio bnd ∧
  pool_initialize prio bnd (pool_new true true) = Ok p ∧
  choose_new_seed prio bnd (replicate (length bnd) false) p = Err EUB.
Proof. exact @C18_ref. Qed.
Print Assumptions C18_first_seed_refuted.
