(** * FidelPool: the model on the tests of the pools of seeds

    tests/test_seedspool.cpp: the seeds must come in the order required by the
    C++ tests.  Tests of the model, not proofs of properties. *)

From Coq Require Import Floats Uint63.
From Verif Require Import Main Double Fidelity FidelMesh.

Set Warnings "-inexact-float".
#[local] Open Scope Z_scope.
#[local] Open Scope nat_scope.
#[local] Existing Instance float_arith.
#[local] Existing Instance Fidelity.ord_id.

Definition value {B} (r : res B) : option B := match r with Ok x => Some x | Err _ => None end.

(** [n] times: choose a seed, mark it and, if asked, update the pool with its
    neighbours in increasing order. *)
Fixpoint seeds (n : nat) (feed : bool) (g : graph) (prio : list W) (aggl : list bool) (p : pool)
    : res (list nat * list bool * pool) :=
  match n with
  | O => Ok ([], aggl, p)
  | S n =>
      r ← choose_new_seed prio (g_bnd g) aggl p;
      s ← opt_value r.1;
      aggl ← vset aggl s true;
      l ← nbrs g s;
      p ← (if feed then pool_update (g_bnd g) r.2 (merge_sort (≤) l) else Ok r.2);
      t ← seeds n feed g prio aggl p;
      let '(ss, a, p) := t in Ok (s :: ss, a, p)
  end.
Definition from_start (i : input) (prio : list W) (bp one feed : bool) (n : nat)
    : res (list nat * list bool * pool) :=
  p ← pool_initialize prio (in_bnd i) (pool_new bp one);
  seeds n feed (graph_of i) prio (replicate (length (in_bnd i)) false) p.
Definition order_of (i : input) (prio : list W) (bp one feed : bool) : option (list nat) :=
  value (r ← from_start i prio bp one feed (length (in_bnd i)); Ok r.1.1).
(** The cells with [k] boundary faces, in increasing order. *)
Definition of_kind (i : input) (k : Z) : list nat :=
  filter (λ x, in_bnd i !! x = Some k) (seq 0 (length (in_bnd i))).

(** tests/test_seedspool.cpp:59-68: a new pool is empty and needs initialization. *)
Example pool_new_empty :
  pool_is_empty (pool_new true false) = true ∧ sp_q (pool_new true false) = replicate 4 [] ∧
  value (need_initialization (in_bnd cube_4) (replicate 64 false) (pool_new true false))
  = Some (true, pool_new true false).
Proof. vm_compute. done. Qed.

(** tests/test_seedspool.cpp:70-97: corners, ridges, valleys, interior. *)
Example pool_cube :
  order_of cube_4 (in_prio cube_4) true false false
  = Some (of_kind cube_4 3 ++ of_kind cube_4 2 ++ of_kind cube_4 1 ++ of_kind cube_4 0).
Proof. vm_compute. reflexivity. Qed.

(** tests/test_seedspool.cpp:203-265: priorities growing with the number. *)
Example pool_cube_reversed :
  order_of cube_4 (map (λ k, fofZ (Z.of_nat k)) (seq 0 64)) true false false
  = Some (reverse (of_kind cube_4 3) ++ reverse (of_kind cube_4 2) ++ reverse (of_kind cube_4 1)
          ++ reverse (of_kind cube_4 0)).
Proof. vm_compute. reflexivity. Qed.

(** All cells marked but those of the list. *)
Definition only (n : nat) (l : list nat) : list bool := map (λ x, bool_decide (x ∉ l)) (seq 0 n).
(** The corners are taken; then an update with the first list and four seeds;
    then an update with the second one and four seeds. *)
Definition twice (upd : pool → list nat → res pool) (l1 l2 : list nat) : option (list nat * list nat) :=
  value (
    r ← from_start cube_4 (in_prio cube_4) true false false 8;
    p ← upd r.2 l1;
    r1 ← seeds 4 false (graph_of cube_4) (in_prio cube_4) (only 64 l1) p;
    p ← upd r1.2 l2;
    r2 ← seeds 4 false (graph_of cube_4) (in_prio cube_4) (only 64 l2) p;
    Ok (r1.1.1, r2.1.1)).
(** In the C++ test each part starts anew and the second update is made without
    taking the seeds of the first. *)
Definition second_only (upd : pool → list nat → res pool) (l1 l2 : list nat) : option (list nat) :=
  value (
    r ← from_start cube_4 (in_prio cube_4) true false false 8;
    p ← upd r.2 l1;
    p ← upd p l2;
    r2 ← seeds 4 false (graph_of cube_4) (in_prio cube_4) (only 64 l2) p;
    Ok r2.1.1).
Definition upd_plain (p : pool) (l : list nat) := pool_update (in_bnd cube_4) p l.
Definition upd_order (p : pool) (l : list nat) :=
  order_new_seeds_and_update (in_prio cube_4) (in_bnd cube_4) p (list_to_set l).

(** tests/test_seedspool.cpp:98-144: by boundary faces only; the order of the input. *)
Example pool_update_plain :
  twice upd_plain [21; 44; 63; 30] [10; 5; 6; 9] = Some ([63; 44; 30; 21], [10; 5; 6; 9]) ∧
  second_only upd_plain [21; 44; 63; 30] [10; 5; 6; 9] = Some [10; 5; 6; 9].
Proof. vm_compute. done. Qed.
(** tests/test_seedspool.cpp:145-201: by boundary faces; by priority. *)
Example pool_update_order :
  twice upd_order [21; 44; 63; 30] [10; 5; 6; 9] = Some ([63; 44; 30; 21], [5; 6; 9; 10]) ∧
  second_only upd_order [21; 44; 63; 30] [10; 5; 6; 9] = Some [5; 6; 9; 10].
Proof. vm_compute. done. Qed.

(** tests/test_seedspool.cpp:266-402: a mesh with a hole and two corners. *)
Example pool_hole_corners :
  order_of hole_w_corners (in_prio hole_w_corners) true false true
  = Some [12; 13; 0; 3; 1; 2; 8; 9; 10; 11; 4; 7; 5; 6] ∧
  order_of hole_w_corners (in_prio hole_w_corners) true true true
  = Some [12; 13; 0; 3; 1; 2; 8; 9; 10; 11; 4; 7; 5; 6] ∧
  order_of hole_w_corners (in_prio hole_w_corners) false false true
  = Some [12; 13; 0; 3; 1; 2; 4; 7; 5; 6; 8; 11; 9; 10] ∧
  order_of hole_w_corners (in_prio hole_w_corners) false true true
  = Some [12; 0; 3; 13; 2; 1; 4; 7; 6; 5; 8; 11; 10; 9].
Proof. vm_compute. done. Qed.

(** tests/test_seedspool.cpp:403-469: a mesh with a hole and no corners. *)
Example pool_hole_no_corners :
  order_of hole_no_corners (in_prio hole_no_corners) true false true
  = Some [0; 1; 2; 3; 8; 9; 10; 11; 4; 5; 6; 7] ∧
  order_of hole_no_corners (in_prio hole_no_corners) true true true
  = Some [0; 1; 3; 2; 8; 9; 10; 11; 4; 5; 7; 6].
Proof. vm_compute. done. Qed.
