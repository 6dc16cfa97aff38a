(** * FidelDep: the model on the tests of the deprecated containers

    tests/test_deprecated.cpp.  The test of the tree is commented out there.
    Tests of the model, not proofs of properties. *)

From Verif Require Import Deprec.

#[local] Open Scope Z_scope.
#[local] Open Scope nat_scope.

(** tests/test_deprecated.cpp:32-57: the queue. *)
Example dep_queue :
  let q := foldl q_push [] [0; 1; 2]%Z in
  let '(a, q1) := q_pop (-1)%Z q in
  let '(b, q2) := q_pop (-1)%Z q1 in
  let '(c, q3) := q_pop (-1)%Z q2 in
  (q_top (-1)%Z q, a, q_top (-1)%Z q1, b, q_top (-1)%Z q2, c, q_top (-1)%Z q3)
  = (0, 0, 1, 1, 2, 2, -1)%Z.
Proof. vm_compute. reflexivity. Qed.

(** tests/test_deprecated.cpp:78-124: the pairs and a set of them, kept here by
    insertion in increasing order. *)
Definition ppz_lt := pp_lt Z.ltb Z.ltb.
Definition ppz_eq := pp_eq Z.eqb Z.eqb.
Fixpoint pp_insert (p : Z * Z) (l : list (Z * Z)) : list (Z * Z) :=
  match l with
  | [] => [p]
  | q :: l' => if ppz_lt p q then p :: l else if ppz_lt q p then q :: pp_insert p l' else l
  end.
Example dep_pairs :
  ppz_eq (0, 1)%Z (0, 1)%Z = true ∧ ppz_lt (3, 0)%Z (0, 1)%Z = true ∧ ppz_lt (0, 0)%Z (0, 1)%Z = true.
Proof. vm_compute. auto. Qed.
Example dep_pair_set :
  let s := foldl (λ l p, pp_insert p l) [] [(0, 1); (0, 1); (3, 0); (0, 0); (2, -1)]%Z in
  s = [(3, 0); (2, -1); (0, 0); (0, 1)]%Z ∧
  pp_insert (1, 4)%Z s = [(3, 0); (2, -1); (1, 4); (0, 0); (0, 1)]%Z.
Proof. vm_compute. auto. Qed.

(** tests/test_deprecated.cpp:126-228: the bimap; the shared pointers are
    numbers. *)
Definition four : bimap nat nat :=
  foldl (λ s p, bm_insert s p.1 p.2) bm_new [(0, 100); (1, 101); (2, 102); (3, 103)].
Example dep_bimap :
  bm_lung four = 4 ∧
  match bm_eraseB four 2 with
  | Ok s => bm_lung s = 3 ∧ bm_lung (bm_updateB s 3 2) = 3 ∧ bm_getB (bm_updateB s 3 2) 2 = Ok 103
  | Err _ => False
  end.
Proof. vm_compute. auto. Qed.
Example dep_bimap_empty :
  match bm_eraseB (bm_insert (bm_new : bimap nat nat) 0 100) 0 with
  | Ok s => bm_empty s = true
  | Err _ => False
  end.
Proof. vm_compute. auto. Qed.
