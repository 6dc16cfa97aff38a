(** * PropsDep: the deprecated containers (C48-C50) *)

From Verif Require Import Deprec SpecDep DepT DepU DepE DepV DepF.

(** C48.  As long as no more elements are popped than were pushed, the elements
    popped are the first pushed, in the order of the pushes, and the rest stays. *)
Theorem C48_queue : ∀ {T} (m1 : T) (ops : list (qop T)),
  (∀ k, pops (take k ops) ≤ length (pushed (take k ops))) →
  q_run m1 ops = (take (pops ops) (pushed ops), drop (pops ops) (pushed ops)).
Proof. exact @C48_queue_lem. Qed.
Print Assumptions C48_queue.

Example C48_queue_example :
  let ops := [QPush 4; QPush 7; QPop; QPush 4; QPop] in
  (∀ k, pops (take k ops) ≤ length (pushed (take k ops))) ∧ q_run 99 ops = ([4; 7], [4]).
Proof. exact @C48_queue_ex. Qed.

(** C48.  [top] is what [pop] would return; of an empty queue both are -1. *)
Theorem C48_queue_reads : ∀ {T} (m1 : T) (q : list T),
  q_top m1 q = (q_pop m1 q).1 ∧ q_top m1 q = default m1 (head q) ∧
  (q_pop m1 q).2 = tail q ∧ (q_empty q = true ↔ q = []).
Proof. exact @C48_queue_reads_lem. Qed.
Print Assumptions C48_queue_reads.

Example C48_queue_reads_example :
  q_top 99 [3; 5] = 3 ∧ q_pop 99 [] = (99, []).
Proof. exact @C48_queue_reads_ex. Qed.

(** C48.  The comparison of [Priority_Pair] is the documented one, and a strict
    total order when those of the components are. *)
Theorem C48_priority_pair : ∀ {A B} (lta eqa : A → A → bool) (ltb eqb : B → B → bool),
  (∀ x y, eqa x y ↔ x = y) → (∀ x y, eqb x y ↔ x = y) →
  (∀ x, ¬ lta x x) → (∀ x y z, lta x y → lta y z → lta x z) → (∀ x y, lta x y ∨ x = y ∨ lta y x) →
  (∀ x, ¬ ltb x x) → (∀ x y z, ltb x y → ltb y z → ltb x z) → (∀ x y, ltb x y ∨ x = y ∨ ltb y x) →
  (∀ a b, pp_lt lta ltb a b ↔ lta b.1 a.1 ∨ (a.1 = b.1 ∧ ltb a.2 b.2)) ∧
  (∀ a b, pp_eq eqa eqb a b ↔ a = b) ∧
  (∀ a, ¬ pp_lt lta ltb a a) ∧
  (∀ a b c, pp_lt lta ltb a b → pp_lt lta ltb b c → pp_lt lta ltb a c) ∧
  (∀ a b, pp_lt lta ltb a b ∨ a = b ∨ pp_lt lta ltb b a).
Proof. exact @C48_priority_pair_lem. Qed.
Print Assumptions C48_priority_pair.

Example C48_priority_pair_example :
  pp_lt Nat.ltb Nat.ltb (4, 9) (3, 1) = true ∧ pp_lt Nat.ltb Nat.ltb (4, 3) (4, 4) = true ∧
  pp_lt Nat.ltb Nat.ltb (3, 1) (4, 9) = false ∧ pp_eq Nat.eqb Nat.eqb (4, 9) (4, 9) = true.
Proof. exact @C48_priority_pair_ex. Qed.

(** C49.  As long as no key is given to two pairs, a [Bimap] holds the pairs put
    in: both ways of looking up find the partner, and undefined behaviour is
    met only for keys which are not there.  Missing: keys in use. *)
Theorem C49_bimap_partial : ∀ {A B : Type} `{Countable A} `{Countable B} (ops : list (bop A B)) (m : list (A * B)),
  bops_fit ops m → ∃ s, foldM bop_run ops bm_new = Ok s ∧ holds s m.
Proof. exact @C49_bimap_lem. Qed.
Print Assumptions C49_bimap_partial.

Example C49_bimap_partial_example :
  bops_fit bops4 [(3, 30)] ∧
  match foldM bop_run bops4 bm_new with
  | Ok s => bm_getB s 3 = Ok 30 ∧ bm_getA s 30 = Ok 3 ∧ bm_getB s 1 = Err EUB ∧ bm_lung s = 1
  | Err _ => False
  end.
Proof. exact @C49_bimap_ex. Qed.

(** C49.  Every insertion of a key in use with another partner breaks the
    container: it holds no list of pairs. *)
Theorem C49_insert_clash_partial : ∀ {A B : Type} `{Countable A} `{Countable B} (ops : list (bop A B)) (m : list (A * B)) (s : bimap A B) a b,
  bops_fit ops m → foldM bop_run ops bm_new = Ok s → ¬ bop_fits m (BInsert a b) →
  ¬ ∃ m', holds (bm_insert s a b) m'.
Proof. exact @C49_clash_lem. Qed.
Print Assumptions C49_insert_clash_partial.

Example C49_insert_clash_partial_example :
  bops_fit bops4 [(3, 30)] ∧ ¬ bop_fits [(3, 30)] (BInsert 3 40).
Proof. exact @C49_clash_ex. Qed.

(** C49 refuted: after two insertions of the same first key, the partner of the
    second key leads to another key. *)
Theorem C49_insert_refuted :
  ∃ (ops : list (bop nat nat)) s a b,
    foldM bop_run ops bm_new = Ok s ∧ bm_getA s b = Ok a ∧ bm_getB s a ≠ Ok b.
Proof. exact @C49_insert_ref. Qed.
Print Assumptions C49_insert_refuted.

(** C49 refuted: a key changed to one in use leaves a pointer to a destroyed
    node, or a container without pairs which is not empty. *)
Theorem C49_update_refuted :
  (∃ s : bimap nat nat, foldM bop_run [BInsert 1 10; BInsert 2 20; BUpdateA 10 20] bm_new = Ok s ∧
     bm_lung s = 2 ∧ bm_getB s 1 = Err EUB) ∧
  (∃ s : bimap nat nat, foldM bop_run [BInsert 1 10; BInsert 2 20; BUpdateB 1 2; BErase 2] bm_new = Ok s ∧
     bm_lung s = 0 ∧ bm_empty s = false).
Proof. exact @C49_update_ref. Qed.
Print Assumptions C49_update_refuted.

(** C50.  Any sequence of insertions, and of deletions of the last of several
    sons of the root or of sons which are not there, gives the tree described by
    the operations: all pointers and numbers of sons are right.  Missing: other
    deletions. *)
Theorem C50_tree_partial : ∀ {W : Type} (i : nat) (v : W) (ops : list (top W)) (s : shape W),
  tops_fit ops s → ∃ t, foldM top_run ops (tr_new i v) = Ok t ∧ tree_is t s.
Proof. exact @C50_tree_lem. Qed.
Print Assumptions C50_tree_partial.

Example C50_tree_partial_example :
  tops_fit tops4 [((5, 50), [(7, 70)])] ∧
  match foldM top_run tops4 (tr_new 0 0) with Ok _ => True | Err _ => False end.
Proof. exact @C50_tree_ex. Qed.

(** C50.  The deletion of a son gives a tree only if it is the last of several
    (or not there); it has undefined behaviour exactly for the only son, the
    first of two and the last but one. *)
Theorem C50_delete_partial : ∀ {W : Type} (t : tree W) (s : shape W) (v : nat),
  tree_is t s →
  ((∃ t' s', tr_delete t v = Ok t' ∧ tree_is t' s') ↔ deletes_last s (TDelete v)) ∧
  (tr_delete t v = Err EUB ↔ ∃ k, first_son s v k ∧ length s ≤ k + 2 ∧ ¬ (0 < k ∧ S k = length s)).
Proof. exact @C50_delete_lem. Qed.
Print Assumptions C50_delete_partial.

Example C50_delete_partial_example :
  ∃ t : tree nat, foldM top_run tops4 (tr_new 0 0) = Ok t ∧ tree_is t [((5, 50), [(7, 70)])] ∧
    tr_delete t 5 = Err EUB.
Proof. exact @C50_delete_ex. Qed.

(** C50.  If the deletion of a son is defined, the number of sons is right and
    going to the right from the first son finds the other ones in the same order. *)
Theorem C50_delete_right : ∀ {W : Type} (t : tree W) (s : shape W) (v k : nat) t' sons,
  tree_is t s → brothers (tr_heap t) (tr_root t) sons → first_son s v k →
  tr_delete t v = Ok t' →
  tr_root t' = tr_root t ∧ rightwards (tr_heap t') (tr_root t) (take k sons ++ drop (S k) sons).
Proof. exact @C50_delete_right_lem. Qed.
Print Assumptions C50_delete_right.

Example C50_delete_right_example :
  ∃ t t' : tree nat, foldM top_run [TRoot 5 0; TRoot 6 0; TRoot 7 0; TRoot 8 0] (tr_new 0 0) = Ok t ∧
    tree_is t [((5, 0), []); ((6, 0), []); ((7, 0), []); ((8, 0), [])] ∧
    first_son [((5, 0), []); ((6, 0), []); ((7, 0), []); ((8, 0), [])] 6 1 ∧
    brothers (tr_heap t) (tr_root t) [1; 2; 3; 4] ∧
    tr_delete t 6 = Ok t' ∧ rightwards (tr_heap t') (tr_root t) [1; 3; 4] ∧
    (∃ n3 n4, tr_heap t' !! 3 = Some n3 ∧ tr_heap t' !! 4 = Some n4 ∧ tn_left n3 = Some 2 ∧ tn_left n4 = Some 2).
Proof. exact @C50_right_ex. Qed.

(** C50.  An insertion under a son which is not there fails an assertion; if the
    root has no sons a null pointer is dereferenced first. *)
Theorem C50_unknown_father : ∀ {W : Type} (t : tree W) (s : shape W) (f : nat) (i : nat) (v : W),
  tree_is t s → (∀ k, ¬ first_son s f k) →
  tr_insert t f i v 0 = Err (if decide (s = []) then EUB else EAssert).
Proof. exact @C50_lost_lem. Qed.
Print Assumptions C50_unknown_father.

Example C50_unknown_father_example :
  tree_is (tr_new 0 0) [] ∧ (∀ k, ¬ first_son (W := nat) [] 4 k) ∧ tr_insert (tr_new 0 0) 4 5 6 0 = Err EUB.
Proof. exact @C50_lost_ex. Qed.

(** C50 refuted: undefined behaviour in the deletion of the only son, of the
    first of two, of the second of three. *)
Theorem C50_delete_refuted :
  foldM top_run [TRoot 5 50; TDelete 5] (tr_new 0 0) = Err EUB ∧
  foldM top_run [TRoot 5 50; TRoot 6 60; TDelete 5] (tr_new 0 0) = Err EUB ∧
  foldM top_run [TRoot 5 50; TRoot 6 60; TRoot 7 70; TDelete 6] (tr_new 0 0) = Err EUB.
Proof. exact @C50_delete_ref. Qed.
Print Assumptions C50_delete_refuted.

(** C50 refuted: after the deletions of the second and of the fourth of four
    sons, the fourth is still found. *)
Theorem C50_still_there_refuted :
  ∃ t t' : tree nat,
    foldM top_run [TRoot 1 0; TRoot 2 0; TRoot 3 0; TRoot 4 0; TDelete 2; TDelete 4] (tr_new 0 0) = Ok t ∧
    tr_insert t 4 9 0 0 = Ok t'.
Proof. exact @C50_still_there_ref. Qed.
Print Assumptions C50_still_there_refuted.
