(** * FidelNeigh: the model on the tests of the neighbourhoods, the tools and
    the graphs

    tests/test_neighbourhood.cpp, tests/test_utils.cpp, tests/test_graph.cpp.
    Tests of the model, not proofs of properties. *)

From Coq Require Import Floats Uint63.
From Verif Require Import Main Double UtilM Subgraph Fidelity FidelMesh FidelPool.

Set Warnings "-inexact-float".
#[local] Open Scope Z_scope.
#[local] Open Scope nat_scope.
#[local] Existing Instance float_arith.
#[local] Existing Instance Fidelity.ord_id.

(** ** tests/test_neighbourhood.cpp *)
Definition g7 : graph := graph_of quad_7.
Definition none_done : list bool := replicate 49 false.
Definition done (l : list nat) : list bool := foldl (λ v i, <[i := true]> v) none_done l.
Definition set_of (l : list nat) : gset nat := list_to_set l.

(** The cells of each order around cell 24. *)
Definition orders (aggl : list bool) : option (list (list nat)) :=
  value (r ← compute_neighbourhood_of_cc g7 {[24]} 3 4 aggl;
         Ok (map (λ k, filter (λ c, r.1 !! c = Some k) (seq 0 49)) [1; 2; 3]%Z)).
Example neigh_orders : orders none_done
  = Some [[17; 23; 25; 31]; [10; 16; 18; 22; 26; 30; 32; 38];
          [3; 9; 11; 15; 19; 21; 27; 29; 33; 37; 39; 45]].
Proof. vm_compute. reflexivity. Qed.
Example neigh_orders_done : orders (done ([10; 16] ++ seq 28 7))
  = Some [[17; 23; 25]; [18; 22; 26]; [11; 15; 19; 21; 27]].
Proof. vm_compute. reflexivity. Qed.

Definition around (aggl : list bool) : option (list nat) :=
  value (r ← neighbourhood_of_cc g7 (set_of [16; 17; 18; 23; 24]) aggl;
         Ok (filter (λ c, c ∈ r) (seq 0 49))).
Example neigh_cc : around none_done = Some [9; 10; 11; 15; 19; 22; 25; 30; 31].
Proof. vm_compute. reflexivity. Qed.
Example neigh_cc_done : around (done [15; 9; 19]) = Some [10; 11; 22; 25; 30; 31].
Proof. vm_compute. reflexivity. Qed.

(** Cells 24, 31 and 38 in turn, at order 2: candidates and, for the front,
    the levels. *)
Definition grown (front : option Z) (l : list nat) : option (list nat * list (list nat)) :=
  value (d ← compute_neighbourhood_of_cc g7 {[24]} 2 4 none_done;
         h ← foldM (λ h c, n ← nbrs g7 c; nbh_update (in_prio quad_7) h c n) l
               (nbh_create (dom d.1) front);
         Ok (merge_sort (≤) (nb_cand h), map (λ q, merge_sort (≤) (map fst q)) (nb_q h))).
Example extended :
  grown None [24] = Some ([17; 23; 25; 31], []) ∧
  grown None [24; 31] = Some ([17; 23; 25; 30; 32; 38], []) ∧
  grown None [24; 31; 38] = Some ([17; 23; 25; 30; 32], []).
Proof. vm_compute. auto. Qed.
Example pure_front :
  grown (Some 2%Z) [24] = Some ([17; 23; 25; 31], [[17; 23; 25; 31]]) ∧
  (∃ l, grown (Some 2%Z) [24; 31] = Some (l, [[30; 32; 38]; [17; 23; 25]])
        ∧ 30 ∈ l ∧ 32 ∈ l ∧ 38 ∈ l) ∧
  grown (Some 2%Z) [24; 31; 38] = Some ([17; 23; 25], [[]; [30; 32]; [17; 23; 25]]).
Proof.
  split_and!; [vm_compute; reflexivity| |vm_compute; reflexivity].
  eexists. split; [vm_compute; reflexivity|].
  repeat split; apply (bool_decide_unpack _); vm_compute; reflexivity.
Qed.

(** ** tests/test_utils.cpp *)

(** tests/test_utils.cpp:33-142: wall distance; an empty wall. *)
Definition wall7 := [0; 1; 2; 3; 4; 5; 6; 7; 14; 21; 28; 35; 42].
Example wall_7 :
  value (wall_distance (in_row quad_7) (in_col quad_7) wall7 [])
  = Some (map (λ c, Z.of_nat (min (c `mod` 7) (c / 7))) (seq 0 49)).
Proof. vm_compute. reflexivity. Qed.
Example wall_7_sets :
  map (λ k, filter (λ c, min (c `mod` 7) (c / 7) = k) (seq 0 49)) (seq 0 7)
  = [wall7; [8; 9; 10; 11; 12; 13; 15; 22; 29; 36; 43]; [16; 17; 18; 19; 20; 23; 30; 37; 44];
     [24; 25; 26; 27; 31; 38; 45]; [32; 33; 34; 39; 46]; [40; 41; 47]; [48]].
Proof. vm_compute. reflexivity. Qed.
Example wall_empty :
  value (wall_distance (in_row quad_7) (in_col quad_7) [] []) = Some (replicate 49 (-1)%Z).
Proof. vm_compute. reflexivity. Qed.

(** tests/test_utils.cpp:144-222: compactness. *)
Definition compact (l : list nat) : option (list (option Z) * Z) :=
  value (d ← fc_compactness (graph_of quad_3) (set_of l);
         m ← min_compactness (graph_of quad_3) (set_of l);
         Ok (map (λ c, d !! c) (seq 0 9), m)).
Example compact_3 :
  compact [] = Some (replicate 9 None, 0%Z) ∧
  compact [1] = Some ([None; Some 0%Z] ++ replicate 7 None, 0%Z) ∧
  compact [6; 3; 0; 1; 2]
  = Some ([Some 2; Some 2; Some 1; Some 2; None; None; Some 1; None; None]%Z, 1%Z) ∧
  compact (seq 0 9) = Some (map Some [2; 3; 2; 3; 4; 3; 2; 3; 2]%Z, 2%Z).
Proof. vm_compute. auto. Qed.

(** tests/test_utils.cpp:224-265: the order of the pairs, the heaviest first and
    then the least number.  The set with the opposite order is not used by the
    library's isotropic or anisotropic code; [pair_lt] is its comparison. *)
Example pairs_greater :
  foldl (λ s p, pset_insert p s) [] [(1, 0%float); (1, 0%float); (1, 3%float); (0, 3%float)]
  = [(0, 3%float); (1, 3%float); (1, 0%float)].
Proof. vm_compute. reflexivity. Qed.
Example pairs_less :
  pair_lt (1, 0%float) (1, 3%float) = true ∧ pair_lt (1, 3%float) (0, 3%float) = true ∧
  pair_lt (1, 3%float) (1, 0%float) = false ∧ pair_lt (0, 3%float) (1, 3%float) = false ∧
  pair_lt (1, 0%float) (1, 0%float) = false.
Proof. vm_compute. auto. Qed.

(** tests/test_utils.cpp:267-313: cells by number of faces. *)
Definition kept (l : list Z) : option (list nat) :=
  value (filter_cells (in_row quad_4) (in_bnd quad_4) l).
Example filtered :
  kept [] = Some [] ∧ kept [-1; 0]%Z = Some [] ∧ kept [3]%Z = Some [] ∧
  kept [4]%Z = Some (seq 0 16) ∧ kept [3; 4]%Z = Some (seq 0 16).
Proof. vm_compute. auto. Qed.

(** tests/test_utils.cpp:315-373: the coarse graph. *)
Example coarse_4 :
  value (c ← build_coarse_graph
           (FGraph (in_row quad_4) (in_col quad_4) (in_val quad_4) (in_vol quad_4)
              (in_cen quad_4) (in_prio quad_4) (in_bnd quad_4)) quad_4_ref;
         Ok (cg_idx c, cg_adj c, cg_wgt c, cg_vol c, cg_cen c, cg_prio c, cg_bnd c))
  = Some ([0; 2; 4; 6; 8], [1; 2; 0; 3; 0; 3; 1; 2], replicate 8 2%float,
          replicate 4 4%float, [[1; 1]; [3; 1]; [1; 3]; [3; 3]]%float,
          [16; 14; 8; 6]%float, replicate 4 2%Z).
Proof. vm_compute. reflexivity. Qed.

(** ** tests/test_graph.cpp:22-50: a subgraph, a node removed and a node added.
    The test of the removal only requires that it ends; the cardinality member
    is not updated by the library. *)
Definition marion : subg :=
  SubG [0; 2; 4; 7; 9; 10] [1; 3; 0; 2; 1; 3; 4; 0; 2; 2] (replicate 10 1%float)
    (replicate 5 1%float) [20; 30; 40; 50; 60] 1 5.
Example marion_compact : value (sub_compactness 5 (sg_row marion)) = Some (sg_cpt marion).
Proof. vm_compute. reflexivity. Qed.
Example marion_removed :
  value (s ← remove_node marion 50;
         Ok (sg_row s, sg_col s, sg_val s, sg_vol s, sg_map s, sg_cpt s, sg_card s))
  = Some ([0; 1; 3; 5; 6], [1; 0; 2; 1; 3; 2], replicate 6 1%float,
          replicate 4 1%float, [20; 30; 40; 60], 1%Z, 5%Z).
Proof. vm_compute. reflexivity. Qed.
Definition graph_of_subg (s : subg) : graph :=
  Graph _ (length (sg_row s) - 1) (sg_row s) (sg_col s) (sg_val s) (sg_vol s) [] [] ∅ true.
Example marion_added :
  value (s ← insert_node marion [30; 20] 10 1%float [1; 1]%float;
         r ← check_connectivity (graph_of_subg s) (replicate 6 false);
         Ok (r.1, sg_map s !! 5)) = Some (true, Some 10).
Proof. vm_compute. reflexivity. Qed.
