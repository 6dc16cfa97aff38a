(** * FidelAR: the model on the tests of the features of the coarse cells

    tests/test_ARComputer.cpp.  The C++ tests compare with an absolute tolerance
    of 1e-10 (tests/test_defs.h:44), and so do these.  Tests of the model, not
    proofs of properties. *)

From Coq Require Import Floats Uint63.
From Verif Require Import Main Double Fidelity FidelMesh FidelPool.

Set Warnings "-inexact-float".
#[local] Open Scope Z_scope.
#[local] Open Scope nat_scope.
#[local] Existing Instance float_arith.
#[local] Existing Instance Fidelity.ord_id.

(** Catch's [WithinAbs]. *)
Definition near (x y : float) : bool := PrimFloat.leb (PrimFloat.abs (x - y)%float) 1e-10%float.
Definition nearl (l k : list float) : bool :=
  bool_decide (length l = length k) && forallb (λ p, near p.1 p.2) (zip l k).

(** The values the tests speak of: measure, external weights, internal weights,
    internal faces, minimum edge, diameter, centres, facets. *)
Definition cf (m ext int : float) (nint : Z) (me di : float) (sum : list float)
    (fac : list (nat * Z)) : feats :=
  Feats _ m ext int nint (wmul me me) (wmul di di) sum (list_to_map fac).
(** [CHECK_BASE_CELL_FEATURES] with [CHECK_GEOM_CELL_FEATURES], with
    [CHECK_WEIGHTS_CELL_FEATURES] and with the barycentres,
    tests/test_ARComputer.cpp:35-49, 143-170. *)
Definition base_ok (f r : feats) : bool :=
  near (f_meas f) (f_meas r) && bool_decide (f_nint f = f_nint r).
Definition geom_ok (f r : feats) : bool :=
  base_ok f r && near (f_sqdiam f) (f_sqdiam r) && near (f_sqmin f) (f_sqmin r).
Definition weights_ok (f r : feats) : bool :=
  base_ok f r && near (f_ext f) (f_ext r) && near (f_int f) (f_int r).
Definition bary_ok (f r : feats) : bool :=
  base_ok f r && nearl (f_sum f) (f_sum r)
  && forallb (λ k, bool_decide (f_facets f !! k = f_facets r !! k)) (elements (dom (f_facets f))).

(** The three calls of the tests, and the number of shared faces. *)
Definition added (g : graph) (x : nat) (f : feats) (cc : list nat) (r : feats) (n : Z) : option bool :=
  let cc := list_to_set cc in
  value (a ← compute_features Diameter g x f cc;
         b ← compute_features ExternalW g x f cc;
         c ← compute_features MaxOverMinBary g x f cc;
         Ok (geom_ok a.2 r && bool_decide (a.1.1 = n) && weights_ok b.2 r && bary_ok c.2 r)).
Definition ratio (k : ar_kind) (g : graph) (x : nat) (f : feats) (cc : list nat) (v : float) : option bool :=
  value (a ← compute_features k g x f (list_to_set cc); Ok (near a.1.2 v)).

Definition g4 : graph := graph_of quad_4.

(** tests/test_ARComputer.cpp:51-77: the features of cell 0. *)
Example feats_cell :
  value (f ← feats_of_cell g4 0;
         Ok (near (f_meas f) 1 && near (f_ext f) 4 && nearl (f_sum f) [0.5; 0.5]%float
             && bool_decide (f_facets f !! 0 = Some 4%Z))) = Some true.
Proof. vm_compute. reflexivity. Qed.

(** tests/test_ARComputer.cpp:135-275: cells 0, 1, 5 and 4 of the square. *)
Definition q2 := cf 2 6 1 1 1 1 [2; 1]%float [(0, 3%Z); (1, 3%Z)].
Definition q3 := cf 3 8 2 2 1 (PrimFloat.sqrt 2) [3.5; 2.5]%float [(0, 3%Z); (1, 2%Z); (5, 3%Z)].
Definition q4 := cf 4 8 4 4 1 (PrimFloat.sqrt 2) [4; 4]%float [(0, 2%Z); (1, 2%Z); (5, 2%Z); (4, 2%Z)].
Example square_2 : value (f ← feats_of_cell g4 0; opt_value (added g4 1 f [0] q2 1)) = Some true.
Proof. vm_compute. reflexivity. Qed.
Example square_3 : added g4 5 q2 [0; 1] q3 1 = Some true.
Proof. vm_compute. reflexivity. Qed.
Example square_4 : added g4 4 q3 [0; 1; 5] q4 2 = Some true.
Proof. vm_compute. reflexivity. Qed.

(** tests/test_ARComputer.cpp:277-301: the ten aspect ratios. *)
Example square_ratios :
  map (λ p, ratio p.1 g4 4 q3 [0; 1; 5] p.2)
    [(DiamOverRadius true, (2 / 4)%float); (DiamOverMinEdge, 2%float); (Diameter, 2%float);
     (OverMeasure, (1 / 4)%float); (OverInternal, (1 / 4)%float);
     (PerimOverRadius true, (64 / 4)%float); (ExternalW, 8%float);
     (MaxBaryOverRadius true, (2 * (0.5 * 0.5) / 4)%float); (MaxOverMinBary, 1%float);
     (AlgPerimOverMeasure, (8 / 4)%float)]
  = replicate 10 (Some true).
Proof. vm_compute. reflexivity. Qed.

(** tests/test_ARComputer.cpp:303-364: nine cells, the barycentre being the
    centre of one of them. *)
Definition q8 := cf 8 9 10 10 1 (PrimFloat.sqrt 8) [11; 11]%float
  [(0, 2%Z); (1, 1%Z); (2, 2%Z); (4, 1%Z); (5, 0%Z); (6, 2%Z); (8, 2%Z); (9, 2%Z)].
Definition q9 := cf 9 9 12 12 1 (PrimFloat.sqrt 8) [13.5; 13.5]%float
  [(0, 2%Z); (1, 1%Z); (2, 2%Z); (4, 1%Z); (5, 0%Z); (6, 1%Z); (8, 2%Z); (9, 1%Z); (10, 2%Z)].
Example square_9 :
  added g4 10 q8 [0; 1; 5; 2; 4; 6; 8; 9] q9 2 = Some true ∧
  ratio MaxOverMinBary g4 10 q8 [0; 1; 5; 2; 4; 6; 8; 9] (PrimFloat.sqrt 2) = Some true.
Proof. vm_compute. auto. Qed.

(** tests/test_ARComputer.cpp:367-622: the cube. *)
Definition g64 : graph := graph_of cube_4.
Definition c4 := cf 4 16 4 4 1 (PrimFloat.sqrt 2) [4; 4; 2]%float [(0, 4%Z); (1, 4%Z); (4, 4%Z); (5, 4%Z)].
Definition c5 := cf 5 20 5 5 1 (PrimFloat.sqrt 3) [5.5; 4.5; 3.5]%float
  [(0, 4%Z); (1, 3%Z); (4, 4%Z); (5, 4%Z); (17, 5%Z)].
Definition c6 := cf 6 22 7 7 1 (PrimFloat.sqrt 3) [7; 6; 5]%float
  [(0, 4%Z); (1, 3%Z); (4, 4%Z); (5, 3%Z); (17, 4%Z); (21, 4%Z)].
Definition c7 := cf 7 24 9 9 1 (PrimFloat.sqrt 3) [7.5; 7.5; 6.5]%float
  [(0, 4%Z); (1, 3%Z); (4, 3%Z); (5, 3%Z); (17, 4%Z); (21, 3%Z); (20, 4%Z)].
Definition c8 := cf 8 24 12 12 1 (PrimFloat.sqrt 3) [8; 8; 8]%float
  [(0, 3%Z); (1, 3%Z); (4, 3%Z); (5, 3%Z); (17, 3%Z); (21, 3%Z); (20, 3%Z); (16, 3%Z)].
Example cube_5 : added g64 17 c4 [0; 1; 4; 5] c5 1 = Some true.
Proof. vm_compute. reflexivity. Qed.
Example cube_6 : added g64 21 c5 [0; 1; 4; 5; 17] c6 2 = Some true.
Proof. vm_compute. reflexivity. Qed.
Example cube_8 : added g64 16 c7 [0; 1; 4; 5; 17; 21; 20] c8 3 = Some true.
Proof. vm_compute. reflexivity. Qed.
Example cube_ratios :
  map (λ p, ratio p.1 g64 16 c7 [0; 1; 4; 5; 17; 21; 20] p.2)
    [(DiamOverRadius false, (27 / 64)%float); (DiamOverMinEdge, 3%float); (Diameter, 3%float);
     (OverMeasure, (1 / 8)%float); (OverInternal, (1 / 12)%float);
     (PerimOverRadius false, (13824 / 64)%float); (ExternalW, 24%float);
     (MaxBaryOverRadius false, (0.75 * 0.75 * 0.75 / 64)%float); (MaxOverMinBary, 1%float);
     (AlgPerimOverMeasure, (24 / 8)%float)]
  = replicate 10 (Some true).
Proof. vm_compute. reflexivity. Qed.

(** tests/test_ARComputer.cpp:624-710: the cube of 27 cells. *)
Definition cc26 := [40; 41; 36; 37; 38; 32; 33; 34; 24; 25; 26; 20; 21; 22; 16; 17; 18;
                    8; 9; 10; 4; 5; 6; 0; 1; 2].
Definition fac27 : list (nat * Z) :=
  (21, 0%Z) :: map (λ k, (k, 1%Z)) [5; 17; 20; 22; 25; 37]
  ++ map (λ k, (k, 2%Z)) [1; 4; 6; 9; 16; 18; 24; 26; 33; 36; 38; 41]
  ++ map (λ k, (k, 3%Z)) [0; 2; 8; 10; 32; 34; 40; 42].
Definition fac26 : list (nat * Z) :=
  map (λ p, (p.1, if bool_decide (p.1 ∈ [26; 38; 41]) then (p.2 + 1)%Z else p.2)) fac27.
Definition c26 := cf 8 54 51 51 1 (PrimFloat.sqrt 48) [38; 38; 38]%float fac26.
Definition c27 := cf 9 54 54 54 1 (PrimFloat.sqrt 48) [40.5; 40.5; 40.5]%float fac27.
Example cube_27 :
  added g64 42 c26 cc26 c27 3 = Some true ∧
  ratio MaxOverMinBary g64 42 c26 cc26 (PrimFloat.sqrt 3) = Some true.
Proof. vm_compute. auto. Qed.
