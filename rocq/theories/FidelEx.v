(** * FidelEx: the model on the examples of the repository

    examples/cpp/ex_aniso_lines.cpp, which is examples/scripts/test_CoMMA.py too
    (examples/cpp/ex_coarse_graph.cpp is [FidelNeigh.coarse_4]).  Data extracted mechanically by
    tools/mkex.py.  Tests of the model, not proofs of properties. *)

From Coq Require Import Floats Uint63.
From Verif Require Import Main UtilM ArgsM Double Fidelity.

Set Warnings "-inexact-float".
#[local] Open Scope Z_scope.
#[local] Open Scope nat_scope.
#[local] Existing Instance float_arith.
#[local] Existing Instance Fidelity.ord_id.

(** ex_aniso_lines.cpp:33-79: the mesh. *)
Definition ex_idx : list nat := [0; 2; 5; 8; 11; 14; 16; 19; 23; 27; 31; 35; 38; 42; 46; 50; 54; 57; 60; 62; 65; 67; 70; 73; 76].
Definition ex_adj : list nat := [1; 11; 0; 2; 10; 1; 3; 9; 2; 4; 8; 3; 5; 7; 4; 6; 5; 7; 17; 4; 8; 6; 15; 3; 9; 7; 13; 2; 10; 8; 12; 1; 11; 9; 14; 0; 10; 16; 9; 14; 13; 23; 8; 12; 15; 21; 10; 16; 12; 22; 7; 13; 17; 19; 11; 14; 20; 6; 15; 18; 17; 19; 15; 21; 18; 16; 22; 13; 23; 19; 14; 20; 23; 12; 22; 21].
Definition ex_areas : list float := [1.0; 0x1.999999999999ap-3; 1.0; 1.0; 0x1.999999999999ap-3; 1.0; 1.0; 0x1.999999999999ap-3; 1.0; 1.0; 0x1.999999999999ap-3; 1.0; 1.0; 0x1.999999999999ap-3; 1.0; 1.0; 1.0; 1.0; 1.0; 0x1.999999999999ap-3; 1.0; 1.0; 0x1.999999999999ap-3; 0x1.999999999999ap-3; 1.0; 1.0; 0x1.999999999999ap-3; 0x1.999999999999ap-3; 1.0; 1.0; 0x1.999999999999ap-3; 0x1.999999999999ap-3; 1.0; 1.0; 0x1.999999999999ap-3; 0x1.999999999999ap-3; 1.0; 0x1.999999999999ap-3; 0x1.999999999999ap-3; 1.0; 1.0; 0x1.999999999999ap-3; 0x1.999999999999ap-3; 1.0; 1.0; 0x1.999999999999ap-3; 0x1.999999999999ap-3; 1.0; 1.0; 0x1.999999999999ap-3; 0x1.999999999999ap-3; 1.0; 1.0; 0x1.999999999999ap-3; 0x1.999999999999ap-3; 1.0; 0x1.999999999999ap-3; 1.0; 1.0; 1.0; 1.0; 1.0; 0x1.999999999999ap-3; 1.0; 1.0; 0x1.999999999999ap-3; 1.0; 0x1.999999999999ap-3; 1.0; 1.0; 0x1.999999999999ap-3; 1.0; 1.0; 0x1.999999999999ap-3; 1.0; 1.0]%float.
Definition ex_vol : list float := [0x1.999999999999ap-3; 0x1.999999999999ap-3; 0x1.999999999999ap-3; 0x1.999999999999ap-3; 0x1.999999999999ap-3; 1.0; 1.0; 0x1.999999999999ap-3; 0x1.999999999999ap-3; 0x1.999999999999ap-3; 0x1.999999999999ap-3; 0x1.999999999999ap-3; 0x1.999999999999ap-3; 0x1.999999999999ap-3; 0x1.999999999999ap-3; 0x1.999999999999ap-3; 0x1.999999999999ap-3; 1.0; 1.0; 0x1.999999999999ap-3; 0x1.999999999999ap-3; 0x1.999999999999ap-3; 0x1.999999999999ap-3; 0x1.999999999999ap-3]%float.
Definition ex_cen : list (list float) := [[0x1.0000000000000p-1; 0x1.999999999999ap-4]; [0x1.0000000000000p-1; 0x1.3333333333333p-2]; [0x1.0000000000000p-1; 0x1.0000000000000p-1]; [0x1.0000000000000p-1; 0x1.6666666666666p-1]; [0x1.0000000000000p-1; 0x1.ccccccccccccdp-1]; [0x1.0000000000000p-1; 0x1.8000000000000p+0]; [0x1.8000000000000p+0; 0x1.8000000000000p+0]; [0x1.8000000000000p+0; 0x1.ccccccccccccdp-1]; [0x1.8000000000000p+0; 0x1.6666666666666p-1]; [0x1.8000000000000p+0; 0x1.0000000000000p-1]; [0x1.8000000000000p+0; 0x1.3333333333333p-2]; [0x1.8000000000000p+0; 0x1.999999999999ap-4]; [0x1.4000000000000p+1; 0x1.0000000000000p-1]; [0x1.4000000000000p+1; 0x1.6666666666666p-1]; [0x1.4000000000000p+1; 0x1.3333333333333p-2]; [0x1.4000000000000p+1; 0x1.ccccccccccccdp-1]; [0x1.4000000000000p+1; 0x1.999999999999ap-4]; [0x1.4000000000000p+1; 0x1.8000000000000p+0]; [0x1.c000000000000p+1; 0x1.8000000000000p+0]; [0x1.c000000000000p+1; 0x1.ccccccccccccdp-1]; [0x1.c000000000000p+1; 0x1.999999999999ap-4]; [0x1.c000000000000p+1; 0x1.6666666666666p-1]; [0x1.c000000000000p+1; 0x1.3333333333333p-2]; [0x1.c000000000000p+1; 0x1.0000000000000p-1]]%float.
Definition ex_bnd : list Z := [2; 1; 1; 1; 1; 2; 1; 0; 0; 0; 0; 1; 0; 0; 0; 0; 1; 1; 2; 1; 2; 1; 1; 1]%Z.
Definition ex_compl : list nat := [0; 1; 2; 3; 4; 5; 6; 7; 8; 9; 10; 11; 12; 13; 14; 15; 16; 17; 18; 19; 20; 21; 22; 23].
Definition ex_prio : list float := [24.0; 23.0; 22.0; 21.0; 20.0; 19.0; 18.0; 17.0; 16.0; 15.0; 14.0; 13.0; 12.0; 11.0; 10.0; 9.0; 8.0; 7.0; 6.0; 5.0; 4.0; 3.0; 2.0; 1.0]%float.

(** ex_aniso_lines.cpp:105-108: the expected results. *)
Definition ex_ref : outs := Outs
  [0; 0; 1; 1; 1; 8; 8; 3; 3; 3; 2; 2; 5; 5; 4; 5; 4; 8; 8; 7; 6; 7; 6; 7]
  [0; 2; 4; 6; 8]
  [0; 1; 2; 3; 4; 5; 6; 7].

(** ex_aniso_lines.cpp:119-160: the full signature. *)
Example ex_full :
  aol_positional ex_idx ex_adj ex_areas ex_vol ex_cen ex_prio ex_compl ex_bnd true true true 1.5%float 0
    (Outs [] [] []) false 2 4 4 4 0 1 None 0 true 1 0 = (ex_ref, Ok ()).
Proof. vm_compute. reflexivity. Qed.
(** ex_aniso_lines.cpp:165-213: the signature with structures of arguments. *)
Example ex_args :
  aol_args (graph_ctor ex_idx ex_adj ex_areas ex_vol ex_cen ex_prio ex_bnd 2)
    (agglo_ctor 4 4 4 false 0 (Some 0%Z) (Some 1%Z) (Some 1%Z) (Some 0%Z))
    (aniso_ctor true ex_compl (Some true) (Some true) (Some 1.5%float) (Some None) (Some 0%Z) (Some true))
    (Outs [] [] []) = (ex_ref, Ok ()).
Proof. vm_compute. reflexivity. Qed.
(** examples/scripts/test_CoMMA.py:68-112: the Python module. *)
Example ex_python :
  py_aol ex_idx ex_adj ex_areas ex_vol ex_cen ex_prio ex_compl ex_bnd true true true 1.5%float 0 [] []
    false 2 4 4 4 (Some 0%Z) (Some 1%Z) (Some None) (Some 0%Z) (Some true) (Some 1%Z) (Some 0%Z) =
  Ok (o_fc2cc ex_ref, o_idx ex_ref, o_lines ex_ref).
Proof. vm_compute. reflexivity. Qed.
