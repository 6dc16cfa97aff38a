#!/usr/bin/env python3
# examples/cpp/ex_aniso_lines.cpp -> theories/FidelEx.v (data mechanically)
import re
def lists(path):
    t=open(path).read(); t=re.sub(r'//[^\n]*','',t)
    return {n:eval(v.replace('{','[').replace('}',']')) for n,v in
        re.findall(r'vector<[\w<>]+>\s+(\w+)\s*=\s*(\{.*?\});',t,re.S)}
def fl(x):
    x=float(x)
    return f'{x:.1f}' if x==int(x) else x.hex()
def L(l,f=str): return '['+'; '.join(f(v) for v in l)+']'
a=lists('/repo/examples/cpp/ex_aniso_lines.cpp')
print(f'''(** * FidelEx: the model on the examples of the repository

    examples/cpp/ex_aniso_lines.cpp, which is examples/scripts/test_CoMMA.py too
    (examples/cpp/ex_coarse_graph.cpp is [FidelNeigh.coarse_4]).  Data extracted mechanically by
    tools/mkex.py.  Tests of the model, not proofs of properties. *)

From Coq Require Import Floats Uint63.
From Verif Require Import Main UtilM ArgsM Double Fidelity.

Set Warnings "-inexact-float".
#[local] Open Scope Z_scope.
#[local] Open Scope nat_scope.
#[local] Existing Instance float_arith.
#[local] Existing Instance Fidelity.ord_id.

(** ex_aniso_lines.cpp:33-79: the mesh. *)
Definition ex_idx : list nat := {L(a['adj_idx'])}.
Definition ex_adj : list nat := {L(a['adj'])}.
Definition ex_areas : list float := {L(a['areas'],fl)}%float.
Definition ex_vol : list float := {L(a['volumes'],fl)}%float.
Definition ex_cen : list (list float) := {L(a['centers'],lambda p:L(p,fl))}%float.
Definition ex_bnd : list Z := {L(a['n_bnd_faces'])}%Z.
Definition ex_compl : list nat := {L(a['compliant_cells'])}.
Definition ex_prio : list float := {L(a['priority'],fl)}%float.

(** ex_aniso_lines.cpp:105-108: the expected results. *)
Definition ex_ref : outs := Outs
  {L(a['ref_f2c'])}
  {L(a['ref_alines_idx'])}
  {L(a['ref_alines'])}.

(** ex_aniso_lines.cpp:119-160: the full signature. *)
Example ex_full :
  aol_positional ex_idx ex_adj ex_areas ex_vol ex_cen ex_prio ex_compl ex_bnd true true true 1.5%float 0
    (Outs [] [] []) false 2 4 4 4 0 1 None 0 true 1 0 = (ex_ref, Ok ()).
Proof. vm_compute. reflexivity. Qed.
(** ex_aniso_lines.cpp:165-213: the signature with structures of arguments. *)
Example ex_args :
  aol_args (graph_ctor ex_idx ex_adj ex_areas ex_vol ex_cen ex_prio ex_bnd 2)
    (agglo_ctor 4 4 4 false 0 (Some 0%Z) (Some 1%Z) (Some 1%Z) (Some 0%Z))
    (aniso_ctor true ex_compl (Some true) (Some true) (Some 1.5%float) (Some None) (Some 0%Z) (Some true))
    (Outs [] [] []) = (ex_ref, Ok ()).
Proof. vm_compute. reflexivity. Qed.
(** examples/scripts/test_CoMMA.py:68-112: the Python module. *)
Example ex_python :
  py_aol ex_idx ex_adj ex_areas ex_vol ex_cen ex_prio ex_compl ex_bnd true true true 1.5%float 0 [] []
    false 2 4 4 4 (Some 0%Z) (Some 1%Z) (Some None) (Some 0%Z) (Some true) (Some 1%Z) (Some 0%Z) =
  Ok (o_fc2cc ex_ref, o_idx ex_ref, o_lines ex_ref).
Proof. vm_compute. reflexivity. Qed.''')
