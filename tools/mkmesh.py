#!/usr/bin/env python3
# tests/DualGraphExamples.h -> theories/FidelMesh.v (data only, mechanically)
import re,math
t=open('/repo/tests/DualGraphExamples.h').read()
env=dict(one_third=1./3., ten_ov_three=10./3., sqrt2=math.sqrt(2.), sqrt101=math.sqrt(101.))
def clean(s):
    s=re.sub(r'//[^\n]*','',s); s=re.sub(r'/\*.*?\*/','',s,flags=re.S)
    return s
def val(s): return eval(clean(s).replace('{','[').replace('}',']'),{},env)
def fl(x):
    x=float(x)
    if x==int(x) and abs(x)<1e6: return f'{x:.1f}' if x>=0 else f'({x:.1f})'
    h=x.hex(); return h if x>=0 else f'({h})'
def lst(l,f=str): 
    if len(l)>8 and all(v==l[0] for v in l): return f'(replicate {len(l)} {f(l[0])})'
    return '['+'; '.join(f(v) for v in l)+']'
out=[]
done={'DualGEx_quad_4','DualGEx_aniso_3cell','DualGEx_cube_4','DualGEx_T_shaped'}
for m in re.finditer(r'class (DualGEx\w*)\s*:\s*public BaseDualGEx \{(.*?)\n\};',t,re.S):
    n,b=m.groups()
    if n in done: continue
    f={}
    keys=['row_ptr','col_ind','areas','n_bnd','volumes','centers']
    pos=[re.search(r'/\* '+k+r'\s*\*/',b) for k in keys]
    for i,k in enumerate(keys):
        e=pos[i+1].start() if i<5 else b.index(') {}',pos[i].end())
        f[k]=val(clean(b[pos[i].end():e]).strip().rstrip(','))
    N=len(f['n_bnd']); dim=len(f['centers'][0])
    nm={'DualGEx':'mixed','DualGEx_aniso':'aniso','DualGEx_Tria_BL':'tria_bl'}.get(n,n.replace('DualGEx_',''))
    out.append(f'''(** tests/DualGraphExamples.h, class [{n}]. *)
Definition {nm} : input := Input _
  {lst(f['row_ptr'])}
  {lst(f['col_ind'])}
  {lst(f['areas'],fl)}%float
  {lst(f['volumes'],fl)}%float
  {lst(f['centers'],lambda c: lst(c,fl))}%float
  {lst([N-i for i in range(N)],fl)}%float
  (seq 0 {N})
  {lst(f['n_bnd'])}%Z
  true false true 0%float 0 true {dim} 4 4 4 0 1 None 0 true 1 0.
''')
print('''(** * FidelMesh: the other test meshes of the repository

    Extracted mechanically from tests/DualGraphExamples.h by tools/mkmesh.py.
    The last line of each mesh are default arguments, which the tests replace. *)

From Coq Require Import Floats Uint63.
From Verif Require Import Main Double Fidelity.

Set Warnings "-inexact-float".
#[local] Open Scope Z_scope.
#[local] Open Scope nat_scope.
#[local] Existing Instance float_arith.
''')
print('\n'.join(out),end='')
