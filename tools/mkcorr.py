#!/usr/bin/env python3
# tests/test_correction.cpp -> examples of theories/FidelCorr.v
import re
L=open('/repo/tests/test_correction.cpp').read().split('\n')
mesh=None; k=0; cur=None; out=[]
def flush():
    global cur,k
    if not cur: return
    n,cre,phase,th,start,end=cur['n'],cur['cre'],cur['ph'],cur['th'],cur['s'],cur['e']
    k+=1
    c='; '.join('([%s], %s%%Z, %s)'%(a,b,x) for a,b,x in cre)
    f=lambda d:'; '.join(str(d[i]) for i in range(n))
    out.append(f'''(** tests/test_correction.cpp:{start}-{end}. *)
Example corr_{k} :
  by_hand {cur['mesh']} {th} [{c}]
  = Some ([{f(phase[0])}], [{f(phase[1])}]).
Proof. vm_compute. reflexivity. Qed.
''')
    cur=None
for i,l in enumerate(L,1):
    m=re.search(r'DualGEx_(\w+) Data',l)
    if m: flush(); mesh=m.group(1)
    if re.match(r'\s*(WHEN|GIVEN)',l): flush(); when=i
    m=re.search(r'create_cc\(\{([^}]*)\}, (\d)(, true)?\)',l)
    if m:
        if not cur: cur=dict(n={'correction':8,'quad_3':9}[mesh],cre=[],ph=[{}, {}],th=1,s=when,e=i,mesh=mesh,p=0)
        cur['cre'].append((m.group(1).replace(', ','; '),m.group(2),'true' if m.group(3) else 'false'))
    if cur and '3thresh' in l: cur['th']=3
    if cur and 'correct(' in l: cur['p']=1
    m=re.search(r'FC_IN_CC\(\w+, (\d+), (\d+)\)\)',l)
    if m: cur['ph'][cur['p']][int(m.group(1))]=int(m.group(2)); cur['e']=i
flush()
print('\n'.join(out),end='')
