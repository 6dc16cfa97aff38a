#!/usr/bin/env python3
# claim.py: read lines "Cnn | status | thm thm ... | note" on stdin and merge them in MANIFEST.json
import json,sys,re
P='/verif/MANIFEST.json'
m=json.load(open(P)); d={c['property']:c for c in m['claims']}
for l in sys.stdin:
    if not l.strip(): continue
    p,s,t,n=[x.strip() for x in l.split('|')]
    d[p]={'property':p,'status':s,'theorems':t.split(),'note':n}
m['claims']=[d[k] for k in sorted(d)]
json.dump(m,open(P,'w'),indent=1,ensure_ascii=False); open(P,'a').write('\n')
