#!/usr/bin/env python3
# mkprops.py OutFile "title" Import1,Import2  SourceFile  entries...  (entries read from a json file)
import re,sys,json,os
TH='/verif/rocq/theories/'
def get(src,name):
    s=open(TH+src+'.v').read()
    m=re.search(r'^(?:Lemma|Definition) '+re.escape(name)+r'\b(.*?)\.\nProof',s,re.S|re.M)
    if not m: raise Exception('no '+name)
    body=m.group(1)
    # split binders from statement at first top-level ' :' 
    depth=0
    i=0
    while i<len(body):
        c=body[i]
        if c in '({[': depth+=1
        elif c in ')}]': depth-=1
        elif c==':' and depth==0 and body[i+1]!='=' : break
        i+=1
    return body[:i].strip(), body[i+1:].strip('\n ')
def typed(b,types):
    # give types to the bare binder names, which the source has from its section
    toks=[];depth=0;cur=''
    for ch in b:
        if ch in '({[': depth+=1
        if ch in ')}]': depth-=1
        if ch in ' \n' and depth==0:
            if cur: toks.append(cur)
            cur=''
        else: cur+=ch
    if cur: toks.append(cur)
    return ' '.join(f'({t} : {types[t]})' if t in types else t for t in toks)
def main(cfg):
    c=json.load(open(cfg))
    ctx=c.get('ctx','')
    out=[f'(** * {c["file"]}: {c["title"]} *)','','From Verif Require Import '+' '.join(c['imports'])+'.','']
    for line in c.get('opens',[]): out.append(line)
    for e in c['entries']:
        b,st=get(e['src'],e['lem'])
        if ctx and not e.get('noctx'): b=(e.get('ctx',ctx)+' '+typed(b,c.get('types',{}))).strip()
        out.append('(** '+e['doc']+' *)')
        if b: out.append(f'Theorem {e["thm"]} : ∀ {b},\n  {st}.')
        else: out.append(f'Theorem {e["thm"]} :\n  {st}.')
        out.append(f'Proof. exact @{e["lem"]}. Qed.')
        out.append(f'Print Assumptions {e["thm"]}.\n')
        for k,x in enumerate(e.get('ex',[])):
            b,st=get(e['src'] if isinstance(x,str) else x[0], x if isinstance(x,str) else x[1])
            nm=x if isinstance(x,str) else x[1]
            out.append(f'Example {e["thm"]}_example{k+1 if len(e["ex"])>1 else ""} :\n  {"∀ "+b+", " if b else ""}{st}.')
            out.append(f'Proof. exact @{nm}. Qed.\n')
    open(TH+c['file']+'.v','w').write('\n'.join(out))
main(sys.argv[1])
