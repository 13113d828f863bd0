#!/usr/bin/env python3
"""DESIGN.md = design_head.md + tables computed from the theories, properties.jsonl, MANIFEST.json and assumptions.json."""
import re, json, glob, os
root=os.path.dirname(os.path.dirname(os.path.abspath(__file__))); th=root+'/rocq/theories/'
defs={}
for f in sorted(glob.glob(th+'[MS]_*.v'))+[th+'Base.v']:
    b=os.path.basename(f)[:-2]
    for m in re.finditer(r'^\s*(?:Definition|Fixpoint|Inductive|Record|Notation)\s+(\w+)',open(f).read(),re.M): defs.setdefault(m.group(1),[]).append(b)
stm={}
for f in sorted(glob.glob(th+'Props_*.v')):
    s=open(f).read()
    imp=set(re.findall(r'\b[MS]_\w+',' '.join(re.findall(r'From Verif Require Import[^.]*\.',s))))
    for m in re.finditer(r'^Theorem (C\d+)(\w*)(.*?)\nProof',s,re.M|re.S):
        use=set()
        for w in set(re.findall(r'\w+',m.group(3))):
            c=[x for x in defs.get(w,[]) if x in imp]
            if len(c)==1 and len(w)>2: use.add(c[0])
        stm.setdefault(m.group(1),{})[m.group(1)+m.group(2)]=(os.path.basename(f),use)
man={c['property']:c for c in json.load(open(root+'/MANIFEST.json'))['claims']}
props=[json.loads(l) for l in open(root+'/properties.jsonl')]
rows=[]
for f in sorted(glob.glob(th+'M_*.v')):
    s=open(f).read(); n=len(re.findall(r'^\s*(?:Definition|Fixpoint|Inductive|Record)\s',s,re.M))
    files=sorted(set(re.findall(r'\b((?:\w+/)*\w+\.py)\b',s)))
    rows.append('| `%s` (%d definitions) | %s |'%(os.path.basename(f),n,', '.join(files)))
ax=json.load(open(root+'/tools/assumptions.json'))
groups={}
for t,a in ax.items(): groups.setdefault(tuple(a),[]).append(t)
axl=[]
for a,ts in sorted(groups.items(),key=lambda x:-len(x[1])):
    axl.append('  * %s: %d theorems%s'%(', '.join('`%s`'%x for x in a) if a else 'closed under the global context (no axiom)',len(ts),(' ('+', '.join(sorted(ts))+')') if len(ts)<=40 else ''))
head=open(root+'/tools/design_head.md').read().replace('@AXIOMS@','\n'.join(axl)).replace('@FILES@','\n'.join(rows))
out=[head]
for p in props:
    i=p['id']; c=man[i]; st=stm.get(i,{})
    ms=sorted({x for _,u in st.values() for x in u if x[0]=='M'}); ss=sorted({x for _,u in st.values() for x in u if x[0]=='S'})
    fs=sorted({f for f,_ in st.values()})
    out.append('* **%s** %s - %s. m: %s; s: %s; p: %s: %s.%s'%(i,p['title'],c['status'],', '.join(ms) or 'Base',', '.join(ss) or 'in the statement',', '.join(fs),', '.join(t.replace(i+'_','') for t in c['theorems']),(' '+c['note']) if c['note'] else ''))
open(root+'/DESIGN.md','w').write('\n'.join(out)+'\n')
