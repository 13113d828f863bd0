#!/usr/bin/env python3
"""Regenerate MANIFEST.json from the theorem names in rocq/theories/Props_*.v.
A claim is 'partial' iff one of its theorems is named _partial or _refuted (or tools/notes.json says so)."""
import re, json, glob, os
root=os.path.dirname(os.path.dirname(os.path.abspath(__file__)))
notes=json.load(open(root+'/tools/notes.json')) if os.path.exists(root+'/tools/notes.json') else {}
ths={}
for f in sorted(glob.glob(root+'/rocq/theories/Props_*.v')):
    for m in re.finditer(r'^(?:Theorem|Corollary)\s+((C\d+)\w*)', open(f).read(), re.M):
        ths.setdefault(m.group(2),[]).append(m.group(1))
# a property with a false clause, and the properties stating its true clauses on their own
also={'C03':['C203'],'C07':['C195'],'C17':['C196'],'C18':['C197'],'C19':['C206'],'C22':['C198'],'C23':['C199'],'C29':['C200'],
      'C31':['C201'],'C37':['C202'],'C65':['C204'],'C70':['C205'],'C84':['C81'],'C93':['C50'],'C94':['C50']}
all_ths={k:list(v) for k,v in ths.items()}
claims=[]
for l in open(root+'/properties.jsonl'):
    pid=json.loads(l)['id']
    t=ths.pop(pid,[])+[x for o in also.get(pid,[]) for x in all_ths[o] if not x.endswith('_refuted') and not x.endswith('_partial')]
    n=notes.get(pid,{})
    if n.get('status'): st=n['status']
    elif not t: st='partial'
    elif any(x.endswith('_partial') or x.endswith('_refuted') for x in t): st='partial'
    else: st='proved'
    claims.append(dict(property=pid,status=st,theorems=t,note=n.get('note','' if t else 'not modelled yet')+(' The true clauses are also stated on their own as '+', '.join(also[pid])+'.' if pid in also else '')))
assert not ths, ths
json.dump({"claims":claims},open(root+'/MANIFEST.json','w'),indent=1)
print(sum(c['status']=='proved' for c in claims),'proved',sum(c['status']=='partial' for c in claims),'partial', len({t for c in claims for t in c['theorems']}),'theorems')
for c in claims:
    if not c['theorems']: print('  none:',c['property'])
