"""Build seeded/LOG.jsonl from mutation results.  usage: seeded_log.py RESULTDIR
RESULTDIR holds mo_*.jsonl (one JSON line per mutant: definition, edit, status, first_failures, theorems_failed),
mo_rerun.jsonl (survivors tried again after tightening), hand.jsonl (hand-made mutants, in the final format) and
ren.json (theorem renamings).  notes.json: explanation per surviving definition."""
import json,glob,os,sys
R=sys.argv[1]; root=os.path.dirname(os.path.dirname(os.path.abspath(__file__)))
title={}
for l in open(root+'/properties.jsonl'):
    p=json.loads(l); title[p['id']]=p['title']
ren=json.load(open(R+'/ren.json')) if os.path.exists(R+'/ren.json') else {}
notes=json.load(open(R+'/survivor_notes.json')) if os.path.exists(R+'/survivor_notes.json') else []
def nm(t):
    if t in ren: return ren[t]
    for a,b in ren.items():
        if a.endswith('*') and t.startswith(a[:-1]): return b+t[len(a)-1:]
    return t
def load(f): return [json.loads(l) for l in open(f)]
first={}
for f in sorted(glob.glob(R+'/mo_*.jsonl')):
    if os.path.basename(f).startswith('mo_rerun'): continue
    for r in load(f): first.setdefault((r['definition'],r['edit']),r)
rerun={}
for f in sorted(glob.glob(R+'/mo_rerun*.jsonl')):
    for r in load(f): rerun[(r['definition'],r['edit'])]=r
out=[]; stats={'killed':0,'tightened':0,'survived':0}
for k,r in first.items():
    if r['status']=='ill-formed': continue
    e=dict(definition=r['definition'],edit=r['edit'])
    fin=r; tight=[]
    if r['status']=='survived' and k in rerun:
        fin=rerun[k]
        if fin['status']=='killed': tight=[nm(t) for t in fin['theorems_failed']]
    failed=[nm(t) for t in fin['theorems_failed']] if fin['status']=='killed' else []
    ids=[]
    for t in failed:
        i=t.split('_')[0]
        if i not in ids: ids.append(i)
    lem=[x for x in fin.get('first_failures',[]) if not x.endswith('.?')]
    if fin['status']=='killed' and not failed and not lem: continue   # not a meaningful result
    if fin['status']=='ill-formed': continue
    e['claim']='; '.join('%s %s'%(i,title.get(i,'')) for i in ids[:3]) if ids else ''
    e['theorems_failed']=failed
    if lem: e['lemmas_failed']=lem
    e['theorems_tightened']=tight
    if tight: stats['tightened']+=1; e['note']='survived at first; the theorems listed as tightened were added or strengthened'
    elif fin['status']=='killed':
        stats['killed']+=1
        if not failed: e['note']='the proof of a lemma fails; no property theorem was traced to it'
    else:
        e['result']='survived'
        for d,s,t in notes:
            if d==r['definition'] and s in r['edit']:
                e['note']=t; break
        stats['survived']+=1
    out.append(e)
if os.path.exists(R+'/hand.jsonl'): out+=load(R+'/hand.jsonl')
open(root+'/seeded/LOG.jsonl','w').write(''.join(json.dumps(e)+'\n' for e in out))
print(len(out),stats, sum(1 for e in out if e.get('result')=='survived' and 'note' not in e),'survivors without note')
