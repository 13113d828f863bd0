#!/usr/bin/env python3
"""assumptions.json: axioms per theorem, from the output of coqc on each Props_*.v (argument: directory with Props_X.txt)."""
import sys,re,glob,json,os
root=os.path.dirname(os.path.dirname(os.path.abspath(__file__)))
out={}
for f in sorted(glob.glob(root+'/rocq/theories/Props_*.v')):
    names=re.findall(r'^Print Assumptions (\w+)',open(f).read(),re.M)
    o=open(sys.argv[1]+'/'+os.path.basename(f)[:-2]+'.txt').read()
    parts=re.findall(r'^(Closed under the global context|Axioms:\n(?:(?!Axioms:|Closed under).*\n?)*)',o,re.M)
    assert len(parts)==len(names),(f,len(parts),len(names))
    for n,p in zip(names,parts):
        out[n]=sorted(set(re.findall(r'^([A-Za-z_]\w*(?:\.\w+)*)\s*$|^([A-Za-z_]\w*(?:\.\w+)*) :',p,re.M) and [a or b for a,b in re.findall(r'^([A-Za-z_]\w*(?:\.\w+)+)\s*$|^([A-Za-z_]\w*(?:\.\w+)*) :',p,re.M)]))
json.dump(out,open(root+'/tools/assumptions.json','w'),indent=0,sort_keys=True)
