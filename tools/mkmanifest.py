#!/usr/bin/env python3
# Regenerates MANIFEST.json from the property list and the theorem names in Props_*.v
import json,re,glob,os
root='/verif'
props=[json.loads(l) for l in open(root+'/properties.jsonl')]
thms={}
for f in sorted(glob.glob(root+'/rocq/theories/Props_*.v')):
    for m in re.finditer(r'^Theorem\s+(C\d+\w*)',open(f).read(),re.M):
        thms.setdefault(m.group(1)[:3],[]).append(m.group(1))
notes=json.load(open(root+'/tools/notes.json')) if os.path.exists(root+'/tools/notes.json') else {}
claims=[]
for p in props:
    i=p['id']; t=thms.get(i,[])
    n=notes.get(i,{})
    st=n.get('status', 'proved' if t else 'partial')
    if any(x.endswith('_partial') for x in t) and 'status' not in n: st='partial'
    claims.append(dict(property=i,status=st,theorems=t,note=n.get('note','' if t else 'not yet done')))
json.dump({"claims":claims},open(root+'/MANIFEST.json','w'),indent=1)
print({c['property']:len(c['theorems']) for c in claims})
