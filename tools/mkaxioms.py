#!/usr/bin/env python3
"""Rewrite the generated section of DESIGN.md: what Print Assumptions lists for each theorem.
Needs a built tree in rocq/ (the Props_*.v files are compiled again into a scratch directory)."""
import re, glob, subprocess, os, collections
R='/verif/rocq'
os.makedirs('/tmp/ax',exist_ok=True)
sets=collections.OrderedDict()
for f in sorted(glob.glob(R+'/theories/Props_*.v')):
    b=os.path.basename(f)[:-2]
    out=subprocess.run(['coqc','-Q','theories','Verif',f,'-o','/tmp/ax/%s.vo'%b],cwd=R,capture_output=True,text=True).stdout
    names=re.findall(r'Print Assumptions (\S+)\.',open(f).read())
    parts=[p for p in re.split(r'^(?=Closed under|Axioms:)',out,flags=re.M) if p.startswith(('Closed','Axioms'))]
    assert len(parts)==len(names),(b,len(parts),len(names))
    for n,p in zip(names,parts):
        ax=tuple(sorted(set(a or c for a,c in re.findall(r'^([\w.]+)\s*$|^([\w.]+) :',p,flags=re.M))-{'Axioms'}))
        sets.setdefault(ax,[]).append(n)
s='<!-- generated by tools/mkaxioms.py -->\n'
for ax in sorted(sets,key=len):
    s+='\n**%s** (%d theorems): %s.\n'%('No axioms ("Closed under the global context")' if not ax else ', '.join('`%s`'%a for a in ax),len(sets[ax]),', '.join(sorted(sets[ax])))
p='/verif/DESIGN.md'; d=open(p).read()
i=d.index('<!-- generated by tools/mkaxioms.py -->')
open(p,'w').write(d[:i]+s)
print({len(k):len(v) for k,v in sets.items()})
