#!/usr/bin/env python3
"""Regenerates MANIFEST.json from the theorem names in rocq/theories/Prop*.v (names start with the
property ids they belong to, e.g. C04_C52_foo) and the status/notes table below."""
import re,json,glob,os
root=os.path.join(os.path.dirname(os.path.abspath(__file__)),'..')
names=[]
for f in sorted(glob.glob(root+'/rocq/theories/Prop*.v')):
    for m in re.finditer(r'^(?:Theorem|Corollary)\s+((?:C\d\d\d?_)+\w+)',open(f).read(),re.M): names.append(m.group(1))
notes=json.load(open(root+'/tools/notes.json'))
claims=[]
for l in open(root+'/properties.jsonl'):
    p=json.loads(l)['id']
    th=[n for n in names if p in re.match(r'((?:C\d\d\d?_)+)',n).group(1).split('_')]
    n=notes.get(p,{})
    if not th: continue
    st=n.get('status','proved')
    claims.append({"property":p,"status":st,"theorems":th,"note":n.get('note','')})
json.dump({"claims":claims},open(root+'/MANIFEST.json','w'),indent=1)
print(len(claims),'claims',sum(len(c['theorems']) for c in claims),'theorem refs')

# Assumptions.v: one tuple of all theorems per file, with Print Assumptions.
out=['(** Generated by tools/manifest.py: what the theorems of MANIFEST.json rest on.',
     '    Each command prints "Closed under the global context". *)']
files=[f for f in sorted(glob.glob(root+'/rocq/theories/Prop*.v'))]
out.append('From Verif Require Import '+' '.join(os.path.basename(f)[:-2] for f in files)+'.')
for f in files:
    ns=re.findall(r'^(?:Theorem|Corollary)\s+((?:C\d\d\d?_)+\w+)',open(f).read(),re.M)
    if not ns: continue
    b=os.path.basename(f)[:-2]
    out.append('')
    out.append('Definition theorems_of_%s :=\n  (%s).'%(b,',\n   '.join('@'+n for n in ns)))
    out.append('Print Assumptions theorems_of_%s.'%b)
open(root+'/rocq/theories/Assumptions.v','w').write('\n'.join(out)+'\n')
