#!/usr/bin/env python3
"""Turns mutation results (one JSON per mutant, written by the scratch runner) into seeded/LOG.jsonl lines.
usage: mutlog.py results.jsonl round [tightened.json]"""
import json,sys,re,glob
man=json.load(open('/verif/MANIFEST.json'))
thms={c['property']:c['theorems'] for c in man['claims']}
where={}
for f in glob.glob('/verif/rocq/theories/Prop*.v'):
    for m in re.finditer(r'^(?:Theorem|Corollary)\s+(\w+)',open(f).read(),re.M): where[m.group(1)]=f.split('/')[-1][:-2]
tight=json.load(open(sys.argv[3])) if len(sys.argv)>3 else {}
for l in open(sys.argv[1]):
    r=json.loads(l)
    ids=re.findall(r'C\d\d\d?',r['claim'])
    notb=set(r['prop_files_not_built'])
    broken=[t for i in ids for t in thms.get(i,[]) if where.get(t) in notb]
    t=tight.get(r['id'],{})
    out=dict(id=sys.argv[2]+'-'+r['id'],definition=r['file']+'.'+r['defn'],edit={'from':r['old'],'to':r['new'],'occurrence':r.get('nth',0)},
      claim_broken=r['claim'],witness=r['wit'],original_result=r['orig'],edited_result=r['mut'],
      outcome=t.get('outcome','all proofs went through' if r['rc']==0 else 'build fails'),
      first_failing=r['fails'],theorems_failed=broken,
      prop_files_not_built=sorted(notb),theorems_tightened=t.get('tightened',[]))
    if 'note' in t: out['note']=t['note']
    print(json.dumps(out))
