"""Turn ref_results.jsonl (run.py) into lines of /verif/seeded/LOG.jsonl: the last successful run of every test not logged yet."""
import json
L='/verif/seeded/LOG.jsonl'; seen={json.loads(l).get('id') for l in open(L)}
last={}
for l in open('ref_results.jsonl'):
    r=json.loads(l)
    if r['ok']: last[r['id']]=r
out=open(L,'a')
for k,r in sorted(last.items()):
    i='T-'+k
    if i in seen: continue
    out.write(json.dumps({'id':i,'round':'T (statement level)','definition':', '.join(sorted({f for f,_,_ in r['edits']})),
      'edit':' || '.join(f'{f}: {o!r} -> {n!r}' for f,o,n in r['edits']),'claim_broken':r['english'],
      'theorems_failed':[r['thm']],'theorems_tightened':[],
      'note':'the negation of the statement of this theorem was proved for the edited model (proof-free copy, tools/statements/run.py); the same script does not prove it for the unedited model'})+'\n')
