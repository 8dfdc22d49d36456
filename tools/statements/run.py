import subprocess,shutil,os,sys,json,re
sys.path.insert(0,'/tmp/pf')
import importlib
mod=importlib.import_module(sys.argv[1]); only=sys.argv[2:]
PRE=r'''From Verif Require Import %s.
Local Open Scope N_scope.
Ltac slice := split; [repeat constructor|vm_compute; discriminate].
Ltac str := split; [apply utf8_valid_iff; vm_compute; reflexivity|vm_compute; discriminate].
Ltac c := vm_compute; reflexivity.
Ltac bad H := vm_compute in H; discriminate H.
Ltac from := left; split; [slice|c].
'''
files=[re.search(r'/(\w+)\.v',l).group(1) for l in open('/tmp/pf/base/_CoqProject') if l.startswith('theories/')]
PRE=PRE%' '.join(files)
def coqc(d,name,text,t=180):
    open(f'{d}/theories/{name}.v','w').write(text)
    try: p=subprocess.run(['timeout','-s','KILL',str(t),'coqc','-R','theories','Verif',f'theories/{name}.v'],cwd=d,capture_output=True,text=True)
    except subprocess.TimeoutExpired: return 'TIMEOUT'
    return 'OK' if p.returncode==0 else (p.stderr or p.stdout)[-700:]
done={}
if os.path.exists('ref_results.jsonl'):
    for l in open('ref_results.jsonl'):
        r=json.loads(l); done[r['id']]=r
for m in mod.M:
    if only and m['id'] not in only: continue
    if not only and m['id'] in done and done[m['id']]['ok']: continue
    W='/tmp/pf/w'
    shutil.rmtree(W,ignore_errors=True); subprocess.run(['cp','-a','base',W])
    for f,old,new in m['edits']:
        p=f'{W}/theories/{f}.v'; s=open(p).read(); assert s.count(old)>=1,(m['id'],s.count(old)); open(p,'w').write(s.replace(old,new,1))
    body=PRE+m.get('pre','')+f"\nDefinition stmt : Prop := ltac:(let t := type of @{m['thm']} in exact t).\nLemma refuted : ~ stmt.\nProof. unfold stmt. {m['ref']} Qed.\n"
    ctl=coqc('base','Ref',body)
    b=subprocess.run('make -k -j2 2>&1 | grep -A3 "^File.*" | grep -B1 -A3 Error',shell=True,cwd=W,capture_output=True,text=True).stdout
    r=coqc(W,'Ref',body)
    ok=(r=='OK' and ctl!='OK')
    print(m['id'],m['thm'],'REFUTED' if ok else 'NOT', '' if ctl!='OK' else 'CONTROL ALSO PROVES', '' if ok else r, b[:300] if b else '',flush=True)
    open('ref_results.jsonl','a').write(json.dumps(dict(id=m['id'],thm=m['thm'],ok=ok,res=r,control=ctl[:200],english=m['english'],edits=m['edits'],build=b[:300]))+'\n')
