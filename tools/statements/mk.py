import re,shutil,os,subprocess
shutil.rmtree('base',ignore_errors=True); shutil.copytree('/verif/rocq','base',ignore=shutil.ignore_patterns('*.vo*','*.glob','.*.aux','Makefile*','.Makefile*'))
os.chdir('base')
files=[l.strip() for l in open('_CoqProject') if l.startswith('theories/')]
keep=[f for f in files if not re.search(r'/(Wit\w*|ModelTests|Assumptions)\.v$',f)]
head=[l for l in open('_CoqProject') if not l.startswith('theories/')]
open('_CoqProject','w').write(''.join(head)+'\n'.join(keep)+'\n')
for f in keep:
    s=open(f).read()
    open(f,'w').write(re.sub(r'Proof\.(?:(?!\bProof\.).)*?\bQed\.','Admitted.',s,flags=re.S))
