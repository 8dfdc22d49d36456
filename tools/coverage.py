#!/usr/bin/env python3
"""Lists the functions of /repo/src whose first line lies in no range cited by a model comment (src/<file> a-b, c-d)."""
import re,glob
cited={}
for f in glob.glob('/verif/rocq/theories/*.v'):
    t=open(f).read()
    for m in re.finditer(r'\(\*.*?\*\)',t,re.S):
        c=re.sub(r'\s+',' ',m.group(0))
        for m2 in re.finditer(r'src/(\w+)\.rs ((?:\d+(?:-\d+)?(?:, | and |; )?)+)',c):
            for r in re.finditer(r'(\d+)(?:-(\d+))?',m2.group(2)):
                a=int(r.group(1)); b=int(r.group(2) or a)
                cited.setdefault(m2.group(1),set()).update(range(a,b+1))
for f in sorted(glob.glob('/repo/src/*.rs')):
    n=f.split('/')[-1][:-3]
    if n in('tests','lib'): continue
    ls=open(f).read().split('\n')
    intest=False
    for i,l in enumerate(ls,1):
        if '#[cfg(test)]' in l or re.match(r'\s*#\[test\]',l): intest=True
        m=re.match(r'\s*(pub(\(\w+\))? )?(const )?(unsafe )?fn (\w+)',l)
        if m and i not in cited.get(n,set()): print(n,i,l.strip(), '(test?)' if intest else '')
