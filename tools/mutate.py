#!/usr/bin/env python3
"""Seeded-bug runner.  usage: mutate.py mutants.json
Each mutant: {"file": "XModel.v", "definition": ..., "old": ..., "new": ..., "edit": ..., "claim": ..., "tightened": []}
Works on a scratch copy (/tmp/mut/rocq); appends one line per attempt to /verif/seeded/LOG.jsonl."""
import json, os, re, subprocess, sys
SRC='/verif/rocq'; DST='/tmp/mut/rocq'
def sh(c, **k): return subprocess.run(c, shell=True, capture_output=True, text=True, **k)
def enclosing(path, line):
    name='?'
    for i,l in enumerate(open(path),1):
        if i>line: break
        m=re.match(r'\s*(?:Local |Global |#\[.*?\] )*(?:Theorem|Lemma|Corollary|Example|Definition|Fixpoint|Instance|Remark|Fact)\s+([\w\']+)', l)
        if m: name=m.group(1)
    return name
def props_of(path):
    return re.findall(r'^Theorem\s+(C\d+\w*)', open(path).read(), re.M)
os.makedirs('/tmp/mut',exist_ok=True)
sh(f'rm -rf /tmp/mut/snap && cp -a {SRC} /tmp/mut/snap'); SRC='/tmp/mut/snap'
for mu in json.load(open(sys.argv[1])):
    sh(f'rm -rf {DST} && cp -a {SRC} {DST}')
    p=f'{DST}/theories/{mu["file"]}'; s=open(p).read()
    n=s.count(mu['old'])
    if n!=1: print('BAD MUTANT', n, mu['definition'], mu['old'][:60]); continue
    open(p,'w').write(s.replace(mu['old'],mu['new']))
    r=sh(f'cd {DST} && coq_makefile -f _CoqProject -o Makefile >/dev/null && timeout 420 make -k -j4 2>&1')
    out=r.stdout
    fails=[]
    for m in re.finditer(r'File "\./theories/(\w+)\.v", line (\d+), characters[^\n]*\n(Error|[^\n]*\n?Error)', out):
        fails.append((m.group(1), enclosing(f'{DST}/theories/{m.group(1)}.v', int(m.group(2)))))
    blocked=[]
    for f in sorted(os.listdir(f'{DST}/theories')):
        if f.endswith('Props.v') and (not os.path.exists(f'{DST}/theories/{f}o') or os.path.getmtime(f'{DST}/theories/{f}o') < os.path.getmtime(p)):
            v=f'{DST}/theories/{f}o'
            blocked+= props_of(f'{DST}/theories/{f}')
    ok = r.returncode==0
    # a Props file that rebuilt is newer than the mutated file; others are blocked or failed
    depend=[]
    failed_names=[f'{a}.{b}' for a,b in fails]
    if fails:
        # property files depending (transitively) on a failed file
        dep=sh(f'cd {DST} && coqdep -Q theories Verif theories/*.v').stdout
        g={}
        for l in dep.splitlines():
            a,b=l.split(':',1); t=[x for x in a.split() if x.endswith('.vo')]
            if t: g[os.path.basename(t[0])[:-3]]=[os.path.basename(x)[:-3] for x in b.split() if x.endswith('.vo')]
        ff={a for a,_ in fails}
        def reach(x,seen):
            if x in ff: return True
            if x in seen: return False
            seen.add(x); return any(reach(y,seen) for y in g.get(x,[]))
        for x in g:
            if x.endswith('Props') and reach(x,set()): depend+=props_of(f'{DST}/theories/{x}.v')
    print(('SURVIVED' if ok else 'killed'), mu['definition'], '|', mu['edit'], '|', failed_names)
    if not ok and not fails: print(out[-1500:])
    if '--dry' not in sys.argv:
        open('/verif/seeded/LOG.jsonl','a').write(json.dumps({'definition':mu['definition'],'file':mu['file'],'edit':mu['edit'],'claim_broken':mu['claim'],
          'failed':failed_names,'theorems_failed':[t for t in depend if t.startswith(tuple(mu.get('props',['C'])))],'survived':ok,'theorems_tightened':mu.get('tightened',[]),'note':mu.get('note','')})+'\n')
