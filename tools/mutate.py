#!/usr/bin/env python3
"""Seeded-bug runner.  usage: mutate.py mutants.json
Each mutant: {"file": "Container/VectorModel.v", "def": "...", "old": "...", "new": "...", "edit": "...", "claim": "C01 ..."}
Works in a scratch copy (/tmp/mut/w); appends one line per mutant to seeded/LOG.jsonl."""
import sys, json, subprocess, shutil, os, re, glob
W='/tmp/mut/w'
def sh(c): return subprocess.run(c, shell=True, capture_output=True, text=True)
os.makedirs('/tmp/mut', exist_ok=True)
sh(f'rm -rf {W}; cp -a /verif/rocq {W}; cd {W} && coq_makefile -f _CoqProject -o Makefile && make -j4; rm -rf {W}0; cp -a {W} {W}0')
ms=json.load(open(sys.argv[1]))
for m in ms:   # check all edits first
    src=open(f'{W}/theories/{m["file"]}').read(); i=0
    if m['def']: i=re.search(r'(Definition|Fixpoint|Inductive|Record)\s+'+re.escape(m['def'])+r'\b', src).start()
    assert src.find(m['old'], i)>=0, ('not found', m)
for m in ms:
    f=f'{W}/theories/{m["file"]}'
    src=open(f).read()
    # restrict the edit to the definition named
    if m['def']:
        mm=re.search(r'(Definition|Fixpoint|Inductive|Record)\s+'+re.escape(m['def'])+r'\b', src)
        assert mm, m
        i=mm.start()
    else: i=0
    j=src.find(m['old'], i)
    assert j>=0, ('not found', m)
    new=src[:j]+m['new']+src[j+len(m['old']):]
    open(f,'w').write(new)
    r=sh(f'cd {W} && timeout 1500 make -k -j3 2>&1')
    fails=[]
    for mt in re.finditer(r'File "\./(theories/[^"]+)", line (\d+)', r.stdout):
        fn,ln=mt.group(1),int(mt.group(2))
        lines=open(f'{W}/{fn}').read().split('\n')[:ln]
        name='?'
        for l in reversed(lines):
            q=re.match(r'\s*(?:Theorem|Lemma|Corollary|Example|Definition|Fixpoint)\s+(\w+)',l)
            if q: name=q.group(1); break
        fails.append(f'{os.path.basename(fn)}:{name}')
    props=[]
    for pf in sorted(glob.glob(f'{W}/theories/Props/*.v')):
        vo=pf+'o'
        if not os.path.exists(vo) or sh(f'cd {W} && make -q {pf[len(W)+1:]}o').returncode!=0:
            props += re.findall(r'^(?:Theorem)\s+(c\d\d\w+)', open(pf).read(), re.M) if not any(os.path.basename(pf) in x for x in fails) else [x.split(':')[1]+' (and later ones in '+os.path.basename(pf)+')' for x in fails if os.path.basename(pf) in x]
    if any('Model.v:' in x for x in fails):
        print('INVALID', m['def'], m['claim'], fails[:3], r.stdout[-600:], flush=True)
        sh(f'rm -rf {W}; cp -a {W}0 {W}'); continue
    entry={"definition":m['file']+': '+m['def'],"edit":m.get('edit') or f"{m['old']!r} -> {m['new']!r}","claim_broken":m['claim'],
           "first_proof_failures":fails,"theorems_failed":props,"theorems_tightened":m.get('tightened',[]),"killed":bool(fails)}
    if m.get('note'): entry['note']=m['note']
    print(('KILLED ' if fails else 'SURVIVED ')+m['def'], m['claim'], fails[:3], len(props), flush=True)
    if not (len(sys.argv)>2 and sys.argv[2]=='dry'):
        open('/verif/seeded/LOG.jsonl','a').write(json.dumps(entry)+'\n')
    # restore the compiled state, time stamps included
    sh(f'rm -rf {W}; cp -a {W}0 {W}')
