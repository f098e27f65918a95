#!/usr/bin/env python3
"""Systematic seeded bugs.  usage: automut.py SEED COUNT_PER_FILE WORKERS [files...]
Applies small textual operators (negated test, boundary, dropped update, exchanged constructor, dropped event, constant) at random places of
the definitions in the model files, in scratch copies, and rebuilds what depends on them up to the first failure.
Appends one line per well-typed mutant to seeded/LOG.jsonl; survivors are printed for inspection."""
import sys, json, subprocess, os, re, glob, random, threading, queue
B='/tmp/mut/base'
def sh(c): return subprocess.run(c, shell=True, capture_output=True, text=True)
T='/verif/rocq/theories/'
seed=int(sys.argv[1]); per=int(sys.argv[2]); nw=int(sys.argv[3])
files=[a for a in sys.argv[4:] if not a.startswith('--')] or [f[len(T):] for f in sorted(glob.glob(T+'*/*Model.v'))+[T+'OS/ThreadPoolCreate.v',T+'OS/MessageQueueCreate.v']]
random.seed(seed)
def blank(s):          # comments -> spaces, same length
    out=list(s); d=0; i=0
    while i<len(s):
        if s.startswith('(*',i): d+=1; out[i]=out[i+1]=' '; i+=2; continue
        if s.startswith('*)',i) and d: d-=1; out[i]=out[i+1]=' '; i+=2; continue
        if d and s[i]!='\n': out[i]=' '
        i+=1
    return ''.join(out)
# inductive types and their constructors (by argument text)
sib={}
for f in glob.glob(T+'*/*.v'):
    s=blank(open(f).read())
    for m in re.finditer(r'Inductive\s+(\w+)[^:=]*:=(.*?)\.\s', s, re.S):
        if ':' in re.sub(r'\([^()]*\)','',m.group(2)): continue
        cs=[c.strip() for c in m.group(2).split('|') if c.strip()]
        by={}
        for c in cs:
            n=c.split()[0]; ty=tuple(re.findall(r':\s*([^()]*)\)',c)) if '(' in c else ()
            k=tuple(x for g in re.findall(r'\(([^()]*)\)',c) for x in [g.split(':')[-1].strip()]*len(g.split(':')[0].split()))
            by.setdefault(k,[]).append(n)
        for k,v in by.items():
            for n in v:
                o=[x for x in v if x!=n]
                if o: sib.setdefault(n,[]).extend(o)
defre=re.compile(r'^\s*(?:Definition|Fixpoint)\s+(\w+)',re.M)
def mutants(f):
    src=open(T+f).read(); b=blank(src); out=[]
    ds=[(m.start(),m.group(1)) for m in defre.finditer(b)]
    ends=[m.start() for m in re.finditer(r'^\s*(?:Definition|Fixpoint|Inductive|Record|Lemma|Theorem|Example|Section|End|Notation|Variable|Context|Proof)\b',b,re.M)]+[len(b)]
    for st,name in ds:
        if re.search(r'(idle|stuck|own_step|_ok|inv|_init)$',name): continue
        en=min(e for e in ends if e>st)
        body0=b.find(':=',st,en)
        if body0<0: continue
        def add(i,j,new,what): out.append((f,name,i,j,new,what))
        seg=b[body0:en]
        for m in re.finditer(r'\btrue\b',seg): add(body0+m.start(),body0+m.end(),'false','true -> false')
        for m in re.finditer(r'\bfalse\b',seg): add(body0+m.start(),body0+m.end(),'true','false -> true')
        for m in re.finditer(r'<=\?',seg): add(body0+m.start(),body0+m.end(),'<?','<= -> <')
        for m in re.finditer(r'<\?',seg): add(body0+m.start(),body0+m.end(),'<=?','< -> <=')
        for m in re.finditer(r'&&',seg): add(body0+m.start(),body0+m.end(),'||','and -> or')
        for m in re.finditer(r'\|\|',seg): add(body0+m.start(),body0+m.end(),'&&','or -> and')
        for m in re.finditer(r'\bnegb\b',seg): add(body0+m.start(),body0+m.end(),'','negation dropped')
        for m in re.finditer(r'([-+]) 1\b',seg): add(body0+m.start(),body0+m.end(),'','%s 1 dropped'%m.group(1)); 
        for m in re.finditer(r' \+ ',seg): add(body0+m.start(),body0+m.end(),' - ','+ -> -')
        for m in re.finditer(r' - ',seg): add(body0+m.start(),body0+m.end(),' + ','- -> +')
        for m in re.finditer(r'\bif (.*?) then\b',seg,re.S):
            if len(m.group(1))<120: add(body0+m.start(1),body0+m.end(1),'negb (%s)'%m.group(1),'test negated')
        for m in re.finditer(r'\bfupd \((\w+ \w+)\) (\w+|\([^()]*\)) (\w+|\((?:[^()]|\([^()]*\))*\))',seg):
            add(body0+m.start(),body0+m.end(),m.group(1),'update dropped')
        for m in re.finditer(r'\[(Eff|Ret|Call) [^\[\]]*\]',seg): add(body0+m.start(),body0+m.end(),'[]','events dropped')
        for m in re.finditer(r'\b0\b',seg): add(body0+m.start(),body0+m.end(),'1','0 -> 1')
        for m in re.finditer(r'\b1\b',seg): add(body0+m.start(),body0+m.end(),'0','1 -> 0')
        for m in re.finditer(r'\b([A-Z]\w*)\b',seg):
            n=m.group(1)
            if n in sib:
                # only in results, not in patterns: the last '=>' or '|' before decides
                pre=seg[:m.start()]; k=max(pre.rfind('=>'),pre.rfind(':='),pre.rfind('then'),pre.rfind('else')); q=max(pre.rfind('\n  |'),pre.rfind(' | '))
                if k>q: add(body0+m.start(),body0+m.end(),random.choice(sib[n]),'constructor %s exchanged'%n)
    return src,out
done=set()
for l in open('/verif/seeded/LOG.jsonl'):
    d=json.loads(l)
    if 'auto' in d: done.add((d['definition'],d['auto']))
jobs=[]
for f in files:
    src,ms=mutants(f); random.shuffle(ms); k=0
    for (ff,name,i,j,new,what) in ms:
        ln=src.count('\n',0,i)+1; col=i-src.rfind('\n',0,i)
        key=(f+': '+name,'%d:%d %s'%(ln,col,what))
        if key in done: continue
        jobs.append((f,name,i,j,new,what,key[1])); k+=1
        if k>=per: break
if '--list' in sys.argv or per==0: print(len(jobs)); sys.exit()
random.shuffle(jobs)
sh(f'rm -rf {B}; cp -a /verif/rocq {B}; cd {B} && coq_makefile -f _CoqProject -o Makefile && make -j3')
deps={}
for l in sh(f'cd {B} && coqdep -f _CoqProject').stdout.split('\n'):
    if ':' in l:
        a,c=l.split(':',1)
        t=[x[:-1] for x in a.split() if x.endswith('.vo')]
        if t: deps[t[0]]=[x[:-1] for x in c.split() if x.endswith('.vo')]
def dependents(fn):
    r={fn}; ch=True
    while ch:
        ch=False
        for a,c in deps.items():
            if a not in r and any(x in r for x in c): r.add(a); ch=True
    return r
allfiles=[l.strip() for l in open(B+'/_CoqProject') if l.strip().endswith('.v')]
q=queue.Queue()
for x in jobs: q.put(x)
lk=threading.Lock(); cnt={'KILLED':0,'SURVIVED':0,'INVALID':0}
def work(w):
    W=f'/tmp/mut/a{w}'
    sh(f'rm -rf {W}; cp -a {B} {W}')
    while True:
        try: f,name,i,j,new,what,key=q.get_nowait()
        except queue.Empty: return
        p=f'{W}/theories/{f}'; src=open(p).read()
        open(p,'w').write(src[:i]+new+src[j:])
        r=sh(f'cd {W} && timeout 1500 make 2>&1')
        mt=re.search(r'File "\./(theories/[^"]+)", line (\d+)',r.stdout)
        ln=src.count('\n',0,i); line=src.split('\n')[ln].strip()
        if not mt and r.returncode==0: st='SURVIVED'; fail=[]; props=[]
        elif not mt: st='KILLED'; fail=['?'+r.stdout[-200:]]; props=[]
        else:
            fn,l2=mt.group(1),int(mt.group(2))
            if fn=='theories/'+f or fn.endswith('Model.v') and not fn.endswith('Proofs.v'): st='INVALID'
            else: st='KILLED'
            nm='?'
            for l in reversed(open(f'{W}/{fn}').read().split('\n')[:l2]):
                qq=re.match(r'\s*(?:Theorem|Lemma|Corollary|Example|Definition|Fixpoint)\s+(\w+)',l)
                if qq: nm=qq.group(1); break
            fail=[os.path.basename(fn)+':'+nm]; props=[]
            for d in dependents(fn):
                if '/Props/' in d:
                    t=open(f'{W}/{d}').read()
                    props+=re.findall(r'^Theorem\s+(c\d\d\w+)',t,re.M)
        props=sorted(set(props))
        if len(props)>6: props=props[:6]+['and %d more'%(len(props)-6)]
        with lk:
            cnt[st]+=1
            print(st,f,name,key,'|',line[:150],'|',repr(src[i:j][:60]),'->',repr(new[:60]),fail,flush=True)
            if st!='INVALID':
                e={"definition":f+': '+name,"edit":f"{what} at: {line[:160]}","claim_broken":"generated edit","first_proof_failures":fail,"theorems_failed":props,"theorems_tightened":[],"killed":st=='KILLED',"auto":key}
                open('/verif/seeded/LOG.jsonl','a').write(json.dumps(e)+'\n')
        sh(f'rm -rf {W}; cp -a {B} {W}')
ts=[threading.Thread(target=work,args=(w,)) for w in range(nw)]
[t.start() for t in ts]; [t.join() for t in ts]
print(cnt)
