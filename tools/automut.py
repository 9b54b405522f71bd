#!/usr/bin/env python3
"""Systematic wrong programs: small edits inside the definitions of one model
file, each rebuilt in a scratch copy.

automut.py FILE.v [-c COUNT] [-s SEED] [-d def1,def2] [-n]
Operators: + <-> -, * -> +, < <-> <=, && <-> ||, f0 <-> f1, literals, indices,
swapped arguments of fdiv and -, fsin <-> fcos, dropped negation, error codes.  Killed edits are logged in
seeded/LOG.jsonl with the property whose theorem failed; survivors are appended
to survivors.jsonl in the scratch directory (SEED_DIR) for inspection by hand."""
import json, os, re, subprocess, sys, shutil, random
ROOT='/verif/rocq'; D=os.environ.get('SEED_DIR','/tmp/seed'); S=D+'/rocq'
arg=sys.argv[1:]
def opt(k,d):
    return arg[arg.index(k)+1] if k in arg else d
fn=arg[0]; count=int(opt('-c','40')); seed=int(opt('-s','1')); only=opt('-d','')
only=set(only.split(',')) if only else None
dry='-n' in arg
OPS=[(r' \+ ',' - '),(r' - ',' + '),(r' \* ',' + '),(r'<\?','<=?'),(r'<=\?','<?'),(r'>\?','>=?'),(r'>=\?','>?'),
     (r'&&','||'),(r'\|\|','&&'),(r'\bf0\b','f1'),(r'\bf1\b','f0'),(r'\bfsin\b','fcos'),(r'\bfcos\b','fsin'),
     (r'flit 20 1','flit 10 1'),(r'flit 10 1','flit 20 1'),(r'flit 5 1','flit 10 1'),
     (r'fdiv \((.*?)\) \((.*?)\)',r'fdiv (\2) (\1)'),(r'fdiv (\w+) (\w+)\b',r'fdiv \2 \1'),
     (r'\((- EINVAL)\)%Z','0%Z'),(r'negb \(',r'('),(r'\b([qxyz]?)i q\b',r'qj q'),(r'\bqj (\w+)\b',r'qk \1'),(r'\bqk (\w+)\b',r'qi \1'),
     (r'(\brd \w+|\brd \(\w+ \w+\)) 0\b',r'\1 1'),(r'(\brd \w+|\brd \(\w+ \w+\)) 1\b',r'\1 2'),(r'(\brd \w+|\brd \(\w+ \w+\)) 2\b',r'\1 0'),
     (r'=\? 3\)%nat','=? 2)%nat'),(r'fabs \((\w[^()]*)\)',r'(\1)'),(r'fmul\b','fadd'),(r'fsub\b','fadd'),(r'\bi j\b','j i'),
     (r'\(- (\w+)\)',r'\1'),(r'\bS i\b','i'),(r'for_ \((\w+) - 1\)',r'for_ \1'),(r'mrows','mcols'),(r'mcols','mrows')]
src=open(ROOT+'/theories/'+fn).read()
defs=[m for m in re.finditer(r'^(?:Definition|Fixpoint)\s+([\w\']+)',src,re.M)]
def strip(s):   # blank comments, same length
    out=list(s); d=0; i=0
    while i<len(s):
        if s.startswith('(*',i): d+=1; out[i]=out[i+1]=' '; i+=2; continue
        if s.startswith('*)',i) and d: d-=1; out[i]=out[i+1]=' '; i+=2; continue
        if d and s[i]!='\n': out[i]=' '
        i+=1
    return ''.join(out)
clean=strip(src)
cands={}
for k,m in enumerate(defs):
    n=m.group(1)
    if only and n not in only: continue
    e=defs[k+1].start() if k+1<len(defs) else len(src)
    b=clean.find(':=',m.start(),e)
    if b<0: continue
    e2=clean.find('.\n\n',b,e); e2=e2 if e2>0 else e
    for o,r in OPS:
        for x in re.finditer(o,clean[b:e2]):
            new=x.expand(r)
            if new==x.group(0): continue
            cands.setdefault(n,[]).append((b+x.start(),b+x.end(),new))
random.seed(seed)
pick=[]; names=list(cands)
while len(pick)<count and names:
    for n in list(names):
        if not cands[n]: names.remove(n); continue
        pick.append((n,)+cands[n].pop(random.randrange(len(cands[n]))))
        if len(pick)>=count: break
print(sum(map(len,cands.values()))+len(pick),'candidates',len(pick),'picked',flush=True)
titles={}
for l in open('/verif/properties.jsonl'):
    d=json.loads(l); titles[d['id']]=d['title']
os.makedirs(D,exist_ok=True); shutil.rmtree(S,ignore_errors=True); shutil.copytree(ROOT,S)
subprocess.run('coq_makefile -f _CoqProject -o Makefile >/dev/null && make -j3 >/dev/null 2>&1',shell=True,cwd=S)
files=[l.strip() for l in open(S+'/_CoqProject') if l.strip().endswith('.v')]
item=re.compile(r'^\s*(?:#\[.*?\]\s*)?(?:Local |Global )?(Theorem|Lemma|Definition|Fixpoint|Example|Corollary|Instance|Record|Inductive|Class)\s+([\w\']+)',re.M)
def items(path):
    s=open(path).read(); ms=list(item.finditer(s))
    return [(m.group(2),s[m.start():(ms[i+1].start() if i+1<len(ms) else len(s))],s.count('\n',0,m.start())+1) for i,m in enumerate(ms)]
uses={}; home={}
for f in files:
    for n,t,_ in items(S+'/'+f): uses.setdefault(n,set()).update(re.findall(r"[\w']+",t)); home.setdefault(n,f)
def closure(failed):
    bad=set(failed); ch=True
    while ch:
        ch=False
        for n,u in uses.items():
            if n not in bad and u & bad: bad.add(n); ch=True
    return sorted(n for n in bad if re.match(r'C\d\d+_',n) and not n.endswith('_example'))
log='/verif/seeded/LOG.jsonl'
done=set()
if os.path.exists(log):
    for l in open(log):
        e=json.loads(l); done.add((e['definition'],e['edit']))
p=S+'/theories/'+fn
for n,a,b,new in pick:
    la=src.rfind('\n',0,a)+1; lb=src.find('\n',b)
    old=src[la:lb]; nw=src[la:a]+new+src[b:lb]
    sq=lambda s: re.sub(r'\s+',' ',s).strip()
    edit=sq(old)+'  ->  '+sq(nw)
    if (n,edit) in done: continue
    open(p,'w').write(src[:a]+new+src[b:])
    r=subprocess.run('timeout 1500 make -j3',shell=True,cwd=S,capture_output=True,text=True)
    out=r.stdout+r.stderr
    failed=[]
    for f,ln in re.findall(r'File "\./(theories/[\w]+\.v)", line (\d+), characters [^\n]*\n(?:Error|.*\nError)',out):
        c=[x for x,_,l in items(S+'/'+f) if l<=int(ln)]
        if c: failed.append((f,c[-1]))
    if any(f=='theories/'+fn for f,_ in failed):
        print('ILL',n,'|',edit[:100],flush=True); continue
    fl=[x for _,x in failed]
    thms=closure(fl) if fl else []
    if fl and all(x.endswith('_example') for x in fl) : thms=fl
    print('KILLED' if failed else 'SURVIVED',n,'|',edit[:150],'|',','.join(fl)[:80],'|',len(thms),flush=True)
    if failed and not dry:
        ids=[]
        for t in thms:
            i=t.split('_')[0]
            if i not in ids: ids.append(i)
        claim='; '.join('%s %s'%(i,titles.get(i,'')) for i in ids[:3])
        with open(log,'a') as h:
            h.write(json.dumps({"definition":n,"file":fn,"edit":edit,"claim_broken":claim,"lemmas_failed":fl,"theorems_failed":thms,"tightened":[]})+'\n')
    if not failed:
        with open(D+'/survivors.jsonl','a') as h:
            h.write(json.dumps({"definition":n,"file":fn,"edit":edit,"rc":r.returncode})+'\n')
open(p,'w').write(src)
