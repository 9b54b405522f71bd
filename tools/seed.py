#!/usr/bin/env python3
"""Run seeded wrong programs against the theorems.

seed.py MUTATIONS.json : copies /verif/rocq to /tmp/seed/rocq, applies one edit
at a time to the model there, rebuilds, and appends one line per edit to
/verif/seeded/LOG.jsonl (unless an entry with the same definition and edit is
already there).  A mutation is {"definition","file","old","new","claim"}.
"""
import json, os, re, subprocess, sys, shutil
ROOT='/verif/rocq'; D=os.environ.get('SEED_DIR','/tmp/seed'); S=D+'/rocq'
os.makedirs(D,exist_ok=True)
subprocess.run(['rsync','-a','--delete','--exclude','.*.aux',ROOT+'/',S+'/']) if shutil.which('rsync') else (shutil.rmtree(S,ignore_errors=True), shutil.copytree(ROOT,S))
subprocess.run('coq_makefile -f _CoqProject -o Makefile >/dev/null && make -j4 >/dev/null 2>&1',shell=True,cwd=S)
files=[l.strip() for l in open(S+'/_CoqProject') if l.strip().endswith('.v')]
item=re.compile(r'^\s*(?:#\[.*?\]\s*)?(?:Local |Global )?(Theorem|Lemma|Definition|Fixpoint|Example|Corollary|Instance|Record|Inductive|Class)\s+([\w\']+)',re.M)
def items(path):
    s=open(path).read(); ms=list(item.finditer(s))
    return [(m.group(2),s[m.start():(ms[i+1].start() if i+1<len(ms) else len(s))],s.count('\n',0,m.start())+1) for i,m in enumerate(ms)]
def closure(failed):
    uses={}
    for f in files:
        for n,t,_ in items(S+'/'+f): uses.setdefault(n,set()).update(re.findall(r"[\w']+",t))
    bad=set(failed); ch=True
    while ch:
        ch=False
        for n,u in uses.items():
            if n not in bad and u & bad: bad.add(n); ch=True
    return sorted(n for n in bad if re.match(r'C\d\d+_',n))
def main():
    muts=json.load(open(sys.argv[1])); log='/verif/seeded/LOG.jsonl'
    done=set()
    if os.path.exists(log):
        for l in open(log):
            e=json.loads(l); done.add((e['definition'],e['edit']))
    for m in muts:
        edit=m.get('edit') or (re.sub(r'\s+',' ',m['old'])+'  ->  '+re.sub(r'\s+',' ',m['new']))
        if (m['definition'],edit) in done: continue
        p=S+'/theories/'+m['file']; src=open(p).read()
        a=src.find(m.get('after','')); k=src.find(m['old'],max(a,0))
        if k<0: print('NOT FOUND',m['definition'],m['old']); continue
        open(p,'w').write(src[:k]+m['new']+src[k+len(m['old']):])
        r=subprocess.run('timeout 1500 make -k -j4',shell=True,cwd=S,capture_output=True,text=True)
        out=r.stdout+r.stderr
        failed=[]
        for f,ln in re.findall(r'File "\./(theories/[\w]+\.v)", line (\d+), characters [^\n]*\n(?:Error|.*\nError)',out):
            c=[n for n,_,l in items(S+'/'+f) if l<=int(ln)]
            if c: failed.append(c[-1])
        thms=closure(failed) if failed else []
        illtyped=m['definition'] in failed
        print(m['definition'],'|',edit[:90],'|', 'SURVIVED' if not failed else ('ILL-FORMED ' if illtyped else '')+','.join(failed)[:100],'|',len(thms),flush=True)
        if not illtyped and '-n' not in sys.argv and (failed or '-s' in sys.argv):
            with open(log,'a') as h:
                h.write(json.dumps({"definition":m['definition'],"file":m['file'],"edit":edit,"claim_broken":m['claim'],"lemmas_failed":failed,"theorems_failed":thms,"tightened":m.get('tightened',[])})+'\n')
        open(p,'w').write(src)
    subprocess.run('make -j4 >/dev/null 2>&1',shell=True,cwd=S)
main()
