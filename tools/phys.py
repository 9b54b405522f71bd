#!/usr/bin/env python3
"""Transcribe the straight-line functions of /repo/src/physics into Gallina.

Usage: phys.py > ../rocq/theories/MPhys.v
Functions with loops, calls or several outputs are written by hand (MANUAL,
MPhysVec.v).  The output is meant to be read against the C text."""
import re, os
SRC='/repo/src/physics'
FILES=['kinematics','projectiles','momentum','energy','work','dynamics','rotation','gravitation','fluids',
       'gases','thermo','sound','optics','photons','atomic','electric','electricity','eleccomp','magnetics']
MANUAL={'zsl_phy_kin_init_pos','zsl_phy_kin_time','zsl_phy_rot_time','zsl_phy_proj_trajectory','zsl_phy_proj_range',
        'zsl_phy_opt_snell','zsl_phy_work_x','zsl_phy_work_y','zsl_phy_proj_init_vel','zsl_phy_proj_angle',
        'zsl_phy_elcty_res_series','zsl_phy_elcty_res_parallel','zsl_phy_elcty_cap_series','zsl_phy_elcty_cap_parallel',
        'zsl_phy_thermo_fahren_cels','zsl_phy_thermo_cels_kel'}
CONST={}
for l in open('/repo/include/zsl/consts.h'):
    m=re.match(r'#define\s+(ZSL_\w+)\s+\(?\s*\(?([-0-9.Ee]+)',l.replace('(zsl_real_t)',''))
    if m: CONST[m.group(1)]=m.group(2)
def lit(s):
    s=s.upper()
    m=re.match(r'^(\d*)\.?(\d*)(?:E([-+]?\d+))?$',s)
    d=m.group(1)+m.group(2); e=len(m.group(2))-int(m.group(3) or 0)
    d=d.lstrip('0') or '0'
    if e<0: d+='0'*(-e); e=0
    if d=='0': return 'f0'
    return 'flit %s %d'%(d,e)
TOK=re.compile(r'\s*(\d+\.?\d*(?:[Ee][-+]?\d+)?|\.\d+|\(zsl_real_t\)|[A-Za-z_]\w*|<=|>=|==|!=|\|\||&&|[-+*/()<>,])')
def tokens(s):
    out=[];i=0
    while i<len(s.rstrip()):
        m=TOK.match(s,i)
        if not m: raise Exception('tok '+s[i:])
        out.append(m.group(1)); i=m.end()
    return out
ATOM,MUL,ADD=3,2,1
class P:
    def __init__(self,s,ren,u8,fresh,outp=None):
        self.t=tokens(s);self.i=0;self.b=[];self.ren=ren;self.u8=u8;self.fresh=fresh
    def pk(self): return self.t[self.i] if self.i<len(self.t) else None
    def nx(self): self.i+=1; return self.t[self.i-1]
    def par(self,e,p):
        s,q=e
        return s if q>=p else '(%s)'%s
    def bind(self,rhs):
        n='r%d'%self.fresh[0]; self.fresh[0]+=1
        self.b.append((n,rhs)); return (n,ATOM)
    def add(self):
        l=self.mul()
        while self.pk() in ('+','-'):
            o=self.nx(); r=self.mul()
            l=('%s %s %s'%(self.par(l,ADD),o,self.par(r,MUL)),ADD)
        return l
    def mul(self):
        l=self.un()
        while self.pk() in ('*','/'):
            o=self.nx(); r=self.un()
            if o=='*': l=('%s * %s'%(self.par(l,MUL),self.par(r,ATOM)),MUL)
            else: l=self.bind('fdiv %s %s'%(self.par(l,ATOM),self.par(r,ATOM)))
        return l
    def un(self):
        t=self.pk()
        if t=='-':
            self.nx(); e=self.un(); return ('(- %s)'%self.par(e,ATOM),ATOM)
        if t=='(zsl_real_t)':
            self.nx(); v=self.nx(); assert v in self.u8,v; return ('(fofZ %s)'%v,ATOM)
        if t=='(':
            self.nx(); e=self.add(); assert self.nx()==')'; return ('(%s)'%e[0],ATOM) if e[1]<ATOM else e
        if t=='*':  # dereference of the output
            self.nx(); return (self.ren['*'+self.nx()],ATOM)
        self.nx()
        if re.match(r'[\d.]',t):
            if re.fullmatch(r'\d+',t): return ('f0',ATOM) if t=='0' else ('(fofZ %s)'%t,ATOM)
            l=lit(t); return (l,ATOM) if l=='f0' else ('(%s)'%l,ATOM)
        if t in CONST: return ('(%s)'%lit(CONST[t]),ATOM)
        if self.pk()=='(':
            self.nx(); a=[self.add()]
            while self.pk()==',': self.nx(); a.append(self.add())
            assert self.nx()==')'
            a=[self.par(x,ATOM) for x in a]
            pure={'ZSL_SIN':'fsin','ZSL_COS':'fcos','ZSL_ATAN':'fatan','ZSL_EXP':'fexp','ZSL_ABS':'fabs','sin':'fsin'}
            mon={'ZSL_SQRT':'fsqrt','ZSL_POW':'fpow','ZSL_ASIN':'fasin','ZSL_LOG10':'flog10'}
            if t in pure: return ('(%s %s)'%(pure[t],' '.join(a)),ATOM)
            return self.bind('%s %s'%(mon[t],' '.join(a)))
        return (self.ren.get(t,t),ATOM)
def cond(s,ren,u8,fresh):
    out=[]
    for part in s.split('||'):
        m=re.match(r'^(.*?)(<=|>=|==|<|>)(.*)$',part.strip(),re.S)
        a,o,b=m.group(1),m.group(2),m.group(3)
        if a.strip() in u8: out.append('(%s =? 0)%%Z'%a.strip()); assert o=='==' and b.strip()=='0'; continue
        p=P(a,ren,u8,fresh); x=p.add(); q=P(b,ren,u8,fresh); y=q.add(); assert not p.b and not q.b,part
        op={'==':'=?','<':'<?','>':'>?','<=':'<=?','>=':'>=?'}[o]
        out.append('(%s %s %s)'%(p.par(x,ADD),op,p.par(y,ADD)))
    return ' || '.join(out) if len(out)>1 else out[0][1:-1] if out[0].endswith(')') else out[0]
RES={'of':'of_','at':'at_','in':'in_','fix':'fix_'}
def funcs(f):
    L=open(f'{SRC}/{f}.c').read()
    for m in re.finditer(r'^int\s+(zsl_phy_\w+)\(([^)]*)\)\s*\n\{(.*?)^\}',L,re.M|re.S):
        a=L[:m.start()].count('\n')+1; b=L[:m.end()].count('\n')+1
        yield m.group(1),m.group(2),m.group(3),a,b
def short(n): return n[len('zsl_phy_'):]
def trans(f,name,args,body,a,b):
    args=[x.strip() for x in args.replace('\n',' ').split(',')]
    body=re.sub(r'/\*.*?\*/','',body,flags=re.S)
    body=re.sub(r'#ifdef CONFIG_ZSL_SINGLE_PRECISION.*?#else(.*?)#endif',r'\1',body,flags=re.S)
    ins=[];outs=[];u8=set()
    for x in args:
        m=re.match(r'(\w+)\s+(\*?)(\w+)$',x); assert m,x
        if m.group(2): outs.append(m.group(3))
        elif m.group(1)=='uint8_t': ins.append((m.group(3),'Z')); u8.add(m.group(3))
        else: assert m.group(1)=='zsl_real_t',x; ins.append((m.group(3),'T'))
    assert len(outs)==1,name
    ren={n:RES.get(n,n) for n,_ in ins}
    o=outs[0]; fresh=[1]; lines=[]; ind='  '
    stm=re.findall(r'if \((.*?)\) \{(.*?)\}|([^;{}]+);',body,re.S)
    for c,blk,st in stm:
        if c:
            k=re.sub(r'\s+',' ',blk).strip()
            assert k=='*%s = NAN; return -EINVAL;'%o,(name,k)
            c=re.sub(r'\s+',' ',c)
            lines.append(ind+'if %s then Ok ((- EINVAL)%%Z, NaN)'%cond(c,ren,u8,fresh))
            lines.append(ind+'else'); ind+='  '
            continue
        st=re.sub(r'\s+',' ',st).strip()
        if st=='return 0':
            lines.append(ind+'Ok (0%%Z, Set_ %s)'%ren['*'+o]); break
        m=re.match(r'^(\*?)(?:zsl_real_t )?(\w+) (\*?)= (.*)$',st); assert m,(name,st)
        deref,v,op,e=m.groups()
        p=P(e,ren,u8,fresh); x=p.add(); assert p.pk() is None,(name,e,p.t[p.i:])
        for n,r in p.b: lines.append(ind+'let! %s := %s in'%(n,r))
        if deref: key='*'+v; nn='res'
        else: key=v; nn=RES.get(v,v)
        val=x[0] if x[1]<ATOM else (x[0][1:-1] if x[0].startswith('(') and x[0].endswith(')') else x[0])
        if op=='*': val='%s * %s'%(ren[key],p.par(x,ATOM))
        lines.append(ind+'let %s := %s in'%(nn,val)); ren[key]=nn
    # fold a final "let res := e in Ok (0, Set_ res)"
    sig=' '.join('(%s : %s)'%(' '.join(RES.get(n,n) for n,t in ins if t==tt),tt) for tt in dict.fromkeys(t for _,t in ins)) if len({t for _,t in ins})==1 \
        else ' '.join('(%s : %s)'%(RES.get(n,n),t) for n,t in ins)
    note='.  uint8_t arguments are integers 0..255' if u8 else ''
    print('(** %s, src/physics/%s.c:%d-%d%s *)'%(name,f,a,b,note))
    print('Definition %s %s : outcome (Z * out T) :=\n%s.\n'%(short(name),sig,'\n'.join(lines)))
if __name__=='__main__':
    print('''(** Model of the straight-line functions of src/physics: a guard that assigns
    NAN and answers -EINVAL, or a formula.  Written with tools/phys.py; the
    functions with loops or several outputs are in MPhysVec.v. *)
From Coq Require Import ZArith Bool.
From Verif Require Import Base Libm Out.
Set Implicit Arguments.
Local Open Scope num_scope.

Section Phys.
Context {T : Type} {N : Num T} {M : NumM T}.
''')
    for f in FILES:
        print('(** ** src/physics/%s.c *)\n'%f)
        for n,args,body,a,b in funcs(f):
            if n in MANUAL: continue
            trans(f,n,args,body,a,b)
    print('End Phys.')
