"""Mutation testing of the model in a scratch copy.

usage: python3 tools/mutate.py OUT.jsonl File1 File2 ... [--per K] [--seed S] [--only NAME] [--ops2]
Generates small edits of the definitions in theories/File.v (comments excluded), rebuilds the
scratch copy /tmp/mut/work for each and records what happened.  Nothing in /verif is changed."""
import re, sys, os, subprocess, json, random, shutil, time

OPS = [
 (r'\bprec\b','succ'),(r'\bsucc\b','prec'),(r'\blprec\b','lsucc'),(r'\blsucc\b','lprec'),
 (r'\bev_prec\b','ev_succ'),(r'\bev_succ\b','ev_prec'),
 (r'\bset_prec\b','set_succ'),(r'\bset_succ\b','set_prec'),
 (r'\bset_lprec\b','set_lsucc'),(r'\bset_lsucc\b','set_lprec'),
 (r'\bPast\b','Future'),(r'\bFuture\b','Past'),(r'\bLinkPast\b','LinkFuture'),(r'\bLinkFuture\b','LinkPast'),
 (r'\bPastOf\b','FutureOf'),(r'\bFutureOf\b','PastOf'),
 ('∪','∩'),('∩','∪'),('∖','∪'),('∈','∉'),('∉','∈'),
 ('<=','<'),(r'(?<![<\w])<(?![=\-$])','<='),('≤','<'),('≥','>'),
 (r'&&','||'),(r'\|\|','&&'),(r'\btrue\b','false'),(r'\bfalse\b','true'),
 (r'\+ 1\b','+ 2'),(r'- 1\b','- 2'),(r'\+ 1\b','+ 0'),(r'- 1\b','- 0'),(r'\bS i\b','i'),
 (r'\bValueError\b','KeyError'),(r'\bnegb\b',''),('∧','∨'),('∨','∧'),
 (r'\bh1\b','h'),(r'\bh2\b','h1'),(r'\bh3\b','h2'),
 (r'(?<=\s)\+(?=\s)','-'),(r'(?<=\s)-(?=\s)','+'),(r'(?<=\s)\*(?=\s)','+'),
 (r'\b2\b','3'),(r'\b1\b','0'),(r'\b0\b','1'),
 (r'\bRmin\b','Rmax'),(r'\bRmax\b','Rmin'),(r'\bsin\b','cos'),(r'\bcos\b','sin'),(r'\bsinh\b','cosh'),
 (r'\bRabs\b',''),(r'\bxs\b','ys'),(r'\breverse\b',''),(r'\ba b\b','b a'),(r'\bx y\b','y x'),
]
# Further edits (--ops2): swapped pairs, dropped list items, changed texts, negated tests and
# swapped neighbouring variables.  Ill-typed results are detected quickly ("invalid").
OPS2 = [
 (r'\bfst\b','snd'),(r'\bsnd\b','fst'),(r'\btake\b','drop'),(r'\bdrop\b','take'),(r'\bhead\b','last'),
 (r'\bmin\b','max'),(r'\bmax\b','min'),(r'\bNone\b','(Some 0)'),(r'\bsqrt\b',''),(r'\bSome\b',''),
 (r'\+\+ \[\w+\]','++ []'),(r'\b\w+ :: (?=\w)',''),(r'\bupd \([^()]*\) \w+ (\w+)',r'\1'),
 (r'\b[A-Z]\w*Error\b','RuntimeError'),(r'\bfilter\b','(λ _ l, l)'),(r'\bseq 0\b','seq 1'),(r'\bS (\w+)\b',r'\1'),
 (r'/ 2\b','/ 1'),(r'\* 2\b','* 1'),(r'\b3\b','4'),(r'\b10\b','11'),(r'\bIZR\b','-IZR'),(r'-(?=[a-z(])',''),
]
TOKSWAP=re.compile(r"(?<=[\s(])([a-z]\w*'?) ([a-z]\w*'?)(?=[\s),;])")
KW={'in','then','else','with','end','match','let','if','fun','return','as','is','decide','at'}
BASE='/tmp/mut/base'; WORK='/tmp/mut/work'

def comment_mask(s):
    m=[False]*len(s); d=0; i=0
    while i<len(s):
        if s.startswith('(*',i): d+=1; m[i]=m[i+1]=True; i+=2; continue
        if s.startswith('*)',i) and d: m[i]=m[i+1]=True; d-=1; i+=2; continue
        if d: m[i]=True
        i+=1
    return m
def defs(s,mask):
    out=[]
    for x in re.finditer(r'^(?:#\[[^\]]*\]\s*)?(Definition|Fixpoint|Record|Inductive|Lemma|Theorem|Instance|Section|Context|End|From|Notation|Example|Global|Local|Open|#\[)\b\s*([\w\']*)',s,re.M):
        if not mask[x.start()]: out.append((x.start(),x.group(1),x.group(2)))
    return out
def paren(s,i):
    d=0
    for k in range(i,len(s)):
        d+=(s[k]=='(')-(s[k]==')')
        if d==0: return k
    return -1
def mutants(fn,per,rng,only,ops2=False):
    s=open(f'{BASE}/theories/{fn}.v').read(); mask=comment_mask(s); ds=defs(s,mask); res=[]
    for k,(a,kind,name) in enumerate(ds):
        if kind not in('Definition','Fixpoint'): continue
        if only and name not in only: continue
        b=ds[k+1][0] if k+1<len(ds) else len(s)
        body=s.find(':=',a)
        if body<0 or body>b: continue
        c=[]
        for pat,rep in (OPS2 if ops2 else OPS):
            for x in re.finditer(pat,s[body+2:b]):
                p=body+2+x.start()
                if mask[p] or s[p]=='\n': continue
                if s.rfind('"',0,p)>s.rfind('\n',0,p) and s[s.rfind('\n',0,p):p].count('"')%2: continue
                c.append((p,x.group(0),x.expand(rep)))
        if ops2:
            for x in re.finditer(r'\bdecide \(',s[body+2:b]):
                p=body+2+x.start(); q=paren(s,p+7)
                if q>0 and not mask[p]: c.append((p,s[p:q+1],'decide (¬ '+s[p+7:q+1]+')'))
            for x in TOKSWAP.finditer(s[body+2:b]):
                p=body+2+x.start()
                if mask[p] or x.group(1) in KW or x.group(2) in KW or s[p-1]=='(' or 'h' in (x.group(1),x.group(2)) or len(x.group(1))>3 or len(x.group(2))>3: continue
                c.append((p,x.group(0),x.group(2)+' '+x.group(1)))
            for x in re.finditer(r'"(\w+)"',s[body+2:b]):
                p=body+2+x.start()
                if not mask[p]: c.append((p,x.group(0),'"'+x.group(1)+'x"'))
        rng.shuffle(c)
        for (p,o,r) in c[:(6*per if ops2 else per)]:
            line=s.count('\n',0,p)+1
            new=s[:p]+r+s[p+len(o):]
            ol=s.split('\n')[line-1].strip(); nl=new.split('\n')[line-1].strip()
            res.append(dict(file=fn,definition=name,line=line,edit=f'{ol}  ==>  {nl}',new=new))
    return res
def enclosing(fn,line):
    L=open(f'{WORK}/theories/{fn}.v').read().split('\n')
    for i in range(min(line,len(L))-1,-1,-1):
        x=re.match(r'\s*(?:#\[[^\]]*\]\s*)?(?:Local |Global )?(Lemma|Theorem|Example|Definition|Fixpoint|Corollary|Instance|Fact)\s+([\w\']+)',L[i])
        if x: return x.group(2)
    return None
def run(m,timeout):
    shutil.rmtree(WORK,ignore_errors=True); subprocess.run(['cp','-a',BASE,WORK],check=True)
    open(f"{WORK}/theories/{m['file']}.v",'w').write(m['new'])
    t=time.time()
    p=subprocess.Popen(['make','-j2'],cwd=WORK,stdout=subprocess.PIPE,stderr=subprocess.STDOUT,text=True,start_new_session=True)
    try: out,_=p.communicate(timeout=timeout); rc=p.returncode
    except subprocess.TimeoutExpired:
        os.killpg(p.pid,9); p.communicate()
        return 'timeout',[],time.time()-t
    if rc==0: return 'survived',[],time.time()-t
    errs=[]
    for x in re.finditer(r'File "\./theories/(\w+)\.v", line (\d+)[^\n]*\n(?:[^\n]*\n)?Error',out):
        errs.append((x.group(1),enclosing(x.group(1),int(x.group(2)))))
    if any(f==m['file'] for f,_ in errs): return 'invalid',errs,time.time()-t
    return 'killed',errs,time.time()-t
def main():
    args=sys.argv[1:]; out=args[0]; per=3; seed=1; only=None; files=[]; i=1; ops2=False; want=None
    while i<len(args):
        if args[i]=='--ops2': ops2=True; i+=1
        elif args[i]=='--per': per=int(args[i+1]); i+=2
        elif args[i]=='--seed': seed=int(args[i+1]); i+=2
        elif args[i]=='--only': only=args[i+1].split(','); i+=2
        else: files.append(args[i]); i+=1
    rng=random.Random(seed); done=set()
    if os.path.exists(out):
        for l in open(out): d=json.loads(l); done.add((d['definition'],d['edit']))
    for fn in files:
        valid={}
        for m in mutants(fn,per,rng,only,ops2):
            if valid.get(m['definition'],0)>=per: continue
            if (m['definition'],m['edit']) in done: continue
            st,errs,t=run(m,1500)
            if st!='invalid': valid[m['definition']]=valid.get(m['definition'],0)+1
            d=dict(file=m['file'],definition=m['definition'],line=m['line'],edit=m['edit'],status=st,failed=[f'{f}.{n}' for f,n in errs],secs=round(t))
            open(out,'a').write(json.dumps(d,ensure_ascii=False)+'\n')
if __name__=='__main__': main()
