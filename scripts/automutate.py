#!/usr/bin/env python3
"""Random small edits of model definitions that no hand-written mutation touches.
usage: automutate.py seed per_definition workers [File.v ...]
Each edit is built in a scratch copy; edits that do not type-check in the model file are discarded.
Results go to /tmp/auto/results.jsonl; survivors are read by hand."""
import json,sys,os,subprocess,re,shutil,glob,random,threading,queue
V='/verif'; seed=int(sys.argv[1]); per=int(sys.argv[2]); W=int(sys.argv[3]); only=sys.argv[4:]
random.seed(seed)
OPS=[(r'<\?','<=?'),(r'<=\?','<?'),(r'(?<![<>=])=\?','<=?'),(r'\+ 1\b','+ 2'),(r'\+ 1\b','+ 0'),(r'- 1\b','- 0'),(r'- 1\b','- 2'),
     (r'\btrue\b','false'),(r'\bfalse\b','true'),(r'&&','||'),(r'\|\|','&&'),(r'\bnegb ',' '),(r'(?<![\w.])0(?![\w.])','1'),(r'(?<![\w.])1(?![\w.])','2'),
     (r'(?<![\w.])2(?![\w.])','3'),(r'\bfirstn\b','skipn'),(r'\bskipn\b','firstn'),(r' \+ ',' - '),(r' - ',' + '),(r' \* ',' + '),
     (r'\bfst\b','snd'),(r'\bsnd\b','fst'),(r'\bNone\b','(Some 0)'),(r'\brev ',''),(r'Nat\.eqb','Nat.leb'),(r'Z\.max','Z.min'),(r'Z\.min','Z.max'),
     (r'(\w+) :: (\w+)',r'\2'),(r'\[(\w+)\]','[]'),(r'(\w+) \+\+ (\w+)',r'\2 ++ \1'),(r'(\w+) \+\+ (\w+)',r'\1'),
     (r'if ([^?]{3,40}?) then',r'if negb (\1) then'),(r'\bS (\w)\b',r'\1'),(r'(?<![\w.])(\d\d+)(?![\w.])',lambda m:str(int(m.group(1))+1)),
     (r'\bremovelast\b','(fun x => x)'),(r'>=\?','>?'),(r'Z\.lor','Z.land'),(r'Z\.land','Z.lor'),(r'shiftl','shiftr'),(r'shiftr','shiftl')]
def nocomment(t):
    out=list(t); d=0; i=0
    while i<len(t):
        if t[i:i+2]=='(*': d+=1; out[i]=out[i+1]=' '; i+=2; continue
        if t[i:i+2]=='*)' and d: d-=1; out[i]=out[i+1]=' '; i+=2; continue
        if d and t[i]!='\n': out[i]=' '
        i+=1
    return ''.join(out)
jobs=[]
seen={(r['file'],r['definition']) for r in map(json.loads,open('/tmp/auto/results.jsonl'))} if os.path.exists('/tmp/auto/results.jsonl') else set()
for p in sorted(glob.glob(V+'/rocq/theories/*Model*.v')):
    b=os.path.basename(p)
    if b in ('HeadersModel.v','FnNestModel.v') or (only and b not in only): continue
    t=open(p).read(); c=nocomment(t)
    ds=[(m.start(),m.group(2)) for m in re.finditer(r'^\s*(Definition|Fixpoint|Function|Inductive|CoInductive|Record|Lemma|Theorem|Section|End|Variable|Notation|Example|Variant|Instance|Ltac|Arguments|Context)\s+(\w+)',c,re.M)]
    ends=[d[0] for d in ds[1:]]+[len(t)]
    for (s,n),e in zip(ds,ends):
        if not re.match(r'\s*(Definition|Fixpoint|Function)',c[s:e]): continue
        if (b,n) in seen: continue
        a=c.find(':=',s,e)
        if a<0: continue
        cand=[]
        for pat,rep in OPS:
            for m in re.finditer(pat,c[a+2:e]):
                new=m.expand(rep) if isinstance(rep,str) else rep(m)
                cand.append((a+2+m.start(),a+2+m.end(),new))
        random.shuffle(cand)
        if cand: jobs.append((b,n,cand[:8]))
q=queue.Queue(); [q.put(j) for j in jobs]
print(len(jobs),'definitions',flush=True)
lock=threading.Lock()
def worker(k):
    S='/tmp/auto/w%d'%k
    if os.path.exists(S): shutil.rmtree(S)
    subprocess.run(['cp','-a',V+'/rocq',S])
    def sh(cmd,t=1500):
        try: return subprocess.run('timeout %d %s'%(t,cmd),shell=True,cwd=S,capture_output=True,text=True)
        except Exception as ex: return None
    def restore():
        for f in os.listdir(V+'/rocq/theories'):
            a=V+'/rocq/theories/'+f; z=S+'/theories/'+f
            if not os.path.exists(z) or os.path.getmtime(z)!=os.path.getmtime(a) or os.path.getsize(z)!=os.path.getsize(a): shutil.copy2(a,z)
    while True:
        try: b,n,cand=q.get_nowait()
        except queue.Empty: return
        p=S+'/theories/'+b; src=open(p).read(); got=0
        for (i,j,new) in cand:
            if got>=per: break
            if src[i:j]==new: continue
            open(p,'w').write(src[:i]+new+src[j:])
            r=sh('coqc -Q theories Verif theories/'+b,300)
            if r.returncode!=0: open(p,'w').write(src); continue
            got+=1
            r=sh('make -j1')
            err=re.search(r'File "\./theories/(\S+?)", line (\d+)[^\n]*\nError',r.stdout+r.stderr)
            line=src[:i].count('\n')+1
            ctx=src[max(0,src.rfind('\n',0,i)):src.find('\n',j)].strip()
            rec=dict(file=b,definition=n,line=line,old=src[i:j],new=new,context=ctx,result='caught' if err else ('SURVIVED' if r.returncode==0 else 'timeout'),
                     where=(err.group(1)+':'+err.group(2)) if err else '')
            with lock:
                open('/tmp/auto/results.jsonl','a').write(json.dumps(rec)+'\n'); print(rec['result'],b,n,line,repr(rec['old']),'->',repr(new),rec['where'],flush=True)
            restore()
        restore()
ts=[threading.Thread(target=worker,args=(k,)) for k in range(W)]
[t.start() for t in ts]; [t.join() for t in ts]
