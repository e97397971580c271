#!/usr/bin/env python3
"""Apply realistic bugs to a scratch copy of the model and record which theorems stop proving.
usage: mutate.py mutations.json   (list of {id,file,definition,old,new,edit,claim,props})
A mutation SURVIVES if the whole development still builds."""
import json,sys,os,subprocess,re,shutil,time
V='/verif'; S='/tmp/scratch/rocq'
muts=json.load(open(sys.argv[1]))
log=os.path.join(V,'seeded','LOG.jsonl')
done=set()
if os.path.exists(log):
    for l in open(log):
        done.add(json.loads(l).get('id'))
os.makedirs('/tmp/scratch',exist_ok=True)
subprocess.run(['rsync','-a','--delete',V+'/rocq/',S+'/']) if shutil.which('rsync') else (shutil.rmtree(S,ignore_errors=True),subprocess.run(['cp','-a',V+'/rocq',S]))
def sh(c): return subprocess.run(c,shell=True,cwd=S,capture_output=True,text=True)
sh('coq_makefile -f _CoqProject -o Makefile; make -j4 > /dev/null 2>&1')
def lemma_at(f,line):
    L=open(os.path.join(S,f)).read().split('\n')[:line]
    for l in reversed(L):
        m=re.match(r'\s*(?:Local |Global )?(Lemma|Theorem|Example|Corollary|Definition|Fixpoint|Fact)\s+(\w+)',l)
        if m: return m.group(2)
    return '?'
force='--force' in sys.argv
for m in muts:
    if m['id'] in done and not force: continue
    p=os.path.join(S,'theories',m['file'])
    src=open(p).read()
    if src.count(m['old'])!=m.get('count',1):
        print('BAD',m['id'],src.count(m['old'])); continue
    open(p,'w').write(src.replace(m['old'],m['new']))
    r=sh('timeout 900 make -k -j4 2>&1')
    fails=[]
    for mm in re.finditer(r'File "\./(theories/\S+?)", line (\d+), characters[^\n]*\n((?:(?!File ).*\n)*)',r.stdout):
        if 'Error' in mm.group(3): fails.append(mm.group(1).split('/')[-1][:-2]+'.'+lemma_at(mm.group(1),int(mm.group(2))))
    # property theorems that cannot be rebuilt
    vos=[f for f in os.listdir(S+'/theories') if f.endswith('Props.v')]
    blocked=[]
    for f in sorted(vos):
        vo=S+'/theories/'+f[:-2]+'.vo'
        if not os.path.exists(vo) or os.path.getmtime(vo)<os.path.getmtime(p): 
            # only those depending on the mutated file
            if sh(f'make -q theories/{f[:-2]}.vo').returncode!=0: blocked.append(f[:-2])
    res='caught' if fails else ('SURVIVED' if r.returncode==0 else 'error')
    print(m['id'],res,fails,blocked, '' if fails else r.stdout[-300:] if r.returncode else '')
    rec={'id':m['id'],'definition':m['definition'],'file':m['file'],'edit':m['edit'],'claim_broken':m['claim'],
         'result':res,'theorems_failed':fails,'property_files_blocked':blocked,'theorems_tightened':m.get('tightened',[])}
    if m.get('comment'): rec['comment']=m['comment']
    open(log,'a').write(json.dumps(rec)+'\n')
    open(p,'w').write(src)
    sh('make -j4 > /dev/null 2>&1')
