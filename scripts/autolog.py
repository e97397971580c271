#!/usr/bin/env python3
"""Append the results of automutate.py to seeded/LOG.jsonl: the statement a failing line belongs to, the claims of the area.
usage: autolog.py results.jsonl [comments.json]   (comments: {"File.v definition": "why the edit breaks no claim / what was tightened"})"""
import json,sys,re,subprocess,functools
V='/verif'
comments=json.load(open(sys.argv[2])) if len(sys.argv)>2 else {}
areas=re.findall(r'^h\("(C\d+)-(C\d+)",\s*"([^"]+)"',open(V+'/scripts/gen_design.py').read(),re.M)
@functools.lru_cache(None)
def text(f): return subprocess.run(['git','-C',V,'show','HEAD:rocq/theories/'+f],capture_output=True,text=True).stdout.split('\n')
def stmt(w):
    f,l=w.split(':'); L=text(f)
    for i in range(min(int(l),len(L))-1,-1,-1):
        m=re.match(r'\s*(?:Theorem|Lemma|Example|Corollary|Fact|Remark|Definition|Fixpoint)\s+(\w+)',L[i])
        if m: return f[:-2]+'.'+m.group(1)
    return f[:-2]
def claim(f):
    import fnmatch
    r=[(a,b,p) for a,b,p in areas for q in re.split(r'[, ]+',p) if fnmatch.fnmatch(f,q)]
    r.sort(key=lambda t:-len(t[2]))
    return (r[0][0] if r[0][0]==r[0][1] else r[0][0]+'-'+r[0][1]) if r else '?'
old=[json.loads(x) for x in open(V+'/seeded/LOG.jsonl')]
seen={(o.get('file'),o['definition'],o['edit']) for o in old}
n=sum(1 for o in old if str(o.get('id','')).startswith('auto-'))
with open(V+'/seeded/LOG.jsonl','a') as out:
    for r in map(json.loads,open(sys.argv[1])):
        e="%r -> %r in: %s"%(r['old'],r['new'],r['context'])
        if (r['file'],r['definition'],e) in seen or r['result']=='timeout': continue
        n+=1; c=comments.get(r['file']+' '+r['definition'],{}) if r['result']!='caught' else {}
        o=dict(id='auto-%d'%n,definition=r['definition'],file=r['file'],edit=e,claim_broken=c.get('claim',claim(r['file'])),result=c.get('result',r['result'].lower()),
               theorems_failed=[stmt(r['where'])] if r['where'] else [],theorems_tightened=c.get('tightened',[]))
        if c.get('comment'): o['comment']=c['comment']
        out.write(json.dumps(o)+'\n')
print(n)
