#!/usr/bin/env python3
"""Transcribe the preprocessor directives of every header under /repo/amtl into rocq/theories/HeadersModel.v.
Everything between two directives becomes one Text item with its line numbers; comments and blank lines are dropped."""
import re,glob,os
R='/repo/amtl'
OUT=os.path.join(os.path.dirname(os.path.abspath(__file__)),'..','rocq','theories','HeadersModel.v')
hs=sorted(os.path.relpath(p,R) for p in glob.glob(R+'/**/*.h',recursive=True))
def strip_comments(s):
    out=[];i=0;n=len(s)
    while i<n:
        if s.startswith('//',i):
            while i<n and s[i]!='\n': i+=1
        elif s.startswith('/*',i):
            j=s.index('*/',i+2)+2
            out.append(''.join(c if c=='\n' else ' ' for c in s[i:j])); i=j
        elif s[i] in '"\'':
            q=s[i];j=i+1
            while s[j]!=q:
                if s[j]=='\\': j+=1
                j+=1
            out.append(s[i:j+1]); i=j+1
        else: out.append(s[i]); i+=1
    return ''.join(out)
fmac={}
def tok(s): return re.findall(r'\d+[uUlL]*|\w+|&&|\|\||==|!=|>=|<=|[!()<>,]',s)
def subst(s):
    for name,(ps,body) in fmac.items():
        while True:
            m=re.search(r'\b'+name+r'\(([^()]*)\)',s)
            if not m: break
            args=[a.strip() for a in m.group(1).split(',')]
            b=body
            for p,a in zip(ps,args): b=re.sub(r'\b'+p+r'\b',a,b)
            s=s[:m.start()]+'('+b+')'+s[m.end():]
    return s
def parse(s):
    t=tok(subst(s)); pos=[0]
    def peek(): return t[pos[0]] if pos[0]<len(t) else None
    def nxt(): pos[0]+=1; return t[pos[0]-1]
    def orx():
        a=andx()
        while peek()=='||': nxt(); a=f'(EOr {a} {andx()})'
        return a
    def andx():
        a=cmp()
        while peek()=='&&': nxt(); a=f'(EAnd {a} {cmp()})'
        return a
    def cmp():
        a=un()
        while peek() in ('==','>','<','>=','<='):
            o=nxt(); b=un()
            a={'==':f'(EEq {a} {b})','>':f'(ELt {b} {a})','<':f'(ELt {a} {b})','>=':f'(ELe {b} {a})','<=':f'(ELe {a} {b})'}[o]
        return a
    def un():
        x=nxt()
        if x=='!': return f'(ENot {un()})'
        if x=='(':
            a=orx(); assert nxt()==')'; return a
        if x=='defined':
            if peek()=='(':
                nxt(); m=nxt(); assert nxt()==')'
            else: m=nxt()
            return f'(EDefined "{m}")'
        if x[0].isdigit(): return f'(ENum {int(re.sub("[uUlL]","",x))})'
        return f'(EMacro "{x}")'
    r=orx(); assert pos[0]==len(t),(s,t,pos); return r
def body_of(b):
    b=b.strip()
    if re.fullmatch(r'\d+',b): return f'(ENum {b})'
    if re.fullmatch(r'__\w+__',b): return f'(EMacro "{b}")'
    return '(ENum 1)'
def header(h):
    L=strip_comments(open(os.path.join(R,h)).read()).split('\n')
    # logical lines
    items=[];i=0;txt=None
    def flush():
        nonlocal txt
        if txt: items.append(('text',txt[0],txt[1])); txt=None
    while i<len(L):
        ln=i+1; l=L[i]
        if l.lstrip().startswith('#'):
            while l.rstrip().endswith('\\') and i+1<len(L):
                i+=1; l=l.rstrip()[:-1]+' '+L[i]
            flush()
            m=re.match(r'\s*#\s*(\w+)\s*(.*)$',l,re.S); items.append((m.group(1),m.group(2).strip(),ln))
        elif l.strip():
            txt=(txt[0],ln) if txt else (ln,ln)
        i+=1
    flush()
    pos=[0]
    def block(ind):
        """code until endif/else/elif"""
        out=[]
        while pos[0]<len(items):
            it=items[pos[0]]; d=it[0]
            if d in('endif','else','elif'): break
            pos[0]+=1
            if d=='text': out.append(f'Text {it[1]} {it[2]}')
            elif d=='define':
                m=re.match(r'(\w+)(\(([^)]*)\))?\s*(.*)$',it[1],re.S)
                if m.group(2) is not None: fmac[m.group(1)]=([p.strip() for p in m.group(3).split(',')],m.group(4)); v='(ENum 1)'
                else: v=body_of(m.group(4))
                out.append(f'Define "{m.group(1)}" {v} (* {it[2]} *)')
            elif d=='include':
                n=it[1][1:-1] if it[1][0] in '<"' else it[1]
                if n.startswith('amtl/'): out.append(f'Include "{n[5:]}" (* {it[2]} *)')
                else: out.append(f'System "{n}" (* {it[2]} *)')
            elif d=='pragma':
                out.append(f'Once (* {it[2]} *)' if it[1]=='once' else f'Text {it[2]} {it[2]} (* pragma *)')
            elif d=='error': out.append(f'Stop {it[2]}')
            elif d in('if','ifdef','ifndef'):
                out.append(cond(d,it[1],it[2],ind+1))
                assert items[pos[0]][0]=='endif',(h,items[pos[0]]); pos[0]+=1
            else: raise Exception((h,it))
        pad='  '*ind
        s=''
        for x in out: s+=f'{pad}{x} (\n' if not x.startswith('Stop') else f'{pad}{x} (\n'
        # nested continuation
        return s+pad+'Done'+')'*len(out)
    def cond(d,c,ln,ind):
        e={'if':lambda:parse(c),'ifdef':lambda:f'(EDefined "{c.split()[0]}")','ifndef':lambda:f'(ENot (EDefined "{c.split()[0]}"))'}[d]()
        t=block(ind+1)
        it=items[pos[0]]
        if it[0]=='elif':
            pos[0]+=1
            pad='  '*(ind+1)
            el=pad+cond('if',it[1],it[2],ind+1)+' Done'
        elif it[0]=='else':
            pos[0]+=1; el=block(ind+1)
        else: el='  '*(ind+1)+'Done'
        return f'If {e} (* {ln} *) (\n{t}) (\n{el})'
    s=block(1); assert pos[0]==len(items),(h,pos,len(items))
    return s,len(L)-1
def ident(h): return 'h_'+re.sub(r'\W','_',h[:-2].replace('am-','').replace('/','_'))
o=['''(** The preprocessor directives of every header under /repo/amtl, generated from the source by
    scripts/gen_headers.py.  The text between two directives is one [Text first last] with its line numbers; numbers in
    comments are the lines of the directives.  Simplifications: comments and blank lines are dropped; the bodies of macros
    that are not a number or another macro are replaced by 1 (no directive evaluates them); KE_CLANG_AT_LEAST and
    KE_GCC_AT_LEAST are expanded where directives use them. *)
From Coq Require Import String ZArith.
From Verif Require Import Base PreprocModel.
Local Open Scope string_scope.
Local Open Scope Z_scope.
''']
for h in hs:
    s,n=header(h)
    o.append(f'(** amtl/{h}:1-{n}. *)\nDefinition {ident(h)} : code :=\n{s}.\n')
o.append('(** The files of the include directory (amtl/am-platform.h:1-97 and the others). *)\nDefinition headers (f : string) : option code :=')
for h in hs: o.append(f'  if String.eqb f "{h}" then Some {ident(h)} else')
o.append('  None.\n')
open(OUT,'w').write('\n'.join(o))
print(len(hs),'headers')
