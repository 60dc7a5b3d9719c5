#!/usr/bin/env python3
"""Extracts the logger skeleton of every function of /repo that calls the logger, and writes it as a Coq table
(rocq/theories/LogTable.v).  Purely textual: comments and strings are dropped, preprocessor conditionals are
evaluated for a build configuration, and of every function body only blocks, if/for/while, return, throw, break,
continue and the logger calls are kept; every other statement or condition becomes `Any` (it may call any function)."""
import re, sys, os
REPO='/repo'
CONFIGS=[('cpu',set()),('mkl',{'MONOLISH_USE_MKL','MONOLISH_USE_AVX','USE_AVX','MONOLISH_USE_AVX512'}),('mpi',{'MONOLISH_USE_MPI'}),('gpu',{'MONOLISH_USE_NVIDIA_GPU'})]

def strip(src):
    out=[];i=0;n=len(src)
    while i<n:
        c=src[i]
        if src.startswith('//',i):
            while i<n and src[i]!='\n': i+=1
        elif src.startswith('/*',i):
            j=src.index('*/',i)+2
            out.append('\n'*src[i:j].count('\n')); i=j
        elif c=='"':
            j=i+1
            while src[j]!='"':
                if src[j]=='\\': j+=1
                j+=1
            out.append('""'); i=j+1
        elif c=="'" and i+2<n and (src[i+2]=="'" or src[i+1]=='\\'):
            j=src.index("'",i+2 if src[i+1]!='\\' else i+3)
            out.append('0'); i=j+1
        else: out.append(c); i+=1
    return ''.join(out)

def cond(e,defs):
    e=e.strip()
    e=re.sub(r'defined\s*\(?\s*(\w+)\s*\)?',lambda m:'1' if m.group(1) in defs else '0',e)
    e=re.sub(r'[A-Za-z_]\w*',lambda m:'1' if m.group(0) in defs else '0',e)
    e=e.replace('&&',' and ').replace('||',' or ').replace('!',' not ')
    return bool(eval(e))

def preprocess(src,defs):
    out=[];stack=[];lines=src.split('\n');k=0
    while k<len(lines):
        l=lines[k]; full=l; extra=0
        if l.lstrip().startswith('#'):
            while full.rstrip().endswith('\\'):
                k+=1; extra+=1; full=full.rstrip()[:-1]+lines[k]
            m=re.match(r'\s*#\s*(\w+)\s*(.*)',full)
            d,a=(m.group(1),m.group(2)) if m else ('','')
            if d=='if': v=cond(a,defs); stack.append([v,v])
            elif d=='ifdef': v=a.split()[0] in defs; stack.append([v,v])
            elif d=='ifndef': v=a.split()[0] not in defs; stack.append([v,v])
            elif d=='elif':
                v=(not stack[-1][1]) and cond(a,defs); stack[-1]=[v,stack[-1][1] or v]
            elif d=='else': stack[-1]=[not stack[-1][1],True]
            elif d=='endif': stack.pop()
            out.extend(['']*(1+extra))
        else:
            out.append(l if all(s[0] for s in stack) else '')
        k+=1
    return '\n'.join(out)

TOK=re.compile(r'\s+|[A-Za-z_]\w*|\d[\w.]*|::|->|""|.',re.S)
def tokens(src):
    r=[];line=1
    for m in TOK.finditer(src):
        t=m.group(0)
        if not t.isspace(): r.append((t,line))
        line+=t.count('\n')
    return r

OPEN={'(':')','{':'}','[':']'}
class P:
    def __init__(s,toks): s.t=toks; s.i=0
    def peek(s,k=0): return s.t[s.i+k][0] if s.i+k<len(s.t) else None
    def skip_group(s):
        # at an opening bracket: skip to after its match; return the tokens inside
        depth=0; st=s.i
        while True:
            t=s.t[s.i][0]
            if t in '({[': depth+=1
            elif t in ')}]': depth-=1
            s.i+=1
            if depth==0: return [x[0] for x in s.t[st+1:s.i-1]]
    def stmt(s):
        t=s.peek()
        if t=='{':
            s.i+=1; r=[]
            while s.peek()!='}': r+=s.stmt()
            s.i+=1; return r
        if t==';': s.i+=1; return []
        if t=='if':
            s.i+=1
            if s.peek()=='constexpr': s.i+=1
            s.skip_group(); a=s.stmt(); b=[]
            if s.peek()=='else': s.i+=1; b=s.stmt()
            return [('Any',),('If',a,b)]
        if t in('for','while'):
            s.i+=1; s.skip_group(); a=s.stmt()
            return [('Any',),('Loop',[('Any',)]+a)]
        if t=='do':
            s.i+=1; a=s.stmt(); assert s.peek()=='while'; s.i+=1; s.skip_group(); s.i+=1
            return [('Any',),('Loop',a+[('Any',)])]     # at least one iteration is a special case of any number
        if t=='switch':
            # kept only as "may throw"; refused if it contains a return or a logger call
            s.i+=1; s.skip_group(); body=s.skip_group()
            if 'return' in body or 'logger' in body: raise Exception('unsupported switch')
            return [('Any',),('If',[('Any',),('Throw',)],[])] if 'throw' in body else [('Any',)]
        if t in('try','goto','case'): raise Exception('unsupported '+t)
        if t in('break','continue'):
            s.i+=2; return [('Leave',)]
        # expression statement
        st=s.i; toks=[]
        while s.peek()!=';':
            if s.peek() in '({[': 
                toks.append('('); toks+=s.skip_group(); toks.append(')')
            else: toks.append(s.peek()); s.i+=1
        s.i+=1
        if t=='return': return [('Any',),('Return',)] if len(toks)>1 else [('Return',)]
        if t=='throw': return [('Any',),('Throw',)]
        if t=='logger':
            m=toks[2]
            if m.endswith('_in'): 
                return [('In',m[:-3])]
            if m.endswith('_out'): return [('Out',m[:-4])]
            if m in('set_log_level','set_log_filename'): return [('Any',)]
            raise Exception('logger '+m)
        if 'logger' in toks and not('Logger' in toks): raise Exception('nested logger '+' '.join(toks))
        return [('Any',)] if 'Logger' not in toks else []

def functions(toks):
    p=P(toks); res=[]
    def decls(end):
        pend=[]
        while p.i<len(p.t):
            t=p.peek()
            if t==end: p.i+=1; return
            if t==';': pend=[]; p.i+=1; continue
            if t=='{':
                words=[x for x in pend]
                # drop template<...>
                k=0
                while k<len(words) and words[k]=='template':
                    d=0;k+=1
                    while True:
                        if words[k]=='<': d+=1
                        if words[k]=='>': d-=1
                        k+=1
                        if d==0: break
                w=words[k:]
                if w and w[0] in('namespace','extern') or (w and w[0] in('class','struct') and '(' not in w):
                    p.i+=1; decls('}'); pend=[]; continue
                eq=w.index('=') if '=' in w else len(w)
                if w and w[0]=='enum' or ('operator' not in w and eq<len(w) and ('(' not in w or eq<w.index('('))): p.skip_group(); continue
                # function body
                if '(' not in w: p.skip_group(); pend=[]; continue
                # after a constructor's init list the body follows a ')' or identifier; brace-init members are skipped
                prev=w[-1]
                name=None
                k=w.index('(')
                name=w[k-1]
                if 'operator' in w[:k]:
                    q=w.index('operator'); name='operator'+''.join(w[q+1:k])
                    if name=='operator': name='operator()'
                line=p.t[p.i][1]; st=p.i
                body=p.skip_group(); en=p.i; endline=p.t[p.i-1][1]
                if 'logger' in body:
                    q=P(p.t[:en]); q.i=st
                    res.append((name,fline[0],endline,q.stmt()))
                pend=[]; continue
            if t in '([':
                st=p.i; g=p.skip_group(); pend+=[t]+g+[OPEN[t]]; continue
            if not pend: fline[0]=p.t[p.i][1]
            pend.append(t); p.i+=1
            if t==':' and len(pend)>=2 and pend[-2] in('public','private','protected'): pend=[]
    fline=[0]
    decls(None)
    return res

def simp(l):
    r=[]
    for c in l:
        if c[0]=='If': c=('If',simp(c[1]),simp(c[2]))
        if c[0]=='Loop': c=('Loop',simp(c[1]))
        if c[0]=='If' and c[1]==c[2] and c[1] in([],[('Any',)]): c=('Any',)
        if c[0]=='If' and c[1] in([],[('Any',)]) and c[2] in([],[('Any',)]): c=('Any',)
        if c[0]=='Loop' and c[1] in([],[('Any',)]): c=('Any',)
        if c==('Any',) and r and r[-1]==('Any',): continue
        r.append(c)
    return r

def show(l):
    def one(c):
        if c[0] in('In','Out'): return c[0]+' '+{'solver':'Solver','func':'Func','util':'Util'}[c[1]]
        if c[0]=='If': return 'If (%s) (%s)'%(show(c[1]),show(c[2]))
        if c[0]=='Loop': return 'Loop (%s)'%show(c[1])
        return {'Any':'Any','Return':'Return','Throw':'Throw','Leave':'Leave'}[c[0]]
    return '['+'; '.join(one(c) for c in l)+']'

def main():
    files=[]
    for root in('src','include'):
        for d,_,fs in os.walk(os.path.join(REPO,root)):
            for f in fs:
                if f.endswith(('.cpp','.hpp','.h')): files.append(os.path.join(d,f))
    tab={}
    for f in sorted(files):
        raw=open(f).read()
        if 'logger' not in raw or f.endswith('logger_utils.cpp') or f.endswith('monolish_logger.hpp'): continue
        s=strip(raw)
        for cname,defs in CONFIGS:
            for (n,a,b,sk) in functions(tokens(preprocess(s,defs))):
                key=(os.path.relpath(f,REPO),a,b,n)
                tab.setdefault(key,{}).setdefault(show(simp(sk)),[]).append(cname)
    return tab
if __name__=='__main__':
    tab=main()
    C={'cpu':'Cpu','mkl':'Mkl','mpi':'Mpi','gpu':'Gpu'}
    o=['(** * LogTable: the logging skeleton of every function of /repo that calls the logger.',
       '    Generated by tools/skel.py; do not edit.  Each entry is followed by the file and lines it models. *)',
       'From Coq Require Import String.','From Verif Require Import Base LogModel.','Local Open Scope string_scope.','Local Open Scope list_scope.','']
    entries=[]
    for (f,a,b,n),v in tab.items():
        for sk,cs in v.items():
            entries.append('F "%s" "%s:%d" [%s] %s (* %s:%d-%d *)'%(n,f,a,'; '.join(C[c] for c in cs),sk,f,a,b))
    parts=[]
    for k in range(0,len(entries),200):
        nm='functions_%d'%(k//200+1); parts.append(nm)
        o.append('Definition %s : list func := ['%nm)
        chunk=entries[k:k+200]
        for j,e in enumerate(chunk):
            body,com=e.rsplit(' (* ',1)
            o.append('  '+body+(';' if j+1<len(chunk) else '')+' (* '+com)
        o.append('].'); o.append('')
    o.append('Definition all_functions : list func := '+' ++ '.join(parts)+'.')
    open(os.path.join(os.path.dirname(os.path.abspath(__file__)),'../rocq/theories/LogTable.v'),'w').write('\n'.join(o)+'\n')
    print(len(tab),len(entries))
