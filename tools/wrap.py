"""wrap.py FILE.cpp ...: check that the generated dispatch wrappers (name(args){ core(args); }) pass their arguments in order;
prints per file how many function bodies were parsed and every wrapper that does not."""
import re,sys,glob,collections
files=sys.argv[1:]
C=collections.Counter(); 
for f in files:
    s=open(f).read()
    for m in re.finditer(r'\n(?:template <[^>]*>\s*)?([\w:<> ]+?)\s+(\w+)\(([^{};]*?)\)\s*\{\s*((?:return )?)([\w:]+)\(([^{}]*?)\);\s*\}',s):
        ret,name,params,r,callee,args=m.groups()
        pn=[re.sub(r'.*[ &*]','',p.strip()) for p in re.split(r',(?![^<]*>)',params) if p.strip()]
        an=[a.strip() for a in args.split(',') if a.strip()]
        key=(name,callee)
        C[(f,)+key+((tuple(pn)==tuple(an)) or (tuple(pn),tuple(an)),)]+=1
    n=len(re.findall(r'\)\s*\{',s)); k=sum(v for kk,v in C.items() if kk[0]==f)
    print(f,n,'bodies',k,'parsed')
for k,v in sorted(C.items(),key=str):
    if k[3] is not True or k[1] not in k[2]: print(v,k)
