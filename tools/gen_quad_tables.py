"""Writes rocq/theories/QuadTable{Tri,Tet,JS}.v from the tables in /repo/src/quadrules."""
import re
def parse(fn):
    m=re.search(r'(WitherdenVincent2015_T..|JaskowiecSukumar2020)\s*\{',open('/repo/src/quadrules/'+fn).read())
    src=open('/repo/src/quadrules/'+fn).read()[m.end()-1:]
    src=src[:src.index(';')]
    toks=re.findall(r'[{},]|[-+0-9.eE]+',src)
    pos=0
    def val():
        nonlocal pos
        if toks[pos]=='{':
            pos+=1; l=[]
            while toks[pos]!='}':
                if toks[pos]==',': pos+=1; continue
                l.append(val())
            pos+=1; return l
        t=toks[pos]; pos+=1; return t
    return val()
import re
def dec(s):
    neg=s.startswith('-'); s=s.lstrip('+-')
    m=re.match(r'^([0-9]*)\.?([0-9]*)(?:[eE]([-+]?\d+))?$',s); a,b,e=m.group(1),m.group(2),int(m.group(3) or 0)
    digits=a+b; point=len(a)+e
    if point<0: digits='0'*(-point)+digits; point=0
    if point>len(digits): digits+='0'*(point-len(digits))
    w=digits[:point] or '0'; f=digits[point:].rstrip('0')
    if len(f)%18: f+='0'*(18-len(f)%18)
    g=[str(int(f[i:i+18])) for i in range(0,len(f),18)]
    w=str(int(w))
    body='['+';'.join(g)+']'
    if w=='0': return ('neg0 ' if neg else 'pos0 ')+body
    return 'Dec %s %s %s'%('true' if neg else 'false',w,body)
def emit(fn,name,out,comment):
    o=['(** '+comment+' *)','Require Import List Uint63.','Require Import Verif.QuadTableModel.','Import ListNotations.','Local Open Scope list_scope.','Local Open Scope uint63_scope.']
    names=[]
    src=open('/repo/src/quadrules/'+fn).read().split('\n')
    line={}
    for i,l in enumerate(src):
        m=re.match(r'\s+\{(\d+),',l)
        if m and re.match(r'        \{\d+,',l): line[m.group(1)]=i+1
    ks=[r[0] for r in parse(fn)]
    for idx,r in enumerate(parse(fn)):
        k=r[0]; n=f'{name}_{k}'
        a=line[k]; b=(line[ks[idx+1]]-1) if idx+1<len(ks) else max(i+1 for i,l in enumerate(src) if '}}' in l)
        pts=';\n  '.join('['+'; '.join(dec(c) for c in p)+']' for p in r[1][0])
        ws=';\n  '.join(dec(c) for c in r[1][1])
        o.append(f'(** {fn}:{a}-{b}, order {k}. *)')
        o.append(f'Definition {n} : raw_rule := (\n [{pts}],\n [{ws}]).')
        names.append((k,n))
    o.append(f'Definition {name} : raw_table := [{"; ".join(f"({k}%nat, {n})" for k,n in names)}].')
    open(out,'w').write('\n'.join(o)+'\n')
T=__import__('os').path.join(__import__('os').path.dirname(__import__('os').path.abspath(__file__)),'..','rocq','theories','')
emit('WitherdenVincent2015_Tri.cpp','WV_Tri',T+'QuadTableTri.v','The table of src/quadrules/WitherdenVincent2015_Tri.cpp (generated by tools/gen_quad_tables.py).')
emit('WitherdenVincent2015_Tet.cpp','WV_Tet',T+'QuadTableTet.v','The table of src/quadrules/WitherdenVincent2015_Tet.cpp (generated by tools/gen_quad_tables.py).')
emit('JaskowiecSukumar2020.cpp','JS_Tet',T+'QuadTableJS.v','The table of src/quadrules/JaskowiecSukumar2020.cpp (generated by tools/gen_quad_tables.py).')
