#!/usr/bin/env python3
# cq FILE...: compile each in order; on error print message and the goal state just before failing sentence
import sys,subprocess,re,os
os.chdir('/verif/rocq' if not os.environ.get('CQDIR') else os.environ['CQDIR'])
N=int(os.environ.get('CQN','25'))
for f in sys.argv[1:]:
    p='theories/'+f if not f.endswith('.v') and '/' not in f else f
    if not p.endswith('.v'): p+='.v'
    try:
        r=subprocess.run(['coqc','-q','-Q','theories','Verif',p],capture_output=True,text=True,timeout=int(os.environ.get('CQT','600')))
    except subprocess.TimeoutExpired:
        print(f,'TIMEOUT'); continue
    if r.returncode==0:
        out='\n'.join(l for l in r.stdout.split('\n') if l.strip())
        print(f,'OK', out[-1500:] if os.environ.get('CQV') else ''); continue
    m=re.search(r'line (\d+), characters (\d+)-(\d+)',r.stderr)
    err=r.stderr
    i=err.find('Error:')
    print('==',f,'FAIL',m.group(0) if m else '', err[i:i+1200])
    if m:
        ln,c0=int(m.group(1)),int(m.group(2))
        src=open(p,'rb').read().decode()
        lines=src.encode().split(b'\n')
        off=sum(len(l)+1 for l in lines[:ln-1])+c0
        pre=src.encode()[:off].decode(errors='ignore')
        print('  at:',lines[ln-1].decode()[:200])
        inp=pre+'\nSet Printing Depth 60. Show.\n'
        t='/tmp/cq_tmp.v'
        open(t,'w').write(inp)
        r2=subprocess.run(['coqtop','-q','-Q','theories','Verif','-l',t],input='',capture_output=True,text=True) if False else subprocess.run(['coqc','-q','-Q','theories','Verif',t],capture_output=True,text=True)
        o=r2.stdout.strip().split('\n')
        # last goal block
        idx=[k for k,l in enumerate(o) if re.match(r'^\d+ (sub)?goal',l)]
        if idx: o=o[idx[-1]:]
        o=o[:60]
        # trim
        print('\n'.join(o[:N] if len(o)<=N else o[:N]+['...']+[l for l in o[N:]][-12:]))
