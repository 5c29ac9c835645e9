#!/usr/bin/env python3
# usage: mut.py mutants.py [ids...]  ; runs mutants, appends results to /tmp/w/mut_results.jsonl
import sys,os,re,subprocess,shutil,json,time,importlib.util,signal
SRC=os.environ.get('SRC','/tmp/mut/src'); D='/tmp/mut/w'+(os.environ.get('W','0')); RES=os.environ.get('RES','/tmp/w/mut_results.jsonl')
J=os.environ.get('J','3')
def load_globs(base):
    g={} # (mod,name)->set of refs
    for f in os.listdir(base+'/theories'):
        if not f.endswith('.glob'): continue
        mod='Verif.'+f[:-5]; cur=None
        ents=[]
        for l in open(base+'/theories/'+f,errors='replace'):
            m=re.match(r'(def|prf|thm|ind|rec|constr|proj|inst|ex|coe|class|scheme|coind|meth)\s+(\d+):(\d+) (\S+) (\S+)',l)
            if m: ents.append((int(m.group(2)),'d',m.group(5),m.group(1)));continue
            m=re.match(r'R(\d+):(\d+) (\S+) (\S+) (\S+) (\S+)',l)
            if m and m.group(3).startswith('Verif.') : ents.append((int(m.group(1)),'r',(m.group(3),m.group(5)),m.group(6)))
        ents.sort(key=lambda e:(e[0],e[1]))
        for e in ents:
            if e[1]=='d':
                if e[3] in('constr','proj'): continue
                cur=(mod,e[2]); g.setdefault(cur,set())
            elif cur: g[cur].add(e[2])
    return g
def rev(g):
    r={}
    for k,vs in g.items():
        for v in vs: r.setdefault(v,set()).add(k)
    return r
def dependents(r,k):
    seen={k};st=[k]
    while st:
        x=st.pop()
        for y in r.get(x,()):
            if y not in seen: seen.add(y);st.append(y)
    return seen
def lemma_at(path,line):
    ls=open(path).read().split('\n')
    for i in range(line-1,-1,-1):
        m=re.match(r'\s*(?:Local |Global |#\[.*\]\s*)?(Theorem|Lemma|Corollary|Example|Fact|Definition|Fixpoint|Instance|Record|Inductive)\s+([\w\']+)',ls[i])
        if m: return m.group(2)
    return '?'
def patch(path,line):
    s=open(path).read(); ls=s.split('\n')
    off=sum(len(x)+1 for x in ls[:line-1])
    q=re.compile(r'\b(Qed|Defined)\.').search(s,off)
    p=None
    for x in re.finditer(r'\bProof\b[^.]*\.',s[:q.start()] if q else s): p=x
    if not q or not p: return False
    # must belong to the same lemma
    if re.search(r'\b(Qed|Defined)\.',s[p.end():q.start()]): return False
    body=s[p.start():q.end()]; nl=body.count('\n')
    open(path,'w').write(s[:p.start()]+'Admitted.'+'\n'*nl+s[q.end():])
    return True
def main():
    spec=importlib.util.spec_from_file_location('m',sys.argv[1]);M=importlib.util.module_from_spec(spec);spec.loader.exec_module(M)
    done=set()
    if os.path.exists(RES): done={json.loads(l)['id'] for l in open(RES)}
    want=sys.argv[2:]
    R=rev(load_globs(SRC))
    for m in (M.MUTANTS[::-1] if os.environ.get('REVERSE') else M.MUTANTS):
        if want and m['id'] not in want: continue
        if os.path.exists(RES): done={json.loads(l)['id'] for l in open(RES)}
        if not want and m['id'] in done: continue
        shutil.rmtree(D,ignore_errors=True)
        subprocess.run(['cp','-a',SRC,D],check=True)
        p=D+'/theories/'+m['file'];s=open(p).read()
        # locate the definition
        k=re.search(r'(Definition|CoFixpoint|Fixpoint)\s+'+re.escape(m['def'])+r'\b',s)
        assert k,m
        nxt=re.compile(r'\n\s*(Definition|Fixpoint|Record|Inductive|End|CoInductive|CoFixpoint)\b').search(s,k.end())
        e=nxt.start() if nxt else len(s)
        body=s[k.start():e]; n=body.count(m['old']);
        occ=m.get('occ')
        if occ is None: assert n==1,(m['id'],m['old'],n); body2=body.replace(m['old'],m['new'])
        else:
            parts=body.split(m['old']); assert len(parts)>occ+1,m; body2=m['old'].join(parts[:occ+1])+m['new']+m['old'].join(parts[occ+1:])
        open(p,'w').write(s[:k.start()]+body2+s[e:])
        t0=time.time()
        tg=[]
        if '*' not in m['claims']:
            for f in sorted(os.listdir(D+'/theories')):
                if f.startswith('Prop') and f.endswith('.v') and re.search(r'\b(?:Theorem|Lemma|Corollary|Example|Fact)\s+(?:'+'|'.join(m['claims'])+')_',open(D+'/theories/'+f).read()): tg.append('theories/'+f+'o')
        log=open('/tmp/mut/log'+os.environ.get('W','0'),'w')
        pr=subprocess.Popen(['make','-k','-j'+J]+tg,cwd=D,stdout=log,stderr=subprocess.STDOUT,preexec_fn=os.setsid)
        fails={};hit=set();killed=False
        def scan():
            txt=open(log.name,errors='replace').read()
            for x in re.finditer(r'File "\./theories/(\w+)\.v", line (\d+), characters [\d-]+:\s*\nError',txt):
                key=(x.group(1),int(x.group(2)))
                if key not in fails:
                    nm=lemma_at(D+'/theories/'+x.group(1)+'.v',key[1]); fails[key]=nm
                    hit.update(y[1] for y in dependents(R,('Verif.'+x.group(1),nm)) if re.match(r'C\d+_',y[1]))
        patched=set()
        for rnd in range(40):
            while pr.poll() is None:
                time.sleep(2); scan()
                if any(any(c=='*' or h.startswith(c+'_') for h in hit) for c in m['claims']):
                    killed=True; os.killpg(pr.pid,signal.SIGTERM); pr.wait(); break
            scan()
            new=[k for k in fails if k not in patched]
            if killed or not new: break
            ok=False
            for k in sorted(new,key=lambda k:-k[1]):
                patched.add(k); ok|=patch(D+'/theories/'+k[0]+'.v',k[1])
            if not ok: break
            log=open('/tmp/mut/log'+os.environ.get('W','0'),'w')
            pr=subprocess.Popen(['make','-k','-j'+J]+tg,cwd=D,stdout=log,stderr=subprocess.STDOUT,preexec_fn=os.setsid)
        modelerr=[f for f in fails if f[0].startswith('M') and f[0] in('MCore','MCommon','MStats','MTesting','MTa','MStrategy','MMetrics','MContent','MShare','MReport','MProgram','MPrint','MFixture','MShare2','MPlot','Num','Base')]
        th=sorted(h for h in hit if any(c=='*' or h.startswith(c+'_') for c in m['claims']))
        other=sorted(hit-set(th))
        verdict='INVALID' if modelerr else ('killed' if th else ('killed-elsewhere' if fails else 'SURVIVED'))
        rec=dict(id=m['id'],file=m['file'],definition=m['def'],old=m['old'],new=m['new'],claims=m['claims'],what=m['what'],verdict=verdict,first=[f'{a}.{n}' for (a,l),n in fails.items()],theorems=th,others=len(other),other=other[:12],secs=round(time.time()-t0))
        open(RES,'a').write(json.dumps(rec)+'\n')
        print(m['id'],verdict,rec['first'][:3],th[:4],rec['secs'],flush=True)
main()
