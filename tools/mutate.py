# Seeded wrong programs: applies each edit of a JSON list to a scratch copy of
# the built model, rebuilds, and reports which theorems no longer check.
# usage: mutate.py muts.json [id ...]   (scratch copy in /tmp/mutlab)
import json,os,re,shutil,subprocess,sys,time
SRC='/verif/rocq'; LAB=os.environ.get('MUT_LAB','/tmp/mutlab')
def sh(c,**k): return subprocess.run(c,shell=True,capture_output=True,text=True,**k)
def setup():
    if not os.path.exists(LAB+'/base/.ok') or '--fresh' in sys.argv:
        sh(f'rm -rf {LAB}/base; mkdir -p {LAB}; cp -a {SRC} {LAB}/base')
        r=sh('coq_makefile -f _CoqProject -o Makefile && make -j4',cwd=LAB+'/base')
        if r.returncode: print(r.stderr[-2000:]); sys.exit(1)
        open(LAB+'/base/.ok','w').close()
def lemma_at(f,line):
    name='?'
    for i,l in enumerate(open(f),1):
        if i>line: break
        m=re.match(r'\s*(?:Theorem|Lemma|Corollary|Example|Definition|Fixpoint|Fact)\s+(\w+)',l)
        if m: name=m.group(1)
    return name
def run(m):
    sh(f'rm -rf {LAB}/w; cp -a {LAB}/base {LAB}/w')
    f=f"{LAB}/w/theories/{m['file']}"
    s=open(f).read()
    if s.count(m['old'])<1: return None,'pattern not found'
    n=m.get('nth',0); parts=s.split(m['old'])
    if len(parts)-1>1 and 'nth' not in m: return None,f"pattern occurs {len(parts)-1} times"
    s=m['old'].join(parts[:n+1])+m['new']+m['old'].join(parts[n+1:])
    open(f,'w').write(s)
    t=time.time()
    r=sh('timeout '+os.environ.get('MUT_TIMEOUT','1500')+' nice make -k -j3',cwd=LAB+'/w')
    errs=re.findall(r'File "\./theories/(\w+\.v)", line (\d+).*?\n(?:Error)',r.stderr)
    errs=[(a,lemma_at(f'{LAB}/w/theories/{a}',int(b))) for a,b in errs]
    dead=[]
    for x in sorted(os.listdir(LAB+'/w/theories')):
        if x.endswith('Props.v'):
            vo=f'{LAB}/w/theories/{x}o'
            if not os.path.exists(vo) or os.path.getmtime(vo)<t and os.path.getmtime(vo)>0 and any(True for _ in [0]) and not fresh(x,t,m):
                dead+=re.findall(r'^(?:Theorem|Corollary)\s+(C\d\d_\w+)',open(f'{LAB}/w/theories/{x}').read(),re.M)
    return (errs,dead,r.returncode,round(time.time()-t)),None
def fresh(x,t,m):
    # a Props file that does not depend on the mutated file is not rebuilt
    import functools
    dep={}
    for l in open(LAB+'/w/theories/'+x): pass
    def deps(f,seen):
        if f in seen: return seen
        seen.add(f)
        p=f'{LAB}/w/theories/{f}.v'
        if not os.path.exists(p): return seen
        for mm in re.finditer(r'From Verif Require (?:Import |Export )?([\w\s]+?)\.',open(p).read()):
            for d in mm.group(1).split(): deps(d,seen)
        return seen
    return m['file'][:-2] not in deps(x[:-2],set())
if __name__=='__main__':
    setup()
    muts=json.load(open(sys.argv[1])); ids=[a for a in sys.argv[2:] if not a.startswith('--')]
    log='/verif/seeded/LOG.jsonl'
    for m in muts:
        if ids and m['id'] not in ids: continue
        r,e=run(m)
        if e: print(m['id'],'BAD MUTANT',e,flush=True); continue
        errs,dead,rc,dt=r
        syn=[x for x in errs if x[0]==m['file']]
        res='survived' if rc==0 else 'no proof within the time limit' if rc==124 and not errs else 'killed'
        print(m['id'],'SURVIVED' if rc==0 else res, 'in-model-error' if syn else '', errs,len(dead),f'{dt}s',flush=True)
        if not syn:
            with open(log,'a') as f:
                f.write(json.dumps(dict(id=m['id'],file=m['file'],definition=m['def'],edit=f"{m['old'].strip()}  ==>  {m['new'].strip()}",claim_broken=m['claim'],
                  result=res,first_failure=[f'{a}:{b}' for a,b in errs],theorems_failed=dead,tightened=m.get('tightened',[])))+"\n")
