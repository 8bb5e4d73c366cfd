#!/usr/bin/env python3
"""Seed a bug into a scratch copy of the model and see which theorems notice.

usage: mutate.py NAME...   (names from seeded/mutants.py; none = all not yet logged)

The files are recompiled in the order of _CoqProject.  A proof that no longer
goes through is replaced by Admitted in the scratch copy so that the rest can be
checked; afterwards the assumptions of every theorem of MANIFEST.json are
printed, and a theorem counts as failed if it rests on a proof that broke.  That
is an upper bound: a broken lemma fails everything above it, even a theorem whose
claim the bug leaves true.  `theorems_broken_directly' are those whose own proof
broke.  A theorem that was not compiled at all (its file timed out, or depends on
one that did) is `theorems_not_checked', never failed.  The scratch copy must
contain every theorem of the manifest, otherwise the run is refused.

`also' in a mutant lists paired edits of lemmas that mirror the model, so that
the theorems above them are tested against the edited program."""
import json, os, re, shutil, subprocess, sys, time
V='/verif'; BASE=os.environ.get('MUTBASE',V+'/rocq'); sys.path.insert(0, V+'/seeded')
from mutants import MUTANTS
LOG=V+'/seeded/LOG.jsonl'
BASE_MANIFEST=os.environ.get('MUTMANIFEST',V+'/MANIFEST.json')
START=re.compile(r'^\s*(?:#\[[^\]]*\]\s*)?(?:Local |Global )?(Theorem|Lemma|Corollary|Proposition|Fact|Remark|Example|Goal|Instance|Definition|Fixpoint)\b\s*([\w\']*)')
def files(d):
    return [l.strip() for l in open(d+'/_CoqProject') if l.strip().endswith('.v')]
def deps(d):
    out=subprocess.run(['coqdep','-Q','theories','Verif']+files(d),cwd=d,capture_output=True,text=True).stdout
    r={}
    for l in out.splitlines():
        m=re.match(r'(\S+)\.vo\b.*?: (.*)',l)
        if m: r[m[1]+'.v']=[x[:-3]+'.v' for x in m[2].split() if x.endswith('.vo')]
    return r
def admit(path,line):
    """replace the proof enclosing the given line by Admitted; return lemma name"""
    L=open(path).read().split('\n')
    i=line-1
    while i>=0 and not START.match(L[i]): i-=1
    if i<0: return None
    m=START.match(L[i])
    j=i
    while j<len(L) and not re.search(r'\b(Qed|Defined)\.\s*$',L[j]): j+=1
    if j>=len(L): return None
    blk='\n'.join(L[i:j+1])
    k=re.search(r'\bProof\b[^.]*\.',blk)
    if not k: return None
    name=m[2] or f'Goal@{i+1}'
    if m[1]=='Goal':
        new='\n'*(j-i)
    else:
        head=blk[:k.start()]
        new=head+'Proof. Admitted.'
        new+='\n'*(blk.count('\n')-new.count('\n'))
    L[i:j+1]=new.split('\n')
    open(path,'w').write('\n'.join(L))
    return name
def run(name):
    mu=MUTANTS[name]
    d=f'/tmp/mut/{name}'
    shutil.rmtree(d,ignore_errors=True); os.makedirs('/tmp/mut',exist_ok=True)
    shutil.copytree(BASE,d)
    p=d+'/theories/'+mu['file']; s=open(p).read()
    assert s.count(mu['old'])>=1,(name,'old text not found')
    n=mu.get('count',1)
    if s.count(mu['old'])>1 and 'count' not in mu: print(name,'warning: several occurrences, first replaced')
    open(p,'w').write(s.replace(mu['old'],mu['new'],n))
    man=json.load(open(BASE_MANIFEST))
    thms=sorted({t for c in man['claims'] for t in c['theorems']})
    have={m[2] for f in files(d) for l in open(d+'/'+f) for m in [START.match(l)] if m}
    missing=[t for t in thms if t not in have]
    assert not missing,('scratch copy lacks manifest theorems',missing)
    for f,o,n in mu.get('also',[]):
        q=d+'/theories/'+f; s=open(q).read(); assert s.count(o)>=1,(name,f,o); open(q,'w').write(s.replace(o,n))
    dp=deps(d); stale={'theories/'+mu['file']}|{'theories/'+f for f,_,_ in mu.get('also',[])}
    broken=[]; dead=[]
    for f in files(d):
        if f not in stale and not any(x in stale for x in dp.get(f,[])): continue
        if f.endswith('Fidelity.v'): continue
        stale.add(f)
        if any(x in dead for x in dp.get(f,[])): dead.append(f); continue
        for attempt in range(200):
            try:
                r=subprocess.run(['bash','-c',f'ulimit -v 6000000; exec timeout 400 coqc -Q theories Verif {f}'],cwd=d,capture_output=True,text=True)
                err=r.stderr
            except Exception as e: err=str(e); r=None
            if r and r.returncode==0: break
            m=re.findall(r'File "\./?(?:\S+/)?[^"]*", line (\d+)',err)
            if not m:
                # timeout or memory: find the slow proof by bisection is not worth it
                dead.append(f); broken.append((f,'(no location: timeout?)')); break
            nm=admit(d+'/'+f,int(m[-1]))
            if nm is None:
                dead.append(f); broken.append((f,f'(definition at line {m[-1]}: {err.strip()[-200:]})')); break
            broken.append((os.path.basename(f),nm))
    # assumptions
    mods={}
    for f in files(d):
        if f in dead: continue
        for l in open(d+'/'+f):
            m=START.match(l)
            if m: mods.setdefault(m[2],os.path.basename(f)[:-2])
    # several modules may reuse a helper name; the manifest names are unique
    src=''.join(f'Require Verif.{x}.\n' for x in sorted({mods[t] for t in thms if t in mods}))
    src+=''.join(f'Goal True. idtac "@@ {t}". exact I. Qed.\nPrint Assumptions Verif.{mods[t]}.{t}.\n' for t in thms if t in mods)
    open(d+'/PA.v','w').write(src)
    r=subprocess.run(['coqc','-Q','theories','Verif','PA.v'],cwd=d,capture_output=True,text=True)
    unchecked=[t for t in thms if t not in mods]
    failed=[]
    bl={b for _,b in broken}
    cur=None
    for l in r.stdout.split('\n'):
        if l.startswith('@@'): cur=l[3:].strip()
        else:
            m=re.match(r'^([\w\'.]+)\s*(:|$)',l)
            if m and m[1].split('.')[-1] in bl and cur not in failed: failed.append(cur)
    if r.returncode!=0: raise RuntimeError('assumptions could not be printed: '+r.stderr[-500:])
    direct=[b for _,b in broken if b in thms]
    shutil.rmtree(d,ignore_errors=True)
    return dict(mutant=name,definition=mu['def'],edit=f"{mu['file']}: {mu['old']!r} -> {mu['new']!r}",claim=mu['claim'],
        theorems_failed=sorted(failed),theorems_broken_directly=sorted(set(direct)),
        theorems_not_checked=sorted(unchecked),also=[f'{f}: {o!r} -> {n!r}' for f,o,n in mu.get('also',[])],
        broken_proofs=[f'{f}:{b}' for f,b in broken],tightened=mu.get('tightened',[]))
if __name__=='__main__':
    done=set()
    for l in (open(LOG) if os.path.exists(LOG) else []):
        r=json.loads(l)
        if 'theorems_broken_directly' in r: done.add(r['mutant'])
    names=sys.argv[1:] or [n for n in MUTANTS if n not in done]
    for n in names:
        t=time.time(); r=run(n)
        print(n,'failed:',r['theorems_failed'],'broken:',r['broken_proofs'],f'{time.time()-t:.0f}s',flush=True)
        with open(LOG,'a') as f: f.write(json.dumps(r)+'\n')
