#!/usr/bin/env python3
"""Seeded-bug testing of the theorems, outside /verif.

usage: mutate.py batch.json     (run from anywhere; writes /verif/seeded/LOG.jsonl)
batch.json: list of {file, old, new, edit, claim, definition, [all]}.
Copies rocq/ to /tmp/mut/w, replaces `old` by `new` in `file` (must occur exactly once, or
`nth` picks the occurrence), rebuilds; every proof that breaks is replaced by Admitted in the scratch
copy (only there), so that all broken proofs are found; a claimed theorem counts as failed if it is
broken or Print Assumptions shows it rests on a broken one."""
import json,os,re,shutil,subprocess,sys
V=os.environ.get('MUT_V','/verif/rocq'); W=os.environ.get('MUT_W','/tmp/mut/w')
def sh(c,t=1500):
    try:
        p=subprocess.run(c,shell=True,cwd=W,capture_output=True,text=True,timeout=t)
        return p.returncode,p.stdout+p.stderr
    except subprocess.TimeoutExpired: return 124,'TIMEOUT'
def files(): return [l.strip() for l in open(V+'/_CoqProject') if l.strip().endswith('.v')]
def deps():
    rc,o=subprocess.getstatusoutput(f'cd {V} && coqdep -Q theories Verif theories/*.v 2>/dev/null')
    d={}
    for l in o.splitlines():
        if ':' not in l: continue
        a,b=l.split(':',1)
        m=re.search(r'(\S+)\.vo ',a+' ')
        if m: d[m.group(1)+'.v']=[x[:-1] for x in b.split() if x.endswith('.vo')]
    return d
START=re.compile(r'^\s*(?:Local |Global |#\[.*?\]\s*)?(Lemma|Theorem|Example|Corollary|Fact|Remark|Proposition|Definition|Fixpoint|Instance)\s+([\w\']+)')
def admit_at(path,line):
    L=open(path).read().split('\n')
    i=line-1
    # find enclosing start at or before line
    while i>=0 and not re.match(r'^\s*(?:Local |Global )?(Lemma|Theorem|Example|Corollary|Fact|Remark|Proposition)\b',L[i]): i-=1
    if i<0: return None
    name=START.match(L[i]).group(2)
    # find Proof. after i
    j=i
    while j<len(L) and not re.search(r'\bProof\.',L[j]): j+=1
    if j>=len(L): return None
    k=j
    while k<len(L) and not re.search(r'\b(Qed|Defined)\.',L[k]): k+=1
    if k>=len(L) or line-1<i or line-1>k: return None
    if line-1<j and not re.search(r'\bProof\.',L[line-1]): return None   # statement broken
    pre=L[j][:L[j].index('Proof.')]
    post=re.split(r'\b(?:Qed|Defined)\.',L[k],1)[1]
    L[j:k+1]=[pre+'Proof. Admitted.'+post]
    open(path,'w').write('\n'.join(L)); return name
def hits(failed,claim):
    """the failed theorems that MANIFEST.json lists under a property named in `claim`"""
    man=json.load(open('/verif/MANIFEST.json'))
    ids=set(re.findall(r'C\d+',claim))|{'C'+x for x in re.findall(r'/(\d\d)',claim)}
    of={t for c in man['claims'] if c['property'] in ids for t in c['theorems']}
    return [t for t in failed if t in of or t[:3] in ids]
def run(m):
    if os.path.exists(W): shutil.rmtree(W)
    shutil.copytree(V,W)
    p=f'{W}/theories/{m["file"]}'; s=open(p).read()
    n=s.count(m['old'])
    if n!=1 and 'nth' not in m: return ('badedit',f'{n} occurrences')
    if 'nth' in m:
        parts=s.split(m['old']); k=m['nth']; s2=m['old'].join(parts[:k+1])+m['new']+m['old'].join(parts[k+1:])
    else: s2=s.replace(m['old'],m['new'])
    open(p,'w').write(s2)
    D=deps(); dirty={'theories/'+m['file']}; broken=[]; dead=set(); skipped=set()
    for f in files():
        if not (f in dirty or any(x in dirty for x in D.get(f,[]))): continue
        dirty.add(f)
        if f[len('theories/'):] in m.get('skip',[]): skipped.add(f); continue
        if any(x in dead for x in D.get(f,[])): dead.add(f); continue
        for _ in range(80):
            rc,o=sh(f'timeout 300 coqc -Q theories Verif {f}')
            if rc==0: break
            qs=[x for x in re.finditer(r'File "\./?([^"]+)", line (\d+), characters [^\n]*\n(?=Error)',o)]; q=qs[-1] if qs else None
            nm=admit_at(W+'/'+q.group(1),int(q.group(2))) if q else None
            if nm is None: dead.add(f); print('   dead',f,o[-300:].replace('\n',' ')); break
            broken.append(nm)
        else: dead.add(f)
    man=json.load(open(os.path.dirname(V)+'/MANIFEST.json')); failed=[]
    claims=[t for c in man['claims'] for t in c['theorems']]
    srcs={f:open(W+'/'+f).read() for f in files()}
    q=[];
    for t in claims:
        f=[f for f in files() if re.search(r'(Theorem|Lemma|Example|Corollary)\s+'+re.escape(t)+r'\b',srcs[f])]
        if not f or f[0] in dead: failed.append(t)
        elif f[0] in dirty and f[0] not in skipped: q.append((t,f[0]))
    if q:
        mods=sorted({f[len('theories/'):-2] for _,f in q})
        # one query file per module to avoid name clashes
        for mod in mods:
            body=f'From Verif Require Import {mod}.\n'+''.join(f'Print Assumptions {mod}.{t}.\n' for t,f in q if f=='theories/'+mod+'.v')
            open(W+'/q.v','w').write(body)
            rc,o=sh('coqc -Q theories Verif q.v')
            chunks=re.split(r'^(?=Axioms:|Closed under)',o,flags=re.M)[1:]
            ts=[t for t,f in q if f=='theories/'+mod+'.v']
            for t,c in zip(ts,chunks):
                if t in broken or any(re.search(r'(^|\.|\s)'+re.escape(b)+r'\s*:',c,re.M) for b in broken): failed.append(t)
    return ('ok',broken,sorted(set(failed)),sorted(dead))
if __name__=='__main__':
    os.makedirs('/tmp/mut',exist_ok=True); os.makedirs('/verif/seeded',exist_ok=True)
    for m in json.load(open(sys.argv[1])):
        r=run(m)
        if r[0]!='ok': print('BAD',m['edit'],r); continue
        _,broken,failed,dead=r
        rec=dict(definition=m['definition'],file=m['file'],edit=m['edit'],claim=m['claim'],
                 theorems_failed=failed,broken_proofs=broken[:12],theorems_tightened=m.get('tightened',[]))
        if m.get('note'): rec['note']=m['note']
        want=m['claim'].split()[0]
        hit=hits(failed,m['claim'])
        print(('CAUGHT ' if hit else 'MISSED '),m['definition'],'|',m['edit'],'|',m['claim'],'|',failed, '| dead',dead)
        rec['caught']=bool(hit)
        with open('/verif/seeded/LOG.jsonl','a') as f: f.write(json.dumps(rec)+'\n')
