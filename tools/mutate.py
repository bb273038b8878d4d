#!/usr/bin/env python3
"""Mutation runner.  usage: mutate.py mutations.json [workers]
Each mutation: {"file","definition","old","new","edit","claim"[,"count"]}.
Works on a scratch copy outside /verif.  Proofs that no longer go through are replaced by Admitted in the
scratch copy so that Print Assumptions in the Properties files reveals every property theorem affected."""
import sys,os,re,json,subprocess,shutil,tempfile
from concurrent.futures import ThreadPoolExecutor
SRC='/verif/rocq'
HEAD=re.compile(r'^\s*(?:Local |Global |#\[[^\]]*\]\s*)?(Lemma|Theorem|Example|Corollary|Remark|Fact|Proposition|Definition|Fixpoint|Instance|Record|Inductive|Ltac|Notation|Function|Program)\s+(\w+)')
def files(): return [l.strip() for l in open(SRC+'/_CoqProject') if l.strip().endswith('.v')]
def deps(d,f):
    s=open(f'{d}/{f}').read(); r=[]
    for m in re.finditer(r'From Verif Require (?:Import|Export)\s+([^.]*)\.',s): r+=m.group(1).split()
    return ['theories/'+x+'.v' for x in r]
def run(mut):
    d=tempfile.mkdtemp(prefix='mut_',dir='/tmp')
    try:
        shutil.copytree(SRC,d+'/r',dirs_exist_ok=True); d2=d+'/r'
        p=f"{d2}/theories/{mut['file']}"; s=open(p).read()
        n=s.count(mut['old'])
        if n==0: return dict(mut,error='pattern not found')
        if n>1 and 'count' not in mut: return dict(mut,error=f'pattern occurs {n} times')
        s=s.replace(mut['old'],mut['new'],mut.get('count',1)); open(p,'w').write(s)
        changed={'theories/'+mut['file']}; failed=[]; props=[]; broken=None
        for f in files():
            if f not in changed and not (set(deps(d2,f))&changed): continue
            changed.add(f)
            for it in range(200):
                r=subprocess.run(['timeout','900','coqc','-Q','theories','Verif',f],cwd=d2,capture_output=True,text=True)
                if r.returncode==0: break
                ms=re.findall(r'line (\d+), characters',r.stderr)
                if not ms and r.returncode!=124: broken=f+': '+r.stderr[-300:]; break
                if r.returncode==124 and not ms: broken=f+': timeout'; break
                ln=int(ms[-1]); L=open(f'{d2}/{f}').read().split('\n')
                i=ln-1
                while i>=0 and not (HEAD.match(L[i]) and HEAD.match(L[i]).group(1)!='Ltac'): i-=1
                kind,name=HEAD.match(L[i]).groups()
                j=i
                while j<len(L) and not re.search(r'\b(Qed|Defined|Admitted)\.',L[j]): j+=1
                if j>=len(L): broken=f'{f}:{ln} in {kind} {name}: '+r.stderr[-300:]; break
                k=i
                while k<=j and not re.search(r'\bProof\b',L[k]): k+=1
                if kind in('Definition','Fixpoint','Inductive','Record','Ltac','Notation','Instance','Function') or k>j:
                    broken=f'{f}:{ln} in {kind} {name}: '+r.stderr[-300:]; break
                pre=L[k][:L[k].index('Proof')]
                post=re.split(r'\b(?:Qed|Defined|Admitted)\.',L[j],1)[1]
                L[k:j+1]=[pre+'Admitted.'+post]+['']*(j-k)
                open(f'{d2}/{f}','w').write('\n'.join(L))
                failed.append(name)
            if broken: break
            if '/Properties' in f:
                src=open(f'{d2}/{f}').read()
                names=re.findall(r"\bPrint Assumptions (\w+)\.",src)
                outs=re.findall(r'^(Closed under the global context|Axioms:(?:\n(?!Closed under|Axioms:).*)*)',r.stdout,re.M)
                for nm,o in zip(names,outs):
                    ax={a.split('.')[-1] for a in re.findall(r'^([A-Za-z_][\w.]*)\s*(?::|$)',o,re.M)}
                    if ax&set(failed): props.append(nm)
        return dict(mut,failed=failed,props=props,broken=broken)
    finally: shutil.rmtree(d,ignore_errors=True)
if __name__=='__main__':
    snap=tempfile.mkdtemp(prefix='mutsnap_',dir='/tmp'); shutil.copytree(SRC,snap+'/r'); SRC=snap+'/r'
    muts=json.load(open(sys.argv[1])); w=int(sys.argv[2]) if len(sys.argv)>2 else 2
    with ThreadPoolExecutor(w) as ex:
        for r in ex.map(run,muts):
            if r.get('broken') and not r['props']: r['error']='invalid: '+r['broken']
            if r.get('error'): print('ERROR',r['definition'],r['error'],flush=True); continue
            print(('KILLED ' if r['props'] or r['broken'] else 'SURVIVED ')+r['definition'],'|',r['edit'],'| props',r['props'],'| lemmas',r['failed'][:6],'|',r['broken'],flush=True)
            tight=r.get('tightened',[])
            with open('/verif/seeded/LOG.jsonl','a') as g:
                g.write(json.dumps(dict(definition=r['definition'],edit=r['edit'],claim_broken=r['claim'],
                  theorems_failed=r['props'],first_lemmas_failed=r['failed'][:4],survived=not(r['props'] or r['broken']),theorems_tightened=tight))+'\n')
    shutil.rmtree(snap,ignore_errors=True)
