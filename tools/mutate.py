#!/usr/bin/env python3
"""Seeded-bug test. Usage: mutate.py FILE.v 'old text' 'new text' 'definition' 'claim it breaks' [tightened...]
Works in /tmp/mut (a scratch copy). Edits the model, recompiles the edited file and everything that
requires it; a lemma whose proof breaks is recorded and admitted in the scratch copy only, so that
Print Assumptions then shows which property theorems depend on a broken proof.
Prints the result and, with LOG=1, appends it to /verif/seeded/LOG.jsonl."""
import sys,os,re,subprocess,json,shutil
SRC='/verif/rocq'; W='/tmp/mut'
f,old,new,defn,claim=sys.argv[1:6]; tight=sys.argv[6:]
files=[l.strip() for l in open(SRC+'/_CoqProject') if l.strip().endswith('.v')]
os.makedirs(W+'/theories',exist_ok=True)
for x in os.listdir(SRC+'/theories'):
    if x.endswith(('.v','.vo')): 
        s=SRC+'/theories/'+x; d=W+'/theories/'+x
        shutil.copy2(s,d)
p=W+'/theories/'+f
t=open(p).read()
if t.count(old)!=1: print('old text occurs',t.count(old),'times'); sys.exit(2)
open(p,'w').write(t.replace(old,new))
# dependency closure
req={}
for x in files:
    b=os.path.basename(x)[:-2]
    req[b]=set(re.findall(r'\b(\w+)\b',' '.join(re.findall(r'From Verif Require (?:Import|Export)([^.]*)\.',open(SRC+'/'+x).read()))))
dirty={f[:-2]}; order=[os.path.basename(x)[:-2] for x in files]
todo=[]
for b in order:
    if b==f[:-2] or req[b]&dirty: dirty.add(b); todo.append(b)
failed=[]; props=[]; note=[]
def compile(b):
    try:
        r=subprocess.run(['coqc','-Q','theories','Verif','theories/%s.v'%b],cwd=W,capture_output=True,text=True,timeout=float(os.environ.get('MT','240')))
        return r.returncode,r.stdout,r.stderr
    except subprocess.TimeoutExpired:
        return 99,'','timeout'
for b in todo:
    path=W+'/theories/%s.v'%b
    stop=False
    while True:
        rc,out,err=compile(b)
        if rc==0: break
        m=re.search(r'line (\d+), characters',err)
        if not m:
            note.append('%s: %s'%(b,err.strip()[-200:])); stop=True; break
        L=open(path).read().split('\n'); ln=int(m.group(1))-1
        i=ln
        while i>=0 and not re.match(r'\s*(Local |Global )?(Lemma|Theorem|Example|Corollary|Fact|Remark)\b',L[i]): i-=1
        nm=re.match(r"\s*(?:Local |Global )?\w+ ([\w']+)",L[i]).group(1) if i>=0 else '?'
        j=i
        while 0<=j<len(L) and not re.search(r'\bProof\b',L[j]): j+=1
        k=j
        while k<len(L) and not re.search(r'\b(Qed|Defined|Admitted)\.',L[k]): k+=1
        if i<0 or k<ln or nm in failed:
            note.append('%s:%d %s: %s'%(b,ln+1,nm,err.strip()[-300:])); stop=True; break
        failed.append(nm)
        head=L[j][:L[j].index('Proof')]; tail=re.split(r'\b(?:Qed|Defined)\.',L[k],1)[1]
        L[j:k+1]=[head+'Proof. Admitted.'+tail]+['']*(k-j)
        open(path,'w').write('\n'.join(L))
    if stop: break
    if b.endswith('_Props'):
        src=open(path).read()
        names=re.findall(r'Print Assumptions ([\w\']+)\.',src)
        chunks=re.split(r'(?m)^(?=Closed under the global context|Axioms:)',out)
        chunks=[c for c in chunks if c.strip()]
        for n,c in zip(names,chunks):
            if any(re.search(r'(^|\.)%s\b'%re.escape(x),l) for x in failed for l in c.split('\n')): props.append(n)
            elif n in failed: props.append(n)
rec={'definition':f+': '+defn,'edit':old.strip()+'  ==>  '+new.strip(),'claim_broken':claim,'theorems_failed':props,'lemmas_failed':failed,'theorems_tightened':tight}
if note: rec['note']=note
print(json.dumps(rec,indent=1))
if os.environ.get('LOG'):
    open('/verif/seeded/LOG.jsonl','a').write(json.dumps(rec)+'\n')
