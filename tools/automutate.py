#!/usr/bin/env python3
"""automatic mutants. usage: am.py WORKER NWORKERS SEED PERDEF [file regex]"""
import sys,os,re,subprocess,json,shutil,random,time
k,n,seed,per=int(sys.argv[1]),int(sys.argv[2]),int(sys.argv[3]),int(sys.argv[4])
pat=sys.argv[5] if len(sys.argv)>5 else r'.*_Model'
SRC='/verif/rocq'; W='/tmp/am%d'%k
files=[l.strip() for l in open(SRC+'/_CoqProject') if l.strip().endswith('.v')]
order=[os.path.basename(x)[:-2] for x in files]
os.makedirs(W+'/theories',exist_ok=True)
def sync(b):
    for e in ('.v','.vo'):
        s=SRC+'/theories/'+b+e
        if os.path.exists(s): shutil.copy2(s,W+'/theories/'+b+e)
for b in order: sync(b)
req={}
for b in order:
    req[b]=set(re.findall(r'\b(\w+)\b',' '.join(re.findall(r'From Verif Require (?:Import|Export)([^.]*)\.',open(SRC+'/theories/%s.v'%b).read()))))
def strip_comments(t):
    out=[];d=0;i=0
    while i<len(t):
        if t.startswith('(*',i): d+=1;out.append('  ');i+=2
        elif t.startswith('*)',i) and d: d-=1;out.append('  ');i+=2
        else: out.append(t[i] if d==0 or t[i]=='\n' else ' ');i+=1
    return ''.join(out)
OPS=[(r'<=\?','<?'),(r'(?<![<])<\?','<=?'),(r' \+ ',' - '),(r' - ',' + '),(r'&&','||'),(r'\|\|','&&'),(r'\btrue\b','false'),(r'\bfalse\b','true'),
     (r'\bnegb ',''),(r'=\?','<?'),(r'\bZ\.lor\b','Z.land'),(r'\bZ\.land\b','Z.lor'),(r'\bZ\.lxor\b','Z.lor'),(r'\bZ\.shiftl\b','Z.shiftr'),(r'\bZ\.shiftr\b','Z.shiftl'),
     (r' \* ',' + '),(r' / ',' * '),(r' mod ',' / '),(r'\bu32 \(','u64 ('),(r'\bu64 \(','u32 ('),(r'\bchk64\b','chk32'),(r'\bchk32\b','chk64')]
muts=[]
rnd=random.Random(seed)
for b in order:
    if not re.fullmatch(pat,b): continue
    t=open(SRC+'/theories/%s.v'%b).read(); c=strip_comments(t)
    heads=[(m.start(),m.group(1)) for m in re.finditer(r'(?m)^\s*(?:Definition|Fixpoint|Let)\s+([\w\']+)',c)]
    ends=[m.start() for m in re.finditer(r'(?m)^\s*(?:Definition|Fixpoint|Inductive|Record|Section|End|Variable|Context|Arguments|Notation|Lemma|Module|Let|Hypothesis)\b',c)]+[len(c)]
    for st,name in heads:
        en=min(e for e in ends if e>st)
        body=c[st:en]
        p=body.find(':=')
        cand=[]
        for rx,new in OPS:
            for m in re.finditer(rx,body):
                if m.start()>p: cand.append((st+m.start(),st+m.end(),new))
        for m in re.finditer(r'(?<![\w\'])(\d+)(?![\w\'])',body):
            if m.start()>p: cand.append((st+m.start(),st+m.end(),str(int(m.group(1))+1)))
        # swapped arguments of applications f x y with simple idents
        for m in re.finditer(r'(?<![\w\'.])([a-z]\w*)( )([a-z]\w*)( )([a-z]\w*)(?![\w\'])',body):
            if m.start()>p and m.group(3)!=m.group(5) and not set(m.groups())&{'if','then','else','match','with','let','in','fun','end','fix','for','forall','exists','as','return','mod'}:
                cand.append((st+m.start(),st+m.end(),m.group(1)+' '+m.group(5)+' '+m.group(3)))
        rnd.shuffle(cand)
        for x in cand[:per]: muts.append((b,name)+x)
muts=[m for i,m in enumerate(muts) if i%n==k]
print(len(muts),'mutants'); sys.stdout.flush()
MT=float(os.environ.get('MT','400'))
def coqc(b):
    try:
        r=subprocess.run(['coqc','-Q','theories','Verif','theories/%s.v'%b],cwd=W,capture_output=True,text=True,timeout=MT)
        return r.returncode,r.stderr
    except subprocess.TimeoutExpired: return 99,'timeout'
log=open('/root/am/res_%s_%d.jsonl'%(os.environ.get('TAG','a'),k),'a')
for b,name,s,e,new in muts:
    t=open(SRC+'/theories/%s.v'%b).read()
    ls=t.rfind('\n',0,s)+1; le=t.find('\n',e)
    if le<0: le=len(t)
    old_line=t[ls:le].strip(); mt=t[:s]+new+t[e:]; new_line=(t[ls:s]+new+t[e:le]).strip()
    open(W+'/theories/%s.v'%b,'w').write(mt)
    t0=time.time(); dirty={b}; touched=[b]; verdict='SURVIVED'; where=''
    rc,err=coqc(b)
    if rc!=0: verdict='illtyped'
    else:
        for x in order[order.index(b)+1:]:
            if not (req[x]&dirty): continue
            dirty.add(x); touched.append(x)
            path=W+'/theories/%s.v'%x
            while True:
                rc,err=coqc(x)
                if rc==0: break
                if rc==99: verdict='killed'; where=x+':timeout'; break
                m=re.search(r'line (\d+), characters',err)
                if not m: verdict='killed'; where=x+':?'; break
                L=open(path).read().split('\n'); ln=int(m.group(1))-1; i=ln
                while i>=0 and not re.match(r'\s*(Local |Global )?(Lemma|Theorem|Example|Corollary|Fact|Remark|Definition|Fixpoint)\b',L[i]): i-=1
                g=re.match(r"\s*(?:Local |Global )?(\w+) ([\w']+)",L[i]) if i>=0 else None
                if g and g.group(1)=='Example':
                    j=i
                    while j<len(L) and not re.search(r'\bProof\b',L[j]): j+=1
                    q=j
                    while q<len(L) and not re.search(r'\b(Qed|Defined|Admitted)\.',L[q]): q+=1
                    head=L[j][:L[j].index('Proof')]
                    L[j:q+1]=[head+'Proof. Admitted.']+['']*(q-j)
                    open(path,'w').write('\n'.join(L)); where+=' [ex %s]'%g.group(2)
                    continue
                verdict='killed'; where=x+':'+(g.group(2) if g else '?'); break
            if verdict=='killed': break
    for x in touched: sync(x)
    rec=dict(file=b,definition=name,old=old_line,new=new_line,verdict=verdict,where=where,secs=round(time.time()-t0))
    log.write(json.dumps(rec)+'\n'); log.flush()
    if verdict=='SURVIVED': print('SURVIVED',json.dumps(rec)); sys.stdout.flush()
print('done')
