#!/usr/bin/env python3
"""usage: mut.py muts.json   -- each: {"file","old","new","claim","theorems"}; runs each edit in a scratch
copy of /verif/rocq, rebuilds, and appends one line to /verif/seeded/LOG.jsonl."""
import sys,json,os,re,subprocess,shutil,concurrent.futures as cf
SRC='/verif/rocq'
def enclosing(path,line):
    name=None
    for i,l in enumerate(open(path),1):
        if i>line: break
        m=re.match(r'\s*(?:Local )?(Lemma|Theorem|Definition|Fixpoint|Example|Corollary|Inductive|Instance)\s+(\w+)',l)
        if m: name=m.group(2)
    return name
def run(k,m):
    d=f'/tmp/scratch/m{k}'
    shutil.rmtree(d,ignore_errors=True); shutil.copytree(SRC,d)
    p=f"{d}/theories/{m['file']}"
    s=open(p).read()
    c=s.count(m['old'])
    if c!=1: return k,m,('BADEDIT',c),[]
    open(p,'w').write(s.replace(m['old'],m['new']))
    defn=enclosing(p,s[:s.index(m['old'])].count('\n')+1)
    subprocess.run('coq_makefile -f _CoqProject -o Makefile >/dev/null',shell=True,cwd=d)
    r=subprocess.run('make -k -j2 2>&1',shell=True,cwd=d,capture_output=True,text=True)
    fails=[]
    for f,l in re.findall(r'File "\./(theories/\w+\.v)", line (\d+)',r.stdout):
        if 'Warning' in r.stdout.split(f'File "./{f}", line {l}')[1][:120]: continue
        fails.append((os.path.basename(f),enclosing(f'{d}/{f}',int(l))))
    shutil.rmtree(d,ignore_errors=True)
    return k,m,(defn,r.returncode),fails
def main():
    muts=json.load(open(sys.argv[1])); os.makedirs('/tmp/scratch',exist_ok=True)
    with cf.ThreadPoolExecutor(2) as ex:
        for k,m,(defn,rc),fails in ex.map(lambda t:run(*t),enumerate(muts)):
            if defn=='BADEDIT': print('BADEDIT',rc,m); continue
            st='KILLED' if rc!=0 else 'SURVIVED'
            print(st,m['file'],defn,'|',m['claim'],'|',fails)
            json.dump({"definition":f"{m['file']}: {defn}","edit":f"{m['old']}  ==>  {m['new']}","claim_broken":m['claim'],
              "theorems_failed":[f"{a}: {b}" for a,b in fails]+([f"(hence) {t}" for t in m.get('theorems',[])] if fails else []),
              "result":st,"theorems_tightened":m.get('tightened',[])},open('/tmp/scratch/out.json','w'))
            open('/verif/seeded/LOG.jsonl','a').write(open('/tmp/scratch/out.json').read()+'\n')
main()
