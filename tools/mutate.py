#!/usr/bin/env python3
"""Apply each mutant (old -> new text in one model file) to a scratch copy, rebuild, and report
which declarations fail.  usage: mutate.py mutants.json [--log]   (see seeded/)"""
import json, os, re, shutil, subprocess, sys, glob
SRC=os.environ.get('MUT_SRC','/verif/rocq')
def run(ms, log):
    for idx,m in enumerate(ms):
        d=os.environ.get('MUT_DIR','/tmp/mut/w')
        if not os.path.isdir(d):
            shutil.copytree(SRC,d,symlinks=True)
        # restore every file from SRC that differs (keeping timestamps so .vo stay valid)
        subprocess.run(['rsync','-a','--delete',SRC+'/',d+'/'],check=True) if shutil.which('rsync') else (shutil.rmtree(d), shutil.copytree(SRC,d,symlinks=True))
        f=os.path.join(d,'theories',m['file'])
        s=open(f).read()
        if s.count(m['old'])<1:
            print(idx,'OLD TEXT NOT FOUND',m['file'],m['old'][:60]); continue
        n=m.get('nth',0)
        parts=s.split(m['old'])
        if len(parts)>2 and 'nth' not in m:
            print(idx,'warning: %d occurrences, first used'%(len(parts)-1))
        s=m['old'].join(parts[:n+1])+m['new']+m['old'].join(parts[n+1:])
        open(f,'w').write(s)
        r=subprocess.run('timeout 400 make -k -j4 2>&1',shell=True,cwd=d,capture_output=True,text=True)
        fails=[]
        for g in re.finditer(r'File "\./?(theories/\w+\.v)", line (\d+)',r.stdout):
            fn,ln=g.group(1),int(g.group(2))
            ls=open(os.path.join(d,fn)).read().split('\n')
            nm='?'
            for i in range(min(ln,len(ls))-1,-1,-1):
                q=re.match(r'\s*(?:Local |Global |#\[.*\] )?(Theorem|Lemma|Example|Definition|Fixpoint|Corollary|Remark|Fact|Instance)\s+([\w\']+)',ls[i])
                if q: nm=q.group(2); break
            fails.append(os.path.basename(fn)[:-2]+'.'+nm)
        err=[l for l in r.stdout.split('\n') if l.startswith('Error')][:2]
        surv = (r.returncode==0)
        print(idx, m['definition'], '|', m['edit'], '->', 'SURVIVED' if surv else fails, '' if surv else err, flush=True)
        if log:
            rec={'definition':m['definition'],'edit':m['edit'],'claim':m['claim'],'theorems_failed':fails,'theorems_tightened':m.get('tightened',[])}
            if surv: rec['note']=m.get('note','survived')
            open('/verif/seeded/LOG.jsonl','a').write(json.dumps(rec)+'\n')
if __name__=='__main__':
    run(json.load(open(sys.argv[1])), '--log' in sys.argv)
