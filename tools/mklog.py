#!/usr/bin/env python3
"""Convert the mutation runner's raw records (argv[1]) into seeded/LOG.jsonl.
theorems_failed: every property theorem whose proof uses a lemma that no longer proves
(closure over the identifiers that occur in proof texts)."""
import json,re,sys,glob,os
here=os.path.dirname(os.path.abspath(__file__)); root=os.path.dirname(here)
ents={}; byname={}; own={}
pat=re.compile(r'^\s*(?:Local\s+|#\[[^\]]*\]\s*)?(Lemma|Theorem|Example|Corollary|Definition|Fixpoint|Remark|Fact|Instance|Inductive|Record)\s+([\w\']+)',re.M)
for f in glob.glob(root+'/rocq/theories/*.v'):
    t=open(f).read(); ms=list(pat.finditer(t)); b=os.path.basename(f)
    for i,m in enumerate(ms):
        body=t[m.end(): ms[i+1].start() if i+1<len(ms) else len(t)]
        ents[(b,m.group(2))]=set(re.findall(r"[\w']+",body))
        byname.setdefault(m.group(2),[]).append(b)
        own.setdefault(b,set()).add(m.group(2))
    for x in re.findall(r'^Ltac\s+(\w+)(.*?)\.\s*$',t,re.M|re.S):
        ents[(b,x[0])]=set(re.findall(r"[\w']+",x[1])); own.setdefault(b,set()).add(x[0]); byname.setdefault(x[0],[]).append(b)
def closure(n):
    seen=set();st=[n]
    while st:
        x=st.pop()
        if x in seen or x not in ents: continue
        seen.add(x); b=x[0]
        for y in ents[x]:
            if y in own.get(b,()): st.append((b,y))
            else: st+=[(c,y) for c in byname.get(y,())]
    return seen
thms={n[1]:closure(n) for n in ents if re.match(r'C\d+_',n[1])}
TIGHT={('comm_incl','one-process Incl ignores its argument'):['C05_incl'],
('clamp','positive slice bound not clamped to the axis length'):['C26_slice_positions','C26_getitem_in_range'],
('smear_compute_occ','smearing energy without weights'):['C29_smearing_energy']}
try: TIGHT.update({tuple(k):v for k,v in json.load(open(here+'/tightened.json'))})
except FileNotFoundError: pass
out=open(root+'/seeded/LOG.jsonl','w'); n=0
for l in open(sys.argv[1]):
    r=json.loads(l)
    failed=[f for f in r['failed'] if f!='KSHamProofs.v:csum3_swap' or r['definition'] in('csum3',)]
    names=[tuple(f.split(':')[-2:]) for f in failed]
    th=sorted({t for t,c in thms.items() if any(x in c for x in names)})
    rec={'definition':r['file']+':'+r['definition'],'edit':r['edit'],'claim':r['claim'] or ', '.join(sorted({t.split('_')[0] for t in th})),
         'first_failing_lemmas':failed,'theorems_failed':th,
         'theorems_tightened':TIGHT.get((r['definition'],r['edit']),[])}
    out.write(json.dumps(rec)+'\n'); n+=1
    if failed and not th: print('note: no C theorem in closure', r['definition'],r['edit'],failed)
print(n,'records')
