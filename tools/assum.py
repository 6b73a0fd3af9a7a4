import json,subprocess,re,os,sys
base=sys.argv[1]
man=json.load(open('/verif/MANIFEST.json'))
ths=[t for c in man['claims'] for t in c['theorems']]
mods=[l.split('/')[-1][:-2] for l in open(base+'/_CoqProject').read().split() if l.endswith('.v')]
loc={}
for m in mods:
    s=open(f'{base}/theories/{m}.v').read()
    for x in re.findall(r'^\s*(?:Theorem|Lemma|Corollary)\s+(\w+)',s,re.M): loc.setdefault(x,m)
f=open('/tmp/pa/pa.v','w')
for m in mods: f.write(f'Require Verif.{m}.\n')
for t in ths: f.write(f'Print Assumptions Verif.{loc[t]}.{t}.\n')
f.close()
r=subprocess.run(['coqc','-q','-w','none','-Q',base+'/theories','Verif','/tmp/pa/pa.v'],capture_output=True,text=True)
ch=[c for c in re.split(r'^(?=Closed under|Axioms:)',r.stdout,flags=re.M) if c.strip()]
assert len(ch)==len(ths),(len(ch),len(ths),r.stderr[:500])
g={}
for t,c in zip(ths,ch):
    ax=tuple(sorted(set(re.findall(r'^([\w.]+)\s*:',c,re.M))-{'Axioms'}))
    g.setdefault(ax,[]).append(t)
out=[]
for ax,ts in sorted(g.items(),key=lambda x:len(x[0])):
    out.append('* '+('no axioms ("Closed under the global context")' if not ax else ', '.join(f'`{a}`' for a in ax))+f' — {len(ts)} theorems: '+', '.join(ts)+'.')
open('/tmp/pa/out.md','w').write('\n'.join(out)+'\n')
print([(k,len(v)) for k,v in g.items()])
