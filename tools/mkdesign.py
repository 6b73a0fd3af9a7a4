import json,re,os
V='/verif'
props=[json.loads(l) for l in open(V+'/properties.jsonl')]
man={c['property']:c for c in json.load(open(V+'/MANIFEST.json'))['claims']}
mods=[l.split('/')[-1][:-2] for l in open(V+'/rocq/_CoqProject').read().split() if l.endswith('.v')]
loc={}
for m in mods:
    s=open(f'{V}/rocq/theories/{m}.v').read()
    for x in re.findall(r'^\s*(?:Theorem|Lemma|Corollary)\s+(\w+)',s,re.M): loc.setdefault(x,m)
METH=json.load(open('/tmp/w/methods.json'))
rows=[]
for p in props:
    i=p['id']; c=man[i]
    files=[]
    for t in c['theorems']:
        if loc[t] not in files: files.append(loc[t])
    code=', '.join('`'+a.replace('gensit/','')+'`' for a in p['anchors'])
    rows.append(f"| {i} | {p['title']} | {code} | {', '.join(files)} | {METH.get(i,'')} | {c['status']} |")
    if i not in METH: print('no method',i)
tmpl=open('/tmp/w/design.tmpl').read()
tmpl=tmpl.replace('@@MORE@@\n',open('/tmp/w/design_more.md').read())
out=tmpl.replace('@@ROWS@@','\n'.join(rows)).replace('@@AX@@',open('/tmp/pa/out.md').read())
open(V+'/DESIGN.md','w').write(out)
