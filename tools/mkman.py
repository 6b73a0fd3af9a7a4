import json,re,glob,os,sys
sys.path.insert(0,'/tmp/w')
from status import STATUS
names={}
for f in sorted(glob.glob('/verif/rocq/theories/*.v')):
    for m in re.finditer(r'^ *(?:Theorem|Corollary) (C\d\d\d?_\w+)',open(f).read(),re.M):
        names.setdefault(m.group(1).split("_")[0],[]).append(m.group(1))
claims=[]
for l in open('/verif/properties.jsonl'):
    i=json.loads(l)['id']
    if i in STATUS and i in names:
        st,note=STATUS[i]
        claims.append({"property":i,"status":st,"theorems":names[i],"note":note})
    else: print('missing',i, i in names)
json.dump({"claims":claims},open('/verif/MANIFEST.json','w'),indent=1)
