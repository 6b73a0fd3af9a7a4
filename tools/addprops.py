import json,sys
def add(props,status):
    have={json.loads(l)['id'] for l in open('/verif/properties.jsonl')}
    with open('/verif/properties.jsonl','a') as f:
        for i,t,s,q,w,a in props:
            if i in have: print('have',i); continue
            f.write(json.dumps(dict(id=i,title=t,statement=s,quantifier=q,why_tests_cant=w,anchors=a))+"\n")
    s=open('/tmp/w/status.py').read().rstrip(); assert s.endswith('}')
    body=s[:-1]
    for k,(st,n) in status.items(): body+=f"{k!r}:({st!r},{n!r}),\n"
    open('/tmp/w/status.py','w').write(body+"}\n")
