"""reads python list from stdin: entries (id,title,statement,quantifier,why,anchors,finding|None,status,note)"""
import json,sys,os
root='/verif'
P=root+'/properties.jsonl';S=root+'/tools/status.json'
ps=[json.loads(l) for l in open(P)];st=json.load(open(S))
for e in eval(sys.stdin.read()):
    if len(e)==4:   # id, finding, status, note (existing)
        i,f,s,n=e
        for p in ps:
            if p['id']==i and f: p['finding']=f
        st[i]=[s,n]; continue
    i,t,stt,q,w,a,f,s,n=e
    d=dict(id=i,title=t,statement=stt,quantifier=q,why_tests_cant=w,anchors=a)
    if f: d['finding']=f
    ps=[p for p in ps if p['id']!=i]+[d]
    if s: st[i]=[s,n]
ps.sort(key=lambda p:int(p['id'][1:]))
open(P,'w').write(''.join(json.dumps(p)+'\n' for p in ps))
json.dump(dict(sorted(st.items())),open(S,'w'),indent=0)
