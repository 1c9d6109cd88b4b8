#!/usr/bin/env python3
"""MANIFEST.json generator: theorem lists are read from the *Props.v files
(any Theorem named Cnn_...); status and notes are given here."""
import re,glob,json,os
root=os.path.dirname(os.path.dirname(os.path.abspath(__file__)))
th={}
for f in sorted(glob.glob(root+'/rocq/theories/*Props*.v')):
    for m in re.finditer(r'^[ \t]*Theorem\s+((C\d\d\d?)_\w+)',open(f).read(),re.M):
        th.setdefault(m.group(2),[]).append(m.group(1))
notes={}
exec(open(root+'/tools/notes.py').read())
claims=[]
props=[json.loads(l)['id'] for l in open(root+'/properties.jsonl') if l.strip()]
for p in props:
    if p in th:
        st,note=notes.get(p,(None,None))
        if st is None:
            st='partial' if any(t.endswith('_refuted') or t.endswith('_partial') for t in th[p]) else 'proved'
            note=note or ''
        claims.append(dict(property=p,status=st,theorems=th[p],note=note or ''))
    elif p in notes:
        claims.append(dict(property=p,status=notes[p][0],theorems=[],note=notes[p][1]))
json.dump({"claims":claims},open(root+'/MANIFEST.json','w'),indent=1)
print(len(claims),'claims;',sum(c['status']=='proved' for c in claims),'proved; missing',[p for p in props if p not in [c['property'] for c in claims]])
for p in th:
    if p not in props: print('no property for',p)
    if p not in notes: print('no note for',p)
