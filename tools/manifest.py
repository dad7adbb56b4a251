#!/usr/bin/env python3
# Regenerates MANIFEST.json: every theorem named Cnn_... in Prop*.v is filed under Cnn.
import re,glob,json,collections
th=collections.OrderedDict()
for f in sorted(glob.glob('/verif/rocq/theories/Prop*.v')):
    for m in re.finditer(r'^Theorem (C(\d\d)_\w+)',open(f).read(),re.M):
        th.setdefault('C'+m.group(2),[]).append(m.group(1))
notes=json.load(open('/verif/tools/notes.json'))
props=[json.loads(l) for l in open('/verif/properties.jsonl')]
claims=[]
for p in props:
    i=p['id']; n=notes.get(i,{})
    if i in th:
        st=n.get('status','partial' if all(t.endswith('_partial') for t in th[i]) else 'proved')
        claims.append(dict(property=i,status=st,theorems=th[i],note=n.get('note','')))
    elif 'status' in n: claims.append(dict(property=i,status=n['status'],theorems=[],note=n.get('note','')))
    else: print('no theorem yet for',i)
json.dump({'claims':claims},open('/verif/MANIFEST.json','w'),indent=1)
