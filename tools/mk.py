import re,json,glob,os
V='/verif'
src=sorted(glob.glob(V+'/rocq/theories/*.v'))
notes=json.load(open('/verif/tools/notes.json')) if os.path.exists('/verif/tools/notes.json') else {}
ths={}
for f in src:
    if not os.path.basename(f).startswith('Properties'): continue
    for m in re.finditer(r'^Theorem (C\d+)_(\w+)',open(f).read(),re.M):
        ths.setdefault(m.group(1),[]).append(m.group(1)+'_'+m.group(2))
props=[json.loads(l) for l in open(V+'/properties.jsonl')]
claims=[]
for p in props:
    i=p['id']; t=ths.get(i,[])
    n=notes.get(i,{})
    st=n.get('status')
    if not st:
        if not t: st='not_applicable'
        elif any(x.endswith('_partial') or x.endswith('_refuted') for x in t): st='partial'
        else: st='proved'
    note=n.get('note','' if t else 'not modelled yet')
    claims.append(dict(property=i,status=st,theorems=t,note=note))
bad=set(ths)-{p['id'] for p in props}
assert not bad,bad
json.dump({'claims':claims},open(V+'/MANIFEST.json','w'),indent=1)
open(V+'/rocq/_CoqProject','w').write('-Q theories Verif\n'+''.join('theories/'+os.path.basename(f)+'\n' for f in src))
from collections import Counter
print(Counter(c['status'] for c in claims), sum(len(c['theorems']) for c in claims))
