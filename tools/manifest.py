# regenerate MANIFEST.json from theorem names C??_* in P_*.v
import re,glob,json
thms={}
for f in sorted(glob.glob('/verif/rocq/theories/P_*.v')):
    for m in re.finditer(r'^Theorem (C(\d{2,3})_\w+)',open(f).read(),re.M):
        thms.setdefault('C'+m.group(2),[]).append(m.group(1))
notes=json.load(open('/verif/notes.json')) if glob.glob('/verif/notes.json') else {}
props=[json.loads(l)['id'] for l in open('/verif/properties.jsonl')]
claims=[]
for p in props:
    t=thms.get(p,[])
    if not t: continue
    st='partial' if any(x.endswith('_partial') or x.endswith('_refuted') for x in t) else 'proved'
    claims.append({'property':p,'status':st,'theorems':t,'note':notes.get(p,'')})
json.dump({'claims':claims},open('/verif/MANIFEST.json','w'),indent=1)
print(len(claims),sum(len(c['theorems']) for c in claims))
