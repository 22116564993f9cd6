import json,re,glob,os
# theorem -> property by prefix Cnn_
th={}
for f in sorted(glob.glob('/verif/rocq/theories/Props_*.v')):
    for m in re.finditer(r'^Theorem (C\d\d\d?)_(\w+)',open(f).read(),re.M):
        th.setdefault(m.group(1),[]).append(m.group(1)+'_'+m.group(2))
notes=json.load(open('/verif/tools/notes.json')) if os.path.exists('/verif/tools/notes.json') else {}
claims=[]
for l in open('/verif/properties.jsonl'):
    d=json.loads(l); i=d['id']
    ts=th.get(i,[])
    if not ts: 
        continue
    n=notes.get(i,{})
    status=n.get('status') or ('partial' if all(t.endswith('_partial') for t in ts) else 'proved')
    claims.append(dict(property=i,status=status,theorems=ts,note=n.get('note','')))
json.dump({"claims":claims},open('/verif/MANIFEST.json','w'),indent=1)
print(len(claims), sum(len(c['theorems']) for c in claims))
