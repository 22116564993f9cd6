#!/usr/bin/env python3
"""results.jsonl of mutate.py (argument 1, default /tmp/mut/results.jsonl) -> seeded/LOG.jsonl;
seeded/tightened.json maps mutant ids to the theorems added or strengthened because of them."""
import json, os, sys
src = sys.argv[1] if len(sys.argv) > 1 else '/tmp/mut/results.jsonl'
out = '/verif/seeded/LOG.jsonl'
tf = '/verif/seeded/tightened.json'
tight = json.load(open(tf)) if os.path.exists(tf) else {}
old = [json.loads(l) for l in open(out)] if os.path.exists(out) else []
rows = {r['id']: r for r in old}
for l in open(src):
    r = json.loads(l)
    k, d, e = r['id'], f"{r['file'][:-2]}.{r['def']}", f"{r['old']}  ==>  {r['new']}"
    if k in rows and (rows[k]['definition'], rows[k]['edit']) != (d, e): k += '-' + r['file'][:-2]   # one id used twice
    rows[k] = dict(id=k, definition=d, edit=e,
        claim_broken=r['claim'], expected=r.get('expect', []), outcome=r['outcome'],
        theorems_failed=r.get('failed', []), lemmas_broken=r.get('broken', []), notes=r.get('notes', []))
for k, r in rows.items():
    t = tight.get(k, {})
    r['theorems_tightened'] = t.get('theorems', [])
    if 'comment' in t: r['comment'] = t['comment']
with open(out, 'w') as f:
    for r in rows.values(): f.write(json.dumps(r, ensure_ascii=False) + '\n')
print(len(rows), 'rows')
