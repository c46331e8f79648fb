#!/usr/bin/env python3
"""Writes MANIFEST.json: collects the theorems named Cnn_* from theories/*.v; statuses and notes come from tools/notes.json."""
import json, re, glob, os
root = os.path.dirname(os.path.dirname(os.path.abspath(__file__)))
notes = json.load(open(os.path.join(root, 'tools', 'notes.json')))
ths = {}
for f in sorted(glob.glob(os.path.join(root, 'rocq/theories/*.v'))):
    for m in re.finditer(r'^[ ]*(?:Theorem|Corollary)\s+((C\d{2,3})_\w+)', open(f).read(), re.M):
        ths.setdefault(m.group(2), []).append(m.group(1))
claims = []
for l in open(os.path.join(root, 'properties.jsonl')):
    p = json.loads(l)['id']
    n = notes.get(p, {})
    if p in ths:
        weak = [t for t in ths[p] if t.endswith('_refuted') or t.endswith('_partial')]
        status = n.get('status', 'partial' if weak else 'proved')
        claims.append({"property": p, "status": status, "theorems": ths[p], "note": n.get('note', '')})
    elif 'status' in n:
        claims.append({"property": p, "status": n['status'], "theorems": [], "note": n.get('note', '')})
json.dump({"claims": claims}, open(os.path.join(root, 'MANIFEST.json'), 'w'), indent=1)
done = {c['property'] for c in claims}
print(len(claims), 'claims; missing:', [json.loads(l)['id'] for l in open(os.path.join(root, 'properties.jsonl')) if json.loads(l)['id'] not in done])
