#!/usr/bin/env python3
"""Writes MANIFEST.json: collects the theorems of each property from the Coq files; notes are kept here."""
import glob, json, re, os
root = os.path.dirname(os.path.dirname(os.path.abspath(__file__)))
NOTES = json.load(open(os.path.join(root, 'tools', 'notes.json')))
props = [json.loads(l)['id'] for l in open(os.path.join(root, 'properties.jsonl')) if l.strip()]
thms = {}
for f in sorted(glob.glob(os.path.join(root, 'rocq/theories/Prop*.v'))):
    for name in re.findall(r'^Theorem\s+(\w+)', open(f).read(), re.M):
        thms.setdefault(name[:3], []).append(name)
claims = []
for p in props:
    n = NOTES.get(p)
    if p not in thms:
        continue
    names = thms[p]
    status = n['status']
    if status == 'proved':
        assert not any('_partial' in t or '_refuted' in t for t in names) or n.get('force'), (p, names)
    claims.append({"property": p, "status": status, "theorems": names, "note": n['note']})
json.dump({"claims": claims}, open(os.path.join(root, 'MANIFEST.json'), 'w'), indent=1)
print(len(claims), 'claims;', 'without theorem:', [p for p in props if p not in thms])
