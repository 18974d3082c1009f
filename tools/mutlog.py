#!/usr/bin/env python3
"""mutlog.py FIRST [LATER ...]: writes seeded/LOG.jsonl from results of mutate.py. A mutant without failed theorems
in the first results which has some in the later ones was caught by the theorems added in between (tightened)."""
import json, os, sys
root = os.path.dirname(os.path.dirname(os.path.abspath(__file__)))
mutants = json.load(open(os.path.join(root, 'seeded/mutants.json')))
runs = [{r['id']: r for r in map(json.loads, open(f))} for f in sys.argv[1:]]
with open(os.path.join(root, 'seeded/LOG.jsonl'), 'w') as out:
    for m in mutants:
        rs = [r[m['id']] for r in runs if m['id'] in r]
        if not rs: continue
        first, last = rs[0], rs[-1]
        tight = m.get('tightened', sorted(set(last['failed']) - set(first['failed'])) if len(rs) > 1 else [])
        e = {'id': m['id'], 'file': m['file'], 'definition': m['definition'], 'edit': m['edit'], 'claim': m['claim'],
             'failed': first['failed'], 'tightened': tight}
        if m.get('note'): e['note'] = m['note']
        out.write(json.dumps(e) + '\n')
