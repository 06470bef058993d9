#!/usr/bin/env python3
"""Write seeded/LOG.jsonl from the result files of mutate.py (given as arguments).  One line per attempt."""
import sys, json, os
seen = {}
for p in sys.argv[1:]:
    for l in open(p):
        r = json.loads(l)
        if 'error' in r: continue
        seen[r['id'], r['mutant']['new'] if 'new' in r['mutant'] else json.dumps(r['mutant']['edits'])] = r
here = os.path.dirname(os.path.abspath(__file__))
notes = {}
np = os.path.join(here, '..', 'seeded', 'tightened.json')
if os.path.exists(np): notes = json.load(open(np))
bad = []
with open(os.path.join(here, '..', 'seeded', 'LOG.jsonl'), 'w') as o:
    for (i, _), r in seen.items():
        m = r['mutant']
        claims = m.get('breaks', [])
        want = [c.rstrip('r') for c in claims]
        missed = [c for c in want if not any(f.startswith(c + '_') for f in r['failed'])]
        if missed and not r['errors']: bad.append((i, missed))
        o.write(json.dumps({
            'id': i, 'file': m.get('file') or [e[0] for e in m['edits']], 'definition': m.get('definition'),
            'edit': m['what'], 'old': m.get('old'), 'new': m.get('new'), 'edits': m.get('edits'),
            'claims_broken': [c if not c.endswith('r') else c[:-1] + ' (repairs the bug: the _refuted theorem must fail)' for c in claims]
                or ['none: harmless edit, a control'],
            'proofs_broken': r['broken_proofs'],
            'theorems_failed': r['failed'],
            'theorems_that_still_hold': len(r['still']),
            'files_not_compiling': r['errors'],
            'theorems_tightened': notes.get(i, []),
        }) + '\n')
print(len(seen), 'attempts; claims not caught:', bad)
