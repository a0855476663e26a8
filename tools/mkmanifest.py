#!/usr/bin/env python3
"""Write MANIFEST.json from the table below; check that every theorem exists."""
import json, re, glob, sys, os
here = os.path.dirname(os.path.dirname(os.path.abspath(__file__)))
names = set()
for f in glob.glob(here + '/rocq/theories/*.v'):
    names |= set(re.findall(r'^\s*(?:Theorem|Lemma|Corollary)\s+([A-Za-z0-9_\']+)', open(f).read(), re.M))
exec(open(here + '/tools/claims.py').read())
props = [json.loads(l)['id'] for l in open(here + '/properties.jsonl')]
bad = [t for c in CLAIMS for t in c[2] if t not in names]
if bad: sys.exit('missing: ' + ' '.join(bad))
done = {c[0] for c in CLAIMS}
print('without claim:', [p for p in props if p not in done])
print('unknown:', [c for c in done if c not in props])
json.dump({'claims': [{'property': c[0], 'status': c[1], 'theorems': c[2], 'note': c[3]} for c in CLAIMS]},
          open(here + '/MANIFEST.json', 'w'), indent=1)
