#!/usr/bin/env python3
"""Writes MANIFEST.json from the table below and the theorem names in Prop*.v."""
import glob, json, os, re
ROOT = os.path.dirname(os.path.dirname(os.path.abspath(__file__)))
thms = []
for f in sorted(glob.glob(ROOT + '/rocq/theories/Prop*.v')):
    thms += re.findall(r'^Theorem\s+(C\d\d\w*)', open(f).read(), re.M)
props = [json.loads(l) for l in open(ROOT + '/properties.jsonl')]
STATUS = {}
NOTE = {}
exec(open(ROOT + '/tools/manifest_table.py').read())
claims = []
for p in props:
    i = p['id']
    names = [t for t in thms if t.startswith(i + '_')]
    st = STATUS.get(i)
    if not names and st is None:
        continue
    if st is None:
        st = 'partial' if not names or any(t.endswith(('_partial', '_refuted')) for t in names) else 'proved'
    claims.append({'property': i, 'status': st, 'theorems': names, 'note': NOTE.get(i, '')})
json.dump({'claims': claims}, open(ROOT + '/MANIFEST.json', 'w'), indent=1)
print({c['property']: (c['status'], len(c['theorems'])) for c in claims})
