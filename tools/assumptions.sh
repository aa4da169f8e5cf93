#!/bin/sh
# Prints the assumptions of every theorem in MANIFEST.json.  Run after building rocq/.
cd "$(dirname "$0")/../rocq" || exit 1
tmp=$(mktemp -d)
python3 - > "$tmp/All.v" <<'PY'
import json, glob, os
for f in sorted(glob.glob('theories/Prop*.v')):
    print('From Verif Require %s.' % os.path.basename(f)[:-2])
where = {}
import re
for f in sorted(glob.glob('theories/Prop*.v')):
    for t in re.findall(r'^(?:Theorem|Lemma)\s+(\w+)', open(f).read(), re.M):
        where[t] = os.path.basename(f)[:-2]
for c in json.load(open('../MANIFEST.json'))['claims']:
    for t in c['theorems']:
        print('Goal True. idtac "%s". Abort. Print Assumptions %s.%s.' % (t, where[t], t))
PY
coqc -Q theories Verif "$tmp/All.v"
rm -rf "$tmp"
