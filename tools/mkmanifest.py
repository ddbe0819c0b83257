#!/usr/bin/env python3
"""Writes MANIFEST.json: for every property the theorems whose name starts with its id.

A theorem called Cnn_..._partial makes the property partial; _refuted theorems are listed too.
Notes and explicit statuses are taken from NOTES."""
import json, re, glob, os
root = os.path.dirname(os.path.dirname(os.path.abspath(__file__)))
NOTES = json.load(open(os.path.join(root, 'tools', 'notes.json')))
thms = {}
for f in sorted(glob.glob(os.path.join(root, 'rocq/theories/Prop*.v'))):
    for m in re.finditer(r'^Theorem\s+((C\d\d\d?)_\w+)', open(f).read(), re.M):
        thms.setdefault(m.group(2), []).append(m.group(1))
claims = []
for line in open(os.path.join(root, 'properties.jsonl')):
    pid = json.loads(line)['id']
    n = NOTES.get(pid, {})
    t = thms.get(pid, [])
    if not t:
        print('no theorem for', pid)
        if 'status' not in n:
            continue
    st = n.get('status') or ('partial' if any(x.endswith('_partial') for x in t) else 'proved')
    claims.append({'property': pid, 'status': st, 'theorems': t, 'note': n.get('note', '')})
json.dump({'claims': claims}, open(os.path.join(root, 'MANIFEST.json'), 'w'), indent=1)
