#!/usr/bin/env python3
"""Generates MANIFEST.json: the theorems Cxx_... of rocq/theories/Properties*.v."""
import json, re, glob, os, sys
root = os.path.dirname(os.path.dirname(os.path.abspath(__file__)))
sys.path.insert(0, os.path.join(root, 'tools'))
from notes import NOTES, PARTIAL, NA
props = [json.loads(l)['id'] for l in open(os.path.join(root, 'properties.jsonl'))]
th = {}
for f in sorted(glob.glob(os.path.join(root, 'rocq/theories/Properties*.v'))):
    for m in re.finditer(r'^Theorem ((C\d+)_\w+)', open(f).read(), re.M):
        th.setdefault(m.group(2), []).append(m.group(1))
claims = []
for c in props:
    ts = th.get(c, [])
    if c in NA: st = 'not_applicable'
    elif c in PARTIAL or any(t.endswith('_partial') for t in ts): st = 'partial'
    elif ts: st = 'proved'
    else: continue
    claims.append(dict(property=c, status=st, theorems=ts, note=NOTES.get(c, '')))
extra = set(th) - set(props)
if extra: print('theorems for unknown properties', extra)
print('missing:', [c for c in props if c not in th])
json.dump({'claims': claims}, open(os.path.join(root, 'MANIFEST.json'), 'w'), indent=1)
