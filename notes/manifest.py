#!/usr/bin/env python3
"""Writes ../MANIFEST.json from CLAIMS; checks that every theorem named exists in rocq/theories."""
import json, os, re, glob
here = os.path.dirname(os.path.abspath(__file__))
src = ''.join(open(f).read() for f in glob.glob(os.path.join(here, '..', 'rocq', 'theories', '**', '*.v'), recursive=True))
names = set(re.findall(r'^\s*(?:Theorem|Lemma|Corollary)\s+([A-Za-z0-9_\']+)', src, re.M))
from claims import CLAIMS
out = []
for c in CLAIMS:
    for t in c['theorems']:
        if t not in names: print('missing', c['property'], t)
    out.append(c)
props = [json.loads(l)['id'] for l in open(os.path.join(here, '..', 'properties.jsonl'))]
for p in props:
    if p not in [c['property'] for c in out]: print('no claim for', p)
json.dump({'claims': out}, open(os.path.join(here, '..', 'MANIFEST.json'), 'w'), indent=1)
