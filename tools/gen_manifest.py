#!/usr/bin/env python3
"""Regenerate /verif/MANIFEST.json from the theorem names in theories/T*.v."""
import glob, json, os, re
here = os.path.dirname(os.path.abspath(__file__))
notes = json.load(open(os.path.join(here, 'manifest_notes.json')))
thms = {}
for f in sorted(glob.glob(os.path.join(here, '..', 'rocq', 'theories', 'T*.v'))):
    for t in re.findall(r'^Theorem (C\d\d_\w+)', open(f).read(), re.M):
        thms.setdefault(t[:3], []).append(t)
claims = []
for l in open(os.path.join(here, '..', 'properties.jsonl')):
    c = json.loads(l)['id']
    ts = thms.get(c, [])
    if not ts:
        claims.append({"property": c, "status": "partial", "theorems": [], "note": "modelled; proof not finished"})
        continue
    n = notes.get(c, "")
    st = "proved"
    if any('_partial' in t or '_refuted' in t for t in ts): st = "partial"
    if isinstance(n, list): st, n = n
    claims.append({"property": c, "status": st, "theorems": ts, "note": n})
json.dump({"claims": claims}, open(os.path.join(here, '..', 'MANIFEST.json'), 'w'), indent=1)
