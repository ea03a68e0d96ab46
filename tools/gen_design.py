#!/usr/bin/env python3
"""Refresh the per-property table of DESIGN.md (between the TABLE markers)."""
import json, os, re
here = os.path.dirname(os.path.abspath(__file__)); root = os.path.join(here, '..')
rows = json.load(open(os.path.join(here, 'design_rows.json')))
claims = {c['property']: c for c in json.load(open(os.path.join(root, 'MANIFEST.json')))['claims']}
out = ['| id | property | modelled code | how it is proved | theorems |', '|----|----|----|----|----|']
for l in open(os.path.join(root, 'properties.jsonl')):
    p = json.loads(l); c = claims[p['id']]; m, h = rows.get(p['id'], ['', ''])
    out.append('| %s | %s | %s | %s | %s (%s) |' % (p['id'], p['title'], m, h, ', '.join('`%s`' % t for t in c['theorems']), c['status']))
f = os.path.join(root, 'DESIGN.md'); s = open(f).read()
s = re.sub(r'(<!-- TABLE -->\n).*?(<!-- /TABLE -->)', lambda m: m.group(1) + '\n'.join(out) + '\n' + m.group(2), s, flags=re.S)
n = sum(len(c['theorems']) for c in claims.values())
s = re.sub(r'<!-- N -->\d*<!-- /N -->', '<!-- N -->%d<!-- /N -->' % n, s)
open(f, 'w').write(s)
