#!/usr/bin/env python3
"""Writes DESIGN.md: tools/design_head.md, a section per property made from properties.jsonl, MANIFEST.json and tools/how.json, tools/design_tail.md."""
import json
m = {c['property']: c for c in json.load(open('MANIFEST.json'))['claims']}
how = json.load(open('tools/how.json'))
out = [open('tools/design_head.md').read(), '## Properties, one by one\n']
for l in open('properties.jsonl'):
    d = json.loads(l); c = m[d['id']]
    out.append(f"### {d['id']} {d['title']}\n\n*Modelled and proved*: {how[d['id']]}\n\n*Note*: {c['note']}\n\n*Theorems*: " + ', '.join(f'`{t}`' for t in c['theorems']) + '\n')
out.append(open('tools/design_tail.md').read())
open('DESIGN.md', 'w').write('\n'.join(out))
