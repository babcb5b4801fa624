#!/usr/bin/env python3
"""Write DESIGN.md from the prose below, properties.jsonl, MANIFEST.json and the comments
of the refuted theorems.  Run after gen.py."""
import glob, json, os, re
ROOT = os.path.dirname(os.path.dirname(os.path.abspath(__file__)))
HEAD = open(os.path.join(ROOT, 'tools', 'design_head.md')).read()
PLAN = json.load(open(os.path.join(ROOT, 'tools', 'plan.json')))
props = [json.loads(l) for l in open(os.path.join(ROOT, 'properties.jsonl'))]
man = {c['property']: c for c in json.load(open(os.path.join(ROOT, 'MANIFEST.json')))['claims']}
out = [HEAD.rstrip(), '', '## 4. Properties', '',
       'For each property: what is modelled, how it is proved, the theorems (all in `rocq/theories/*Props.v`) and, where',
       'the property is only proved in part, what is missing and why.', '']
for p in props:
    c = man[p['id']]
    th = ', '.join('`' + t.split('.')[-1] + '`' for t in c['theorems'])
    out.append(f"* **{p['id']}** {p['title']} ({c['status']}). {PLAN[p['id']]}")
    out.append(f"  Theorems: {th}.")
    if c['note']: out.append(f"  {c['note']}")
out += ['', '## 5. Findings', '',
        'Statements that are false of the code, each proved as a theorem with the suffix `_refuted` about the same model.', '']
for f in sorted(glob.glob(os.path.join(ROOT, 'rocq/theories/*Props.v'))):
    s = open(f).read()
    for m in re.finditer(r'(\(\*\*(?:(?!\*\)).)*\*\))?\s*\nTheorem (\w+_refuted)', s, re.S):
        c = ' '.join((m.group(1) or '').split())[4:-2].strip()
        c = re.sub(r'\[(\w+)\]', r'`\1`', c)
        c = c or PLAN.get('findings', {}).get(m.group(2), '')
        out.append(f'* `{m.group(2)}`: {c}')
out += ['', open(os.path.join(ROOT, 'tools', 'design_tail.md')).read().rstrip(), '']
open(os.path.join(ROOT, 'DESIGN.md'), 'w').write('\n'.join(out))
