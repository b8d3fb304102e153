#!/usr/bin/env python3
import json, os, re, sys
root = os.path.dirname(os.path.dirname(os.path.abspath(__file__)))
sys.path.insert(0, root + '/tools')
from notes import NOTES
props = [json.loads(l) for l in open(root + '/properties.jsonl')]
man = {c['property']: c for c in json.load(open(root + '/MANIFEST.json'))['claims']}
out = open(root + '/tools/design_head.md').read()
ax = [[x.strip() for x in l.strip().strip('|').split('|')] for l in open(root + '/ASSUMPTIONS.md') if l.startswith('| `C')]
names = {t for c in man.values() for t in c['theorems']}
ax = [a for a in ax if a[0].strip('`') in names and not a[2].startswith('none')]
out = out.replace('@ASSUMPTIONS@', 'All are closed under the global context, except these, which are about real numbers and use axioms of the standard library: '
    + '; '.join('%s (%s)' % (a[0], a[2]) for a in ax) + '.')
out += '## Properties: what is modelled and how it is proved\n\n| id | property | status | how |\n|----|----------|--------|-----|\n'
for p in props:
    c = man.get(p['id'], {'status': '-', 'theorems': []})
    out += '| %s | %s | %s | %s Theorems: %s |\n' % (p['id'], p['title'].replace('|', '\\|'), c['status'], NOTES.get(p['id'], '').replace('|', '\\|'), ', '.join('`%s`' % t for t in c['theorems']))
ref = []
for c in man.values():
    ref += [t for t in c['theorems'] if t.endswith('_refuted')]
out += '\n## Findings about the code\nTheorems with the suffix `_refuted` (%d): each gives a concrete run in which the code does not do what one would expect.\n\n' % len(ref)
src = {}
import glob
for f in sorted(glob.glob(root + '/rocq/theories/Properties*.v')):
    t = open(f).read()
    for mm in re.finditer(r'\(\*\*((?:(?!\*\)).)*?)\*\)\s*(?:(?:Definition|Example|Lemma|Local)(?:(?!\n\n).)*?\n)*?Theorem (C\d\d\w*_refuted)', t, re.S):
        src[mm.group(2)] = ' '.join(mm.group(1).split())
for r in ref:
    out += '* `%s`%s\n' % (r, ': ' + src[r] if r in src else '')
open(root + '/DESIGN.md', 'w').write(out)
