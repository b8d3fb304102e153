#!/usr/bin/env python3
"""Write ASSUMPTIONS.md: what Print Assumptions lists for every theorem of MANIFEST.json (needs a finished build in rocq/)."""
import glob, json, os, re, subprocess, tempfile
root = os.path.dirname(os.path.dirname(os.path.abspath(__file__)))
th = os.path.join(root, 'rocq', 'theories')
where = {}
for f in sorted(glob.glob(th + '/Properties*.v')):
    for n in re.findall(r'^Theorem (C\d\d\w*)', open(f).read(), re.M):
        where[n] = os.path.basename(f)[:-2]
src = ['From Verif Require ' + m + '.' for m in sorted(set(where.values()))]
for n in sorted(where):
    src.append('Goal True. idtac "@@ %s". Abort.\nPrint Assumptions Verif.%s.%s.' % (n, where[n], n))
d = tempfile.mkdtemp()
open(d + '/AllAssumptions.v', 'w').write('\n'.join(src) + '\n')
out = subprocess.run(['coqc', '-Q', th, 'Verif', d + '/AllAssumptions.v'], capture_output=True, text=True).stdout
rows = []
for part in out.split('@@ ')[1:]:
    name, _, rest = part.partition('\n')
    rest = rest.strip()
    if rest.startswith('Closed under'):
        ax = 'none (closed under the global context)'
    else:
        ax = ', '.join([a for a in re.findall(r'^([A-Za-z_][\w.]*)\s*(?=:)', rest, re.M) if a != 'Axioms'])
    rows.append((name.strip(), where[name.strip()], ax))
assert len(rows) == len(where), (len(rows), len(where))
with open(root + '/ASSUMPTIONS.md', 'w') as o:
    o.write('# Print Assumptions for every theorem (generated by tools/gen_assumptions.py)\n\n| theorem | file | axioms |\n|---|---|---|\n')
    for n, f, a in rows:
        o.write('| `%s` | `%s.v` | %s |\n' % (n, f, a))
print(len(rows), 'theorems;', sum('none' not in r[2] for r in rows), 'with axioms')
