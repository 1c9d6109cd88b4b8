#!/usr/bin/env python3
"""Regenerate ASSUMPTIONS.md: what Print Assumptions lists for every theorem of
MANIFEST.json. Needs a finished build in ../rocq."""
import json, os, re, subprocess, glob, collections
root = os.path.dirname(os.path.dirname(os.path.abspath(__file__)))
th = os.path.join(root, 'rocq', 'theories')
names = [t for c in json.load(open(os.path.join(root, 'MANIFEST.json')))['claims'] for t in c['theorems']]
where = {}
for f in sorted(glob.glob(th + '/*Props*.v')):
    for m in re.finditer(r'^\s*(?:Theorem|Lemma|Corollary)\s+(C\d+\w*)', open(f).read(), re.M):
        where[m.group(1)] = os.path.basename(f)[:-2]
mods = sorted(set(where[n] for n in names))
src = 'From Verif Require ' + ' '.join(mods) + '.\n'
for n in names:
    src += f'Goal True. idtac "@@ {n}". exact I. Qed.\nPrint Assumptions Verif.{where[n]}.{n}.\n'
open('/tmp/assum.v', 'w').write(src)
out = subprocess.run(['coqc', '-Q', th, 'Verif', '/tmp/assum.v'], capture_output=True, text=True)
assert out.returncode == 0, out.stderr
groups = collections.OrderedDict()
for part in out.stdout.split('@@ ')[1:]:
    n, body = part.split('\n', 1)
    ax = tuple(sorted(set(re.findall(r'^([A-Za-z_][\w.]*)(?: :|\n)', body, re.M)))) if 'Axioms:' in body else ()
    groups.setdefault(ax, []).append(n.strip())
with open(os.path.join(root, 'ASSUMPTIONS.md'), 'w') as f:
    f.write('# What Print Assumptions lists for each theorem\n\nGenerated by tools/assumptions.py from the compiled files.\n')
    for ax in sorted(groups, key=len):
        f.write('\n## ' + (', '.join('`%s`' % a for a in ax) if ax else 'Closed under the global context (no axioms)') + '\n\n')
        f.write(', '.join(groups[ax]) + '\n')
print({(len(k), k): len(v) for k, v in groups.items()})
