#!/usr/bin/env python3
"""Write ASSUMPTIONS.md: what Print Assumptions lists for every theorem of MANIFEST.json (run after building)."""
import json, re, subprocess, os, glob, tempfile
root = os.path.dirname(os.path.dirname(os.path.abspath(__file__)))
man = json.load(open(root + '/MANIFEST.json'))
ths = [t for c in man['claims'] for t in c['theorems']]
mods = ['Props.' + os.path.basename(f)[:-2] for f in sorted(glob.glob(root + '/rocq/theories/Props/*.v'))]
src = ''.join('From Verif Require %s.\n' % m for m in mods)
where = {}
for f in glob.glob(root + '/rocq/theories/Props/*.v'):
    for m in re.finditer(r'^\s*(?:Theorem|Lemma|Corollary|Example)\s+(\w+)', open(f).read(), re.M):
        where[m.group(1)] = 'Verif.Props.' + os.path.basename(f)[:-2]
for t in ths:
    src += 'Goal True. idtac "@@@ %s". exact I. Qed.\nPrint Assumptions %s.%s.\n' % (t, where[t], t)
d = tempfile.mkdtemp(); open(d + '/A.v', 'w').write(src)
out = subprocess.run(['coqc', '-Q', root + '/rocq/theories', 'Verif', d + '/A.v'], capture_output=True, text=True)
if out.returncode: raise SystemExit(out.stderr[-2000:])
groups = {}
for part in out.stdout.split('@@@ ')[1:]:
    name, _, rest = part.partition('\n')
    ax = tuple(sorted(set(re.findall(r'^([\w.]+)\s*(?::|$)', rest, re.M)) - {'Axioms'}))
    if 'Closed under the global context' in rest: ax = ()
    groups.setdefault(ax, []).append(name.strip())
with open(root + '/ASSUMPTIONS.md', 'w') as f:
    f.write('# What `Print Assumptions` lists\n\nGenerated by tools/assumptions.py from the built library.\n')
    for ax, ns in sorted(groups.items(), key=lambda g: len(g[0])):
        f.write('\n## %s\n\n' % ('Closed under the global context (no axioms)' if not ax else ', '.join('`%s`' % a for a in ax)))
        f.write('%d theorems: %s\n' % (len(ns), ', '.join(sorted(ns))))
print({len(k): len(v) for k, v in groups.items()})
