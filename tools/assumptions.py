#!/usr/bin/env python3
"""Write ASSUMPTIONS.md: what Print Assumptions lists for every theorem named in
MANIFEST.json.  Run after a build (needs the .vo files in rocq/theories)."""
import json, os, re, subprocess, tempfile, glob
from concurrent.futures import ThreadPoolExecutor
root = os.path.dirname(os.path.dirname(os.path.abspath(__file__)))
th = root + '/rocq/theories'
claims = json.load(open(root + '/MANIFEST.json'))['claims']
names = [t for c in claims for t in c['theorems']]
where = {}
for f in glob.glob(th + '/Prop*.v'):
    for m in re.finditer(r'^(?:Theorem|Lemma|Corollary)\s+(C\d+_\w+)', open(f).read(), re.M):
        where[m.group(1)] = os.path.basename(f)[:-2]
d = tempfile.mkdtemp()
sets, of = {}, {}

def ask(mod):
    mine = [n for n in names if where[n] == mod]
    src = 'From Verif Require %s.\n' % mod
    for n in mine:
        src += 'Definition BEGIN_%s := tt. Print BEGIN_%s. Print Assumptions %s.%s.\n' % (n, n, mod, n)
    f = '%s/A_%s.v' % (d, mod)
    open(f, 'w').write(src)
    return subprocess.run(['coqc', '-Q', th, 'Verif', f], capture_output=True, text=True).stdout


with ThreadPoolExecutor(3) as pool:
    outs = list(pool.map(ask, sorted(set(where[n] for n in names))))
for out in outs:
    for part in re.split(r'^BEGIN_', out, flags=re.M)[1:]:
        n = part.split()[0]
        ax = tuple(sorted(set(re.findall(r'^([A-Za-z][\w.]*)\s*(?::|$)', part.split('\n', 2)[2], re.M))
                          - {'Axioms', 'Closed'}))
        sets.setdefault(ax, len(sets)); of[n] = ax
order = sorted(set(of.values()), key=lambda a: (len(a), a))
lab = {a: f"S{i + 1}" for i, a in enumerate(order)}
with open(root + '/ASSUMPTIONS.md', 'w') as f:
    f.write('# What Print Assumptions lists\n\nGenerated by tools/assumptions.py.  Every theorem of MANIFEST.json uses one of these sets.\n\n')
    for a in order:
        f.write('**%s** (%d theorems): %s\n\n' % (lab[a], sum(v == a for v in of.values()),
                ', '.join('`%s`' % x for x in a) or 'closed under the global context (no axioms)'))
    f.write('| theorem | file | set |\n|---|---|---|\n')
    for n in names:
        f.write('| %s | %s.v | %s |\n' % (n, where[n], lab[of[n]] if n in of else '?'))
print({lab[a]: (len(a), sum(v == a for v in of.values())) for a in order}, 'missing', [n for n in names if n not in of])
