#!/usr/bin/env python3
"""Write AXIOMS.md: for each property theorem, what `Print Assumptions` lists.  Run after a build in rocq/."""
import re, glob, os, subprocess, tempfile
root = os.path.dirname(os.path.dirname(os.path.abspath(__file__)))
out = ['# Axioms per theorem (output of `Print Assumptions`, collected by tools/axioms.py)', '']
allax = {}
rows = []
for f in sorted(glob.glob(root + '/rocq/theories/*Props.v')):
    mod = os.path.basename(f)[:-2]
    names = re.findall(r'^Theorem (C\d\d\d?_\w+)', open(f).read(), re.M)
    with tempfile.TemporaryDirectory() as d:
        p = d + '/ax.v'
        with open(p, 'w') as g:
            g.write('From Verif Require %s.\n' % mod)
            for n in names:
                g.write('Print Assumptions %s.%s.\n' % (mod, n))
        r = subprocess.run(['coqc', '-Q', root + '/rocq/theories', 'Verif', p], capture_output=True, text=True)
        assert r.returncode == 0, r.stderr
    chunks = re.split(r'^(?=Axioms:|Closed under the global context)', r.stdout, flags=re.M)[1:]
    assert len(chunks) == len(names), (mod, len(chunks), len(names))
    for n, c in zip(names, chunks):
        ax = sorted(set(re.findall(r'^([A-Za-z_][\w.]*)\s*:', c, re.M)) - {'Axioms'})
        for a in ax: allax[a] = allax.get(a, 0) + 1
        rows.append((n, mod, ax))
short = {a: i + 1 for i, a in enumerate(sorted(allax))}
out.append('Axioms that occur (all from the standard library):')
out.append('')
for a in sorted(allax): out.append('%d. `%s` (%d theorems)' % (short[a], a, allax[a]))
out += ['', '| Theorem | File | Axioms |', '|---|---|---|']
for n, mod, ax in sorted(rows):
    out.append('| `%s` | %s.v | %s |' % (n, mod, ', '.join(str(short[a]) for a in ax) or 'none (closed)'))
open(root + '/AXIOMS.md', 'w').write('\n'.join(out) + '\n')
print(allax, len(rows))
