#!/usr/bin/env python3
"""Rewrites Section 5 of DESIGN.md: what Print Assumptions lists for every theorem of the *_Props.v files (needs a finished build)."""
import collections, os, re, subprocess, sys, tempfile
from concurrent.futures import ThreadPoolExecutor
ROOT = os.path.dirname(os.path.dirname(os.path.abspath(__file__)))
TH = os.path.join(ROOT, 'rocq', 'theories')
props = [l.strip() for l in open(os.path.join(ROOT, 'rocq', '_CoqProject')) if l.strip().endswith('_Props.v')]

def one(f):
    b = os.path.basename(f)[:-2]
    s = re.sub(r'\(\*.*?\*\)', '', open(f'{TH}/{b}.v').read(), flags=re.S)
    names = re.findall(r"^\s*(?:Theorem|Corollary)\s+([A-Za-z0-9_']+)", s, flags=re.M)
    if not names: return b, {}
    with tempfile.TemporaryDirectory() as w:
        open(f'{w}/A_{b}.v', 'w').write(f'From Verif Require {b}.\n' + ''.join(f'Print Assumptions {b}.{n}.\n' for n in names))
        o = subprocess.run(['coqc', '-Q', TH, 'Verif', f'{w}/A_{b}.v'], capture_output=True, text=True)
    if o.returncode: sys.exit(o.stderr)
    parts = re.split(r'^(Axioms:|Closed under the global context)$', o.stdout, flags=re.M)
    r = {}
    for n, i in zip(names, range(1, len(parts), 2)):
        ax = re.findall(r"^([A-Za-z_.0-9']+)\s*(?::|$)", parts[i + 1], flags=re.M) if parts[i] == 'Axioms:' else []
        r[n] = frozenset(x.split('.')[-1] for x in ax)
    assert len(r) == len(names), b
    return b, r

KEY = {'functional_extensionality_dep': 'E', 'sig_forall_dec': 'F', 'sig_not_dec': 'N', 'classic': 'C', 'constructive_indefinite_description': 'D'}
with ThreadPoolExecutor(3) as ex: res = dict(ex.map(one, props))
out = []
for b in sorted(res):
    g = collections.OrderedDict()
    for n, a in res[b].items(): g.setdefault(''.join(sorted(KEY[x] for x in a)) or 'none', []).append(n)
    for k, v in g.items(): out.append(f'| `{b}` | {k} | {", ".join(v)} |')
p = os.path.join(ROOT, 'DESIGN.md')
s = open(p).read()
a, z = '<!-- axioms: begin -->\n', '<!-- axioms: end -->'
i, j = s.index(a) + len(a), s.index(z)
s = s[:i] + '| file | axioms | theorems |\n|------|--------|----------|\n' + '\n'.join(out) + '\n' + s[j:]
open(p, 'w').write(s)
c = collections.Counter(k for r in res.values() for k in map(lambda a: ''.join(sorted(KEY[x] for x in a)) or 'none', r.values()))
print(dict(c))
