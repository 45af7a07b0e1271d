#!/usr/bin/env python3
"""Regenerates ASSUMPTIONS.md: what Print Assumptions lists for every theorem of MANIFEST.json (needs a finished build)."""
import json, re, subprocess, os, glob, collections
ROOT = os.path.dirname(os.path.dirname(os.path.abspath(__file__)))
TH = os.path.join(ROOT, 'rocq', 'theories')
where = {}
for f in sorted(glob.glob(TH + '/*.v')):
    mod = os.path.basename(f)[:-2]
    for m in re.finditer(r'^(?:Theorem|Lemma|Corollary)\s+(C\d+_[\w\']+)', open(f).read(), re.M):
        where.setdefault(m.group(1), mod)
names = [t for c in json.load(open(ROOT + '/MANIFEST.json'))['claims'] for t in c['theorems']]
mods = sorted({where[n] for n in names})
tmp = '/tmp/ZZassum.v'
with open(tmp, 'w') as o:
    for m in mods: o.write('From Verif Require %s.\n' % m)
    for n in names: o.write('Fail Check "@@%s"%%nowhere.\nPrint Assumptions Verif.%s.%s.\n' % (n, where[n], n))
src = open(tmp).read()
src = re.sub(r'Fail Check "@@(\S+?)"%nowhere\.', r'Goal True. idtac "@@ \1". exact I. Qed.', src)
open(tmp, 'w').write(src)
r = subprocess.run(['coqc', '-Q', TH, 'Verif', tmp], capture_output=True, text=True)
if r.returncode: print(r.stderr[-2000:]); raise SystemExit(1)
ax = collections.OrderedDict(); cur = None
for l in r.stdout.splitlines():
    if l.startswith('@@'): cur = l.split()[1]; ax[cur] = []
    elif l.startswith('Axioms:') or l.startswith('Closed under') or l.startswith(' '): continue
    else:
        m = re.match(r'([\w\.\']+)(\s*:|$)', l)
        if m: ax[cur].append(m.group(1))
allax = sorted({a for v in ax.values() for a in v})
key = {a: chr(97 + i) for i, a in enumerate(allax)}
groups = collections.OrderedDict()
for n, v in ax.items(): groups.setdefault(tuple(sorted(set(v))), []).append(n)
with open(ROOT + '/ASSUMPTIONS.md', 'w') as o:
    o.write('# Print Assumptions, per theorem of MANIFEST.json\n\nGenerated by tools/assumptions.py. %d theorems. Axioms that occur (all from the Coq standard library):\n\n' % len(ax))
    for a in allax: o.write('- **%s** `%s`\n' % (key[a], a))
    o.write('\n')
    for g, ns in sorted(groups.items(), key=lambda x: len(x[0])):
        o.write('## ' + ('Closed under the global context' if not g else 'Axioms ' + ', '.join(key[a] for a in g)) + ' (%d theorems)\n\n' % len(ns) + ', '.join(ns) + '\n\n')
print(len(ax), 'theorems;', allax)
