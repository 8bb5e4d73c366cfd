#!/usr/bin/env python3
"""Print Assumptions for every theorem in MANIFEST.json -> ASSUMPTIONS.md.
Needs a built rocq/ directory."""
import json, re, subprocess, glob, os, tempfile, collections
T = '/verif/rocq/theories'
where = {}
for f in glob.glob(T + '/*.v'):
    m = os.path.basename(f)[:-2]
    for n in re.findall(r'^\s*(?:Theorem|Lemma|Corollary|Proposition|Fact|Remark)\s+([A-Za-z0-9_\']+)', open(f).read(), re.M):
        where.setdefault(n, m)
claims = json.load(open('/verif/MANIFEST.json'))['claims']
names = [n for c in claims for n in c['theorems']]
mods = sorted({where[n] for n in names})
d = tempfile.mkdtemp()
with open(d + '/a.v', 'w') as o:
    for m in mods: o.write('From Verif Require %s.\n' % m)
    for n in dict.fromkeys(names):
        o.write('Goal True. idtac "@@ %s". exact I. Qed.\nPrint Assumptions Verif.%s.%s.\n' % (n, where[n], n))
out = subprocess.run(['coqtop', '-Q', T, 'Verif', '-batch', '-l', d + '/a.v'], capture_output=True, text=True)
res = collections.OrderedDict(); cur = None
for l in (out.stdout).splitlines():
    if l.startswith('@@ '): cur = l[3:]; res[cur] = []
    elif cur and re.match(r'^[A-Za-z][\w.]* *(:|$)', l) and not l.startswith('Axioms') and not l.startswith('Closed'):
        res[cur].append(l.split(':')[0].strip())
missing = [n for n in names if n not in res]
assert not missing, missing
axs = sorted({a for v in res.values() for a in v})
groups = collections.OrderedDict()
for n in names: groups.setdefault(tuple(sorted(res[n])), []).append(n)
with open('/verif/ASSUMPTIONS.md', 'w') as o:
    o.write('# Print Assumptions of every theorem in MANIFEST.json\n\nGenerated by `tools/gen_assumptions.py`.  All axioms are the standard library\'s.\n\n')
    for i, a in enumerate(axs): o.write('* (%s) `%s`\n' % ('abcdefgh'[i], a))
    o.write('\n| property | theorem | file | axioms |\n|---|---|---|---|\n')
    for c in claims:
        for n in c['theorems']:
            o.write('| %s | `%s` | `%s.v` | %s |\n' % (c['property'], n, where[n], ', '.join('abcdefgh'[axs.index(a)] for a in sorted(res[n])) or 'none'))
for k, v in groups.items(): print(len(v), k)
