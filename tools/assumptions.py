#!/usr/bin/env python3
"""Writes ASSUMPTIONS.md: what Print Assumptions lists for each theorem of MANIFEST.json.
Run after a build, in /verif."""
import json, re, subprocess, os, glob
here = os.path.dirname(os.path.dirname(os.path.abspath(__file__)))
os.chdir(here)
thms = []
for c in json.load(open('MANIFEST.json'))['claims']:
    for t in c['theorems']:
        thms.append((c['property'], t))
where = {}
for f in sorted(glob.glob('rocq/theories/P_*.v')):
    for m in re.finditer(r'^(?:Theorem|Example|Lemma)\s+([A-Za-z0-9_]+)', open(f).read(), re.M):
        where[m.group(1)] = os.path.basename(f)[:-2]
src = ''
mods = sorted(set(where[t] for _, t in thms))
src += 'From Coq Require Import String.\n'
for m in mods: src += 'From Verif Require %s.\n' % m
for _, t in thms:
    src += 'Eval compute in "%s"%%string.\nPrint Assumptions %s.%s.\n' % (t, where[t], t)
open('/tmp/assum.v', 'w').write(src)
out = subprocess.run(['coqc', '-Q', 'rocq/theories', 'Verif', '/tmp/assum.v'], capture_output=True, text=True)
assert out.returncode == 0, out.stderr
parts = re.split(r'^\s+= "([A-Za-z0-9_]+)"%?\w*\n\s+: string\n', out.stdout, flags=re.M)
res = {}
for i in range(1, len(parts), 2):
    body = parts[i + 1]
    if 'Closed under the global context' in body: res[parts[i]] = []
    else: res[parts[i]] = sorted(set(re.findall(r'^([A-Za-z_][\w.]*)\s*(?::|$)', body, re.M)) - {'Axioms'})
sets = {}
for p, t in thms: sets.setdefault(tuple(res[t]), []).append((p, t))
with open('ASSUMPTIONS.md', 'w') as f:
    f.write('# Print Assumptions of every theorem\n\nGenerated by tools/assumptions.py from the compiled files.\n')
    for k, l in sorted(sets.items(), key=lambda x: len(x[0])):
        f.write('\n## %s\n\n' % (', '.join('`%s`' % a for a in k) if k else 'Closed under the global context (no axioms)'))
        for p, t in l: f.write('- %s `%s` (%s.v)\n' % (p, t, where[t]))
for k, l in sets.items(): print(k, len(l))
