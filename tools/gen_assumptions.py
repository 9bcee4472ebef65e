#!/usr/bin/env python3
"""Rewrite the section between the assumption markers of DESIGN.md from Print Assumptions of every manifest theorem."""
import json, re, subprocess, os, glob
root = os.path.dirname(os.path.dirname(os.path.abspath(__file__)))
th = os.path.join(root, 'rocq', 'theories')
names = [t for c in json.load(open(os.path.join(root, 'MANIFEST.json')))['claims'] for t in c['theorems']]
where = {}
for f in glob.glob(os.path.join(th, '*.v')):
    for m in re.finditer(r'^(?:Theorem|Lemma|Corollary)\s+([\w\']+)', open(f).read(), re.M):
        where.setdefault(m.group(1), []).append(os.path.basename(f)[:-2])
src, order = '', []
mods = set()
for t in dict.fromkeys(names):
    short = t.split('.')[-1]
    mod = [m for m in where[short] if m.endswith('Props')] or where[short]
    mods.add(mod[0]); order.append((short, mod[0]))
src = 'From Verif Require %s.\n' % ' '.join(sorted(mods))
for s, m in order:
    src += 'Eval compute in "@@@%s"%%string.\nPrint Assumptions Verif.%s.%s.\n' % (s, m, s)
src = 'Require Import String.\n' + src
open('/tmp/pa.v', 'w').write(src)
out = subprocess.run(['coqc', '-Q', th, 'Verif', '/tmp/pa.v'], capture_output=True, text=True)
if out.returncode: print(out.stderr[-2000:]); raise SystemExit(1)
groups = {}
for part in out.stdout.split('@@@')[1:]:
    name = part[:part.index('"')]
    body = part[part.index('"'):]
    ax = tuple(sorted(set(re.findall(r'^([A-Za-z_][\w.\']*)\s*(?=:|\n\s+:)', body[body.index('\n', 2):], re.M)) - {'Axioms', 'Closed'}))
    ax = tuple(a for a in ax if a not in ('string',))
    groups.setdefault(ax, []).append(name)
txt = ''
for ax, l in sorted(groups.items(), key=lambda x: len(x[0])):
    txt += '\n**%s** (%d theorems):\n' % ('Closed under the global context (no axiom)' if not ax else ', '.join('`%s`' % a for a in ax), len(l))
    txt += ', '.join(l) + '\n'
p = os.path.join(root, 'DESIGN.md')
s = open(p).read()
a, b = '<!-- assumptions begin -->', '<!-- assumptions end -->'
s = s[:s.index(a) + len(a)] + '\n' + txt + '\n' + s[s.index(b):]
open(p, 'w').write(s)
print({' '.join(k) or 'closed': len(v) for k, v in groups.items()})
