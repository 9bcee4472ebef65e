#!/usr/bin/env python3
"""Rewrites the list of refuted statements in DESIGN.md from the comments above the theorems."""
import re, glob, os
root = os.path.dirname(os.path.dirname(os.path.abspath(__file__)))
out = []
for f in glob.glob(root + '/rocq/theories/*.v'):
    s = open(f).read()
    for m in re.finditer(r'(?:\(\*\*((?:(?!\*\)).)*)\*\)\s*(?:Definition [^\n]*\n(?:  [^\n]*\n)*)?)?(?:Theorem|Lemma)\s+(C\d+_\w*refuted)\b', s, re.S):
        c = re.sub(r'\s+', ' ', m.group(1) or '').strip()
        c = re.sub(r'^C\d+\.\s*', '', c)
        out.append((m.group(2), c or '(see the statement)'))
out.sort()
text = '\n'.join('* `%s`: %s' % o for o in out)
p = root + '/DESIGN.md'
s = open(p).read()
s = re.sub(r'<!-- findings begin -->.*?<!-- findings end -->', lambda _: '<!-- findings begin -->\n' + text + '\n<!-- findings end -->', s, flags=re.S)
open(p, 'w').write(s)
