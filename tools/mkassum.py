#!/usr/bin/env python3
"""Rewrite the closing Print Assumptions of every Props file so that it covers each theorem of the file."""
import re, glob, os
os.chdir(os.path.join(os.path.dirname(__file__), '../rocq/theories'))
for f in sorted(glob.glob('Props/*.v')):
    s = open(f).read()
    base = os.path.basename(f)[:-2]
    i = s.find('\n(* the axioms of every theorem above')
    body = (s if i < 0 else s[:i]).rstrip('\n') + '\n'
    body = re.sub(r'^Print Assumptions [A-Za-z0-9_]+\.\s*\n?', '', body, flags=re.M)
    names = re.findall(r'^\s*(?:Theorem|Corollary) ([A-Za-z0-9_\']+)', body, re.M)
    if not names:
        continue
    out, line = [], 'Definition %s_all := (' % base
    for k, n in enumerate(names):
        tok = '@' + n + (', ' if k + 1 < len(names) else ').')
        if len(line) + len(tok) > 160:
            out.append(line.rstrip()); line = '  '
        line += tok
    out.append(line)
    t = body + '\n(* the axioms of every theorem above, listed at once *)\n' + '\n'.join(out) + '\nPrint Assumptions %s_all.\n' % base
    if t != s:
        open(f, 'w').write(t)
