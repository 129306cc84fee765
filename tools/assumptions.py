#!/usr/bin/env python3
"""usage: assumptions.py audit-output: groups the theorems of Audit.v by the
axioms Print Assumptions lists, as a Markdown section for DESIGN.md."""
import re, sys, os
root = os.path.dirname(os.path.dirname(os.path.abspath(__file__)))
ths = re.findall(r'^Print Assumptions (\S+)\.$', open(os.path.join(root, 'rocq/theories/Audit.v')).read(), re.M)
blocks, cur = [], None
for l in open(sys.argv[1]):
    if l.startswith('Closed under'): blocks.append(()); cur = None
    elif l.startswith('Axioms:'): cur = []; blocks.append(cur)
    elif cur is not None:
        m = re.match(r'^([A-Za-z_][\w.\']*)\s*(:|$)', l)
        if m: cur.append(m.group(1))
assert len(blocks) == len(ths), (len(blocks), len(ths))
groups = {}
for t, b in zip(ths, blocks): groups.setdefault(tuple(sorted(b)), []).append(t)
for g, l in sorted(groups.items(), key=lambda p: len(p[0])):
    print('* %s: %s' % ('none (closed under the global context)' if not g else ', '.join('`%s`' % x for x in g), ', '.join('`%s`' % t for t in l)))
