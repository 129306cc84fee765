#!/usr/bin/env python3
"""Generates rocq/theories/Audit.v: Print Assumptions for every theorem of the manifest."""
import json, glob, os
root = os.path.dirname(os.path.dirname(os.path.abspath(__file__)))
m = json.load(open(os.path.join(root, 'MANIFEST.json')))
props = sorted(os.path.basename(f)[:-2] for f in glob.glob(os.path.join(root, 'rocq/theories/Prop*.v')))
out = ['(** Generated by tools/mkaudit.py: the assumptions of every theorem named in', '    MANIFEST.json. *)',
       'From Verif Require Import ' + ' '.join(props) + '.']
for c in m['claims']:
    for t in c['theorems']:
        out.append('Print Assumptions %s.' % t)
open(os.path.join(root, 'rocq/theories/Audit.v'), 'w').write('\n'.join(out) + '\n')
