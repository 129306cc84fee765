#!/usr/bin/env python3
"""usage: mkdesign.py audit-output: DESIGN.md = tools/design_head.md + assumptions + tools/design_plan.md"""
import subprocess, sys, os
root = os.path.dirname(os.path.dirname(os.path.abspath(__file__)))
t = lambda f: open(os.path.join(root, 'tools', f)).read()
a = subprocess.run([sys.executable, os.path.join(root, 'tools/assumptions.py'), sys.argv[1]], capture_output=True, text=True, check=True).stdout
open(os.path.join(root, 'DESIGN.md'), 'w').write(t('design_head.md') + '### What `Print Assumptions` lists\n' + a + '\n' + t('design_plan.md'))
