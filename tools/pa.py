#!/usr/bin/env python3
"""pa.py FILE...: make the Print Assumptions lines at the end of a *_Props.v file cover all its theorems."""
import re, sys
for f in sys.argv[1:]:
    s = open(f).read()
    s = re.sub(r'^Print Assumptions \w+\.\n', '', s, flags=re.M).rstrip() + '\n'
    for n in re.findall(r'^Theorem (\w+)', s, re.M): s += f'Print Assumptions {n}.\n'
    open(f, 'w').write(s)
