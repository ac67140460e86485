#!/usr/bin/env python3
"""note.py ID STATUS NOTE: record the manifest note of one property."""
import json, sys, os
p = os.path.join(os.path.dirname(__file__), 'notes.json')
d = json.load(open(p))
d[sys.argv[1]] = {"status": sys.argv[2], "note": sys.argv[3]}
json.dump(dict(sorted(d.items())), open(p, 'w'), indent=1)
