#!/usr/bin/env python3
"""addprop.py ID TITLE STATEMENT QUANTIFIER WHY ANCHOR...: append a property."""
import json, sys, os
p = os.path.join(os.path.dirname(os.path.dirname(os.path.abspath(__file__))), 'properties.jsonl')
a = sys.argv[1:]
assert not any(json.loads(l)["id"] == a[0] for l in open(p))
with open(p, 'a') as f:
    f.write(json.dumps({"id": a[0], "title": a[1], "statement": a[2], "quantifier": a[3], "why_tests_cant": a[4], "anchors": a[5:]}) + "\n")
