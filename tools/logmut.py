#!/usr/bin/env python3
"""logmut.py OUT.jsonl: append the results of mutate.py to seeded/LOG.jsonl.
An entry of OUT may have "tightened" (list) and "note"."""
import json, sys
log = '/verif/seeded/LOG.jsonl'
with open(log, 'a') as f:
    for l in open(sys.argv[1]):
        d = json.loads(l)
        if 'error' in d: continue
        e = {"definition": d['file'] + ': ' + d['def'], "edit": d['edit'] + ' [' + d['old'] + ' => ' + d['new'] + ']', "claim": d['claim'],
             "failed": d['failed_theorems'], "failed_lemmas": d['failed_lemmas'], "tightened": d.get('tightened', [])}
        if d.get('note'): e['note'] = d['note']
        f.write(json.dumps(e) + '\n')
