#!/usr/bin/env python3
"""Append results of seed.py to seeded/LOG.jsonl.

usage: seedlog.py OUT.jsonl [TIGHTENED.json]   (TIGHTENED.json: mutant name -> list of theorems)
"""
import json, os, sys
LOG = '/verif/seeded/LOG.jsonl'
done = set()
if os.path.exists(LOG):
    done = {json.loads(l)['attempt'] for l in open(LOG) if l.strip()}
tight = json.load(open(sys.argv[2])) if len(sys.argv) > 2 else {}
with open(LOG, 'a') as log:
    for l in open(sys.argv[1]):
        d = json.loads(l)
        if d['name'] in done: continue
        done.add(d['name'])
        edits = d.get('edits') or [{'old': d['old'], 'new': d['new']}]
        log.write(json.dumps({
            'attempt': d['name'],
            'definition': d['file'] + ': ' + d['def'],
            'edit': '; '.join(f"{e['old']}  ==>  {e['new']}" for e in edits),
            'meaning': d.get('why', ''),
            'claim': d['breaks'],
            'failed_proofs': d['failed'],
            'theorems_failed': d['props'],
            'not_failed_though_expected': d['missed'],
            'tightened': tight.get(d['name'], []),
        }) + '\n')
