#!/usr/bin/env python3
"""Append results of automut.py to seeded/LOG.jsonl.

usage: autolog.py JUDGED.json OUT.jsonl ...
JUDGED.json: list of {"file", "def", "at", "new" (prefix), "judgement", "tightened"} for edits nothing noticed.
An edit that is in the log already is skipped.
"""
import json, sys
LOG = '/verif/seeded/LOG.jsonl'
done = {json.loads(l)['attempt'] for l in open(LOG) if l.strip()}
judged = json.load(open(sys.argv[1]))
with open(LOG, 'a') as log:
    for path in sys.argv[2:]:
        for l in open(path):
            d = json.loads(l)
            name = f"auto:{d['file']}:{d['def']}:{d['at']}:{d['old']}=>{d['new']}"
            if name in done: continue
            done.add(name)
            j = {}
            if d['survived']:
                j = [x for x in judged if x['file'] == d['file'] and x['def'] == d['def'] and d['new'].strip().startswith(x.get('new', '')) and x.get('at', d['at']) == d['at']]
                if not j: sys.exit('not judged: ' + name)
                j = j[0]
            log.write(json.dumps({
                'attempt': name,
                'definition': d['file'] + ': ' + d['def'],
                'edit': f"{d['old']}  ==>  {d['new']}",
                'meaning': 'automatic edit',
                'claim': j.get('judgement', 'not assigned to one property; the build stops at the proof named'),
                'failed_proofs': [d['first_failure'].split('.')[-1]] if d['first_failure'] else [],
                'theorems_failed': [d['first_failure']] if d['first_failure'] else [],
                'tightened': j.get('tightened', []),
            }) + '\n')
