#!/usr/bin/env python3
"""seeded/LOG.jsonl from the outputs of mutate.py.  usage: gen_log.py ROUND:OUT.jsonl ... > LOG.jsonl"""
import sys, json, os, re
exec(open(os.path.join(os.path.dirname(__file__), '..', 'seeded', 'mutants.py')).read())
CLAIM = {x['name']: x['claim'] for x in M}
TIGHT = {
 ('d07', '1'): ['C54_layout'], ('d08', '1'): ['C54_layout'],
 ('d03', '1'): ['C22_escape_bytewise', 'C22_escape_identity'],
 ('c08', '1'): ['C55_array_calls', 'C55_object_calls', 'C55_array_calls_throw', 'C55_object_calls_throw'],
 ('a02', '1'): ['C56_assign_move', 'C56_emplace_move', 'C56_member_move'],
 ('a03', '1'): ['C56_emplace_move', 'C56_emplace_temporary', 'C56_emplace_copy'],
}
NOTE = {
 'p18': 'behaves the same: the proofs break, the claims stay true',
 'p28': 'behaves the same: the proofs break, the claims stay true',
 'p29': 'behaves the same: the proofs break, the claims stay true',
 'k10': 'a smaller step is still right: the proofs break, the claims stay true',
 'e08': 'behaves the same on declared names: the proofs break, the claims stay true',
 'c01': 'behaves the same (erase(end()) does nothing): the proofs break, the claims stay true',
 'a01': 'differs only where the target is inside the source',
 'd03': 'the output is still JSON, so in round 1 only proofs broke; the exact text became a claim (C22_escape_bytewise)',
 'd07': 'the layout was no claim in round 1: the theorems listed lost their proofs but would still hold; C54 was added',
 'd08': 'the layout was no claim in round 1: the theorems listed lost their proofs but would still hold; C54 was added',
 'c08': 'in round 1 no positive theorem said what as_array() does to null; C55 was added',
 'a02': 'in round 1 no theorem said what a move leaves behind; C56 was added',
 'a03': 'in round 1 no theorem said where emplace puts the element; C56 was added',
}
EXTRA = json.load(open(os.path.join(os.path.dirname(__file__), '..', 'seeded', 'notes.json'))) if os.path.exists(os.path.join(os.path.dirname(__file__), '..', 'seeded', 'notes.json')) else {}
NOTE.update({k: v['note'] for k, v in EXTRA.items() if 'note' in v})
for k, v in EXTRA.items():
    if 'tightened' in v: TIGHT[(k, str(v['round']))] = v['tightened']
for a in sys.argv[1:]:
    r, f = a.split(':')
    for l in open(f):
        d = json.loads(l)
        e = {'mutant': d['name'], 'round': int(r), 'file': d['file'], 'definition': d['definition'], 'edit': d['edit'],
             'from': d['old'], 'to': d['new'], 'claim': CLAIM.get(d['name'], d['claim'])}
        if 'error' in d: e['error'] = re.sub(r'\s+', ' ', d['error'])[:200]
        e['theorems_failed'] = d.get('theorems_failed', [])
        e['theorems_tightened'] = TIGHT.get((d['name'], r), [])
        if d['name'] in NOTE: e['note'] = NOTE[d['name']]
        print(json.dumps(e))
