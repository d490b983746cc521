#!/usr/bin/env python3
"""new results of tools/automut.py (/tmp/mut/auto.jsonl) appended to seeded/LOG.jsonl, one line per attempt."""
import json, os, re
here = os.path.dirname(os.path.abspath(__file__))
LOG = here + '/../seeded/LOG.jsonl'
NOTES = json.load(open(here + '/../seeded/auto_notes.json'))
old = [json.loads(l) for l in open(LOG)]
have = {(d['definition'], d['edit'], tuple(d['failed'])) for d in old}
n = max(int(d['id'][5:]) for d in old if d['id'].startswith('auto-'))
new = []
for l in open('/tmp/mut/auto.jsonl'):
    r = json.loads(l); n += 1
    if r.get('invalid') or r.get('timeout') or 'survived' not in r: continue
    nt = NOTES.get(r['key'], {})
    br = sorted({m.group(1) for x in r['failed'] for m in [re.search(r':(C\d\d+)_', x or '')] if m})
    d = dict(id=f'auto-{n}', definition=f"{r['file']}.v:{r['defn']}", edit='one-token edit: ' + r['line'] + '  =>  ' + r['newline'], breaks=nt.get('breaks') or ', '.join(br) or 'claims resting on ' + ', '.join(map(str, r['failed'][:3])),
             survived=r['survived'], failed=r['failed'], tightened=nt.get('tightened', []))
    if r['survived']: d['note'] = nt.get('note', 'survived: under examination')
    elif nt.get('note'): d['note'] = nt['note']
    if (d['definition'], d['edit'], tuple(d['failed'])) not in have: new.append(d)
with open(LOG, 'a') as f:
    for d in new: f.write(json.dumps(d) + '\n')
print(len(old), '+', len(new), 'attempts;', [d['id'] for d in new if d['survived']])
