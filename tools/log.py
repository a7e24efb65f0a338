"""Append results of tools/mutate.py (default /tmp/mut/results.jsonl) to seeded/LOG.jsonl, one line per attempt.

"theorems_failed" lists the property theorems whose proof no longer goes through.  A proof may break because its
script follows the shape of the edited definition, so this alone does not show that the statement became false;
"claim_survives" marks edits that leave the stated claim true."""
import json, os, sys
here = os.path.dirname(os.path.abspath(__file__))
log = os.path.join(here, '..', 'seeded', 'LOG.jsonl')
src = sys.argv[1] if len(sys.argv) > 1 else '/tmp/mut/results.jsonl'
extra = json.load(open(sys.argv[2])) if len(sys.argv) > 2 else {}
seen = {json.loads(l)['id'] for l in open(log) if l.strip()} if os.path.exists(log) else set()
with open(log, 'a') as f:
    for l in open(src):
        d = json.loads(l)
        if d['id'] in seen:
            continue
        seen.add(d['id'])
        e = extra.get(d['id'], {})
        f.write(json.dumps({
            'id': d['id'], 'file': d['file'] + '.v', 'definition': d['definition'], 'edit': d['edit'],
            'old': d['old'], 'new': d['new'], 'claim': d['claim'],
            'claim_survives': e.get('survives', False), 'theorems_failed': d['failed'],
            'broken_proofs': d['admitted'], 'theorems_tightened': e.get('tightened', []),
            'note': e.get('note', d.get('note', ''))}) + '\n')
