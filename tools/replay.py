"""Replays the edits that survived earlier against the current theories.

usage: python3 tools/replay.py OUT.jsonl RECORD.jsonl ...
Reads records of tools/mutate.py, takes the edits whose last status is 'survived', applies each to
the scratch copy of the current sources (/tmp/mut/base, compiled) and records what happens now."""
import json, sys, os
sys.path.insert(0, os.path.dirname(os.path.abspath(__file__)))
import mutate
out, last = sys.argv[1], {}
for fn in sys.argv[2:]:
    for l in open(fn):
        r = json.loads(l)
        if r['status'] in ('survived', 'killed'): last[(r['file'], r['definition'], r['edit'])] = r
done = set()
if os.path.exists(out):
    for l in open(out): d = json.loads(l); done.add((d['file'], d['definition'], d['edit']))
for key, r in last.items():
    if r['status'] != 'survived' or key in done: continue
    s = open(f"{mutate.BASE}/theories/{r['file']}.v").read()
    old, new = r['edit'].split('  ==>  ')
    if old == new: continue
    # the occurrence inside the definition
    import re
    m = re.search(r"^\s*(?:#\[[^\]]*\]\s*)?(?:Definition|Fixpoint)\s+" + re.escape(r['definition']) + r"(?![\w'])", s, re.M)
    p = s.find(old, m.start()) if m else -1
    if p < 0:
        st, errs, t = 'gone', [], 0
    else:
        st, errs, t = mutate.run(dict(file=r['file'], new=s[:p] + new + s[p + len(old):]), 1500)
    d = dict(file=r['file'], definition=r['definition'], line=r['line'], edit=r['edit'], status=st,
             failed=[f'{f}.{n}' for f, n in errs], secs=round(t))
    open(out, 'a').write(json.dumps(d, ensure_ascii=False) + '\n')
