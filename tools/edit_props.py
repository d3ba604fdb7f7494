"""Update or append properties: python3 tools/edit_props.py < json-lines (merged by id)."""
import json, sys, os
p = os.path.join(os.path.dirname(__file__), '..', 'properties.jsonl')
props = [json.loads(l) for l in open(p)]
by = {d['id']: d for d in props}
for l in sys.stdin:
    if not l.strip(): continue
    d = json.loads(l)
    if d['id'] in by: by[d['id']].update(d)
    else: by[d['id']] = d
with open(p, 'w') as f:
    for k in sorted(by, key=lambda s: int(s[1:])):
        d = by[k]
        for key in ('id','title','statement','quantifier','why_tests_cant','anchors'): assert key in d, (k, key)
        f.write(json.dumps(d) + '\n')
