#!/usr/bin/env python3
"""Turns the records of tools/mutate.py into seeded/LOG.jsonl.
usage: python3 tools/seed_log.py RECORD.jsonl ...   (also reads tools/seed_notes.json: survivors)
The claim an edit breaks is found by following the callers of the edited definition up to the
definitions named in the statements of the manifest theorems."""
import json, re, glob, os, sys
root = os.path.dirname(os.path.dirname(os.path.abspath(__file__)))
txt = {os.path.basename(f)[:-2]: open(f).read() for f in glob.glob(root + '/rocq/theories/*.v')}
defs, stm = {}, {}
for f, s in txt.items():
    s = re.sub(r'\(\*.*?\*\)', '', s, flags=re.S)
    for m in re.finditer(r"^\s*(?:Definition|Fixpoint)\s+([\w']+)(.*?)\.\s*$(?=\s*(?:Definition|Fixpoint|Lemma|Theorem|Section|End|Notation|Record|Inductive|Example|Context|Corollary|Proof|\Z))", s, re.S | re.M):
        defs.setdefault(m.group(1), set()).update(re.findall(r"[\w']+", m.group(2)))
    for m in re.finditer(r"^(?:Theorem|Corollary|Lemma)\s+([\w']+)(.*?)\nProof", s, re.S | re.M):
        stm[m.group(1)] = set(re.findall(r"[\w']+", m.group(2)))
man = json.load(open(root + '/MANIFEST.json'))['claims']
props = {json.loads(l)['id']: json.loads(l)['title'] for l in open(root + '/properties.jsonl')}
thm = {t: c['property'] for c in man for t in c['theorems']}
callers = {}
for d, ws in defs.items():
    for w in ws & defs.keys():
        if w != d: callers.setdefault(w, set()).add(d)
def claims(d):
    seen, front = {d}, [d]
    while front:
        hit = [t for t in thm if stm.get(t, set()) & set(front)]
        if hit: return sorted(hit)
        front = [c for x in front for c in callers.get(x, ()) if c not in seen]
        seen |= set(front)
    return []
notes = json.load(open(root + '/tools/seed_notes.json')) if os.path.exists(root + '/tools/seed_notes.json') else {}
recs = {}
for fn in sys.argv[1:]:
    for l in open(fn):
        r = json.loads(l)
        if r['status'] not in ('survived', 'killed'): continue
        recs.setdefault((r['file'], r['definition'], r['edit']), []).append(r)
out = []
for (fl, d, edit), rs in recs.items():
    if edit.split('  ==>  ')[0] == edit.split('  ==>  ')[-1]: continue
    first, last = rs[0], rs[-1]
    ts = claims(d); ps = sorted({thm[t] for t in ts})
    breaks = ", ".join(f"{p} ({props[p]})" for p in ps[:4]) or "internal helper"
    note, tightened, result = notes.get(d, {}), [], last['status']
    if first['status'] == 'survived' and last['status'] == 'killed':
        result = 'survived at first, killed after tightening'
        tightened = [t for t in note.get('tightened', [])] or [x.split('.')[-1] for x in last['failed'][:3]]
        if 'equivalent' not in note.get('breaks', 'equivalent'): breaks = note['breaks']
    elif last['status'] == 'survived':
        eq = notes.get('equivalent', {}).get(d)
        if eq: breaks, result = 'nothing: ' + eq, 'survived: equivalent edit'
    out.append({"definition": f"{fl}.{d}", "edit": edit, "breaks": breaks, "theorems_about_it": ts[:8],
      "result": result, "failed": last['failed'], "tightened": tightened})
json.dump(None, open(os.devnull, 'w'))
with open(root + '/seeded/LOG.jsonl', 'w') as f:
    for o in out: f.write(json.dumps(o, ensure_ascii=False) + '\n')
left = [o for o in out if o['result'] == 'survived']
print(len(out), 'records;', len(left), 'survivors without a note:')
for o in left: print('  ', o['definition'], '|', o['edit'])
for l in open(root + '/tools/seed_manual.jsonl') if os.path.exists(root + '/tools/seed_manual.jsonl') else []:
    open(root + '/seeded/LOG.jsonl', 'a').write(l)
