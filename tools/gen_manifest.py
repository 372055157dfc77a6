#!/usr/bin/env python3
"""Collects the theorem names Cnn_* from rocq/theories/*_Props.v, merges them with
tools/status.json ({"C01": ["proved", "note"], ...}) and writes MANIFEST.json."""
import glob, json, os, re
root = os.path.dirname(os.path.dirname(os.path.abspath(__file__)))
thms = {}
for f in sorted(glob.glob(root + '/rocq/theories/*_Props.v')):
    src = re.sub(r'\(\*.*?\*\)', '', open(f).read(), flags=re.S)
    for n in re.findall(r'^\s*Theorem\s+(C\d\d\w*)', src, flags=re.M):
        thms.setdefault(n[:3], []).append(n)
status = json.load(open(root + '/tools/status.json'))
ids = [json.loads(l)['id'] for l in open(root + '/properties.jsonl') if l.strip()]
claims = []
for i in ids:
    if i in status:
        claims.append({'property': i, 'status': status[i][0], 'theorems': thms.get(i, []), 'note': status[i][1]})
        if status[i][0] != 'not_applicable' and not thms.get(i): print('no theorems for', i)
    elif i in thms: print('no status for', i)
    else: print('pending', i)
for i in thms:
    if i not in ids: print('unknown property', i)
json.dump({'claims': claims}, open(root + '/MANIFEST.json', 'w'), indent=1)
print(sum(len(c['theorems']) for c in claims), 'theorems,', len(claims), 'claims')
