#!/usr/bin/env python3
"""Rebuild MANIFEST.json from the theorems of rocq/theories/*Props.v and tools/notes.json.

A theorem named Cnn_... belongs to property Cnn. notes.json maps a property to
[status, note]; a property with theorems and no entry is "proved".
"""
import glob, json, os, re
root = os.path.dirname(os.path.dirname(os.path.abspath(__file__)))
notes = json.load(open(os.path.join(root, 'tools/notes.json')))
ids = [json.loads(l)['id'] for l in open(os.path.join(root, 'properties.jsonl')) if l.strip()]
thms = {}
listed = open(os.path.join(root, 'rocq/_CoqProject')).read().split()
for f in sorted(glob.glob(os.path.join(root, 'rocq/theories/*Props.v'))):
    assert 'theories/' + os.path.basename(f) in listed, f
    src = open(f).read()
    names = re.findall(r'^Theorem\s+(\w+)', src, re.M)
    for n in names:
        assert re.search(r'^Print Assumptions %s\.' % n, src, re.M), (f, n)
        thms.setdefault(n.split('_')[0], []).append(n)
for k in thms:
    assert k in ids, k
claims = []
for i in ids:
    if i in thms or i in notes:
        st, note = notes.get(i, ['proved', ''])
        names = thms.get(i, [])
        if st == 'proved':
            assert not any(n.endswith('_refuted') or n.endswith('_partial') for n in names), i
        claims.append({'property': i, 'status': st, 'theorems': names, 'note': note})
missing = [i for i in ids if i not in thms and i not in notes]
json.dump({'claims': claims}, open(os.path.join(root, 'MANIFEST.json'), 'w'), indent=1)
print(len(claims), 'claims; missing', missing)
