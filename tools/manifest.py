"""Regenerate MANIFEST.json and the file list of rocq/_CoqProject.

Theorems are attached to a property by their name prefix (C01_..., C02_...).
Status and notes that are not the default are kept in notes.json next to this file.
"""
import json, os, re, glob
here = os.path.dirname(os.path.abspath(__file__))
root = os.path.dirname(here)
props = [json.loads(l) for l in open(os.path.join(root, 'properties.jsonl')) if l.strip()]
notes = json.load(open(os.path.join(here, 'notes.json')))
thms = {}
for f in sorted(glob.glob(os.path.join(root, 'rocq/theories/*_Props*.v'))):
    for m in re.finditer(r'^\s*Theorem (C\d+)_(\w+)', open(f).read(), re.M):
        thms.setdefault(m.group(1), []).append(m.group(1) + '_' + m.group(2))
claims = []
for p in props:
    i = p['id']
    n = notes.get(i, {})
    t = thms.get(i, [])
    status = n.get('status', 'proved' if t else 'not_applicable')
    if not t and status == 'proved':
        status = 'not_applicable'
    c = {'property': i, 'status': status, 'theorems': t, 'note': n.get('note', '' if t else 'not yet modelled')}
    claims.append(c)
json.dump({'claims': claims}, open(os.path.join(root, 'MANIFEST.json'), 'w'), indent=1)
order = open(os.path.join(here, 'order.txt')).read().split()
with open(os.path.join(root, 'rocq/_CoqProject'), 'w') as f:
    f.write('-Q theories Verif\n')
    for o in order:
        f.write('theories/%s.v\n' % o)
have = {os.path.basename(x)[:-2] for x in glob.glob(os.path.join(root, 'rocq/theories/*.v'))}
print('missing from order:', have - set(order), 'missing files:', set(order) - have)
from collections import Counter
print(Counter(c['status'] for c in claims), sum(len(c['theorems']) for c in claims))
print('no theorems:', [c['property'] for c in claims if not c['theorems']])
