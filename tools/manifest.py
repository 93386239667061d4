"""Regenerate MANIFEST.json from the theorem names in rocq/theories/*Props.v."""
import json, re, glob, os
root = os.path.dirname(os.path.dirname(os.path.abspath(__file__)))
NOTES = json.load(open(os.path.join(root, 'tools', 'notes.json')))
thms = {}
for f in sorted(glob.glob(os.path.join(root, 'rocq/theories/*Props*.v'))):
    for m in re.finditer(r'^(?:Theorem|Lemma|Corollary)\s+((C\d+)_\w+)', open(f).read(), re.M):
        thms.setdefault(m.group(2), []).append(m.group(1))
claims = []
for line in open(os.path.join(root, 'properties.jsonl')):
    p = json.loads(line)['id']
    t = thms.get(p, [])
    n = NOTES.get(p, {})
    if t:
        st = 'partial' if any(x.endswith('_partial') for x in t) else 'proved'
    else:
        continue
    claims.append({'property': p, 'status': n.get('status', st), 'theorems': t, 'note': n.get('note', '')})
json.dump({'claims': claims}, open(os.path.join(root, 'MANIFEST.json'), 'w'), ensure_ascii=False, indent=1)
print(len(claims), 'claims;', sum(len(c['theorems']) for c in claims), 'theorems')
unk = set(thms) - {json.loads(l)['id'] for l in open(os.path.join(root, 'properties.jsonl'))}
if unk: print('theorems with unknown ids', unk)
