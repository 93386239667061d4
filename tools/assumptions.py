"""Print Assumptions for every theorem of MANIFEST.json; writes tools/assumptions.json (theorem -> list of axioms). Needs a build."""
import glob, json, os, re, subprocess, tempfile
ROOT = os.path.dirname(os.path.dirname(os.path.abspath(__file__)))
m = json.load(open(ROOT + '/MANIFEST.json'))
names = [t for c in m['claims'] for t in c['theorems']]
where = {}
for f in sorted(glob.glob(ROOT + '/rocq/theories/*Props*.v')):
    for x in re.finditer(r"\b(?:Theorem|Lemma)\s+([\w']+)", open(f).read()): where.setdefault(x.group(1), os.path.basename(f)[:-2])
with tempfile.TemporaryDirectory() as d:
    with open(d + '/Chk.v', 'w') as fh:
        fh.write('From Verif Require %s.\n' % ' '.join(sorted(set(where[n] for n in names))))
        for n in names: fh.write('Print Assumptions %s.%s.\n' % (where[n], n))
    r = subprocess.run(['coqc', '-Q', 'theories', 'Verif', d + '/Chk.v'], cwd=ROOT + '/rocq', capture_output=True, text=True)
assert r.returncode == 0, r.stderr[:500]
ch = [c for c in re.split(r'(?m)^(?=Closed under the global context|Axioms:)', r.stdout) if c.startswith(('Closed', 'Axioms'))]
assert len(ch) == len(names)
out = {n: ([] if c.startswith('Closed') else sorted(set(re.findall(r"(?m)^([\w'.]+)(?:\s*:|$)", c)) - {'Axioms'})) for n, c in zip(names, ch)}
json.dump({'axioms': out, 'file': where}, open(ROOT + '/tools/assumptions.json', 'w'), indent=0, sort_keys=True)
g = {}
for n, a in out.items(): g.setdefault(tuple(a), []).append(n)
for k, v in g.items(): print(len(v), k)
