"""Fast mutation testing: python3 tools/mutate2.py muts.json [start [step]]
As mutate.py, but stops at the first lemma whose proof no longer checks: the property theorems whose proofs rest on that lemma (from the
.glob files of the unmodified build) are reported as failed. A failed lemma on which no property theorem rests, or an Example, is admitted
and the build goes on. Needs a complete build in rocq/. Appends one line per mutation to seeded/LOG.jsonl."""
import json, os, re, subprocess, sys, shutil, glob
from mutate import ROOT, SRC, FILES, HEAD, DEPS, admit
W = os.environ.get('MUTDIR', '/tmp/mut')
def graph():
    uses = {}
    for g in glob.glob(SRC + '/theories/*.glob'):
        cur, mod = None, None
        ev = []
        for l in open(g, encoding='utf-8'):
            p = l.split()
            if l.startswith('F'): mod = p[0][1:]
            elif re.match(r'(prf|def|thm|lem|inst|ind|rec|constr|proj|ex|cor)$', p[0]) if p else False: ev.append((int(p[1].split(':')[0]), 0, p[-1]))
            elif l.startswith('R') and len(p) == 5 and p[4] in ('prf', 'def', 'thm', 'lem', 'inst') and p[1].startswith('Verif.'): ev.append((int(p[0][1:].split(':')[0]), 1, (p[1], p[3])))
        for _, k, v in sorted(ev, key=lambda e: (e[0], e[1])):
            if k == 0: cur = (mod, v); uses.setdefault(cur, set())
            elif cur: uses[cur].add(v)
    return uses
USES = graph()
REV = {}
for a, bs in USES.items():
    for b in bs: REV.setdefault(b, set()).add(a)
def theorems_on(mod, name):
    seen, st, out = set(), [(mod, name)], set()
    while st:
        x = st.pop()
        if x in seen: continue
        seen.add(x)
        if re.match(r'C\d\d', x[1]) and 'Props' in x[0] and not re.search(r'_ex(\d\w*|_\w+)?$|_nonvacuous', x[1]): out.add(x[1])
        st += REV.get(x, ())
    return out
def run(mu):
    target = 'theories/' + mu['file'] + '.v'
    s = open(os.path.join(SRC, target)).read()
    if 'pos' in mu:
        a, b = mu['pos']; assert s[a:b] == mu['old'], (mu, s[a:b]); t = s[:a] + mu['new'] + s[b:]
    else:
        n = s.count(mu['old'])
        if n != 1: return {'error': 'pattern occurs %d times' % n}
        t = s.replace(mu['old'], mu['new'])
    todo = [f for f in FILES if f == target or target in DEPS[f]]
    if 'only' in mu:
        keep = [f for f in todo if any(f.startswith('theories/' + p) for p in mu['only'])]
        todo = [f for f in todo if f in keep or any(f in DEPS[k] for k in keep)]
    open(os.path.join(W, target), 'w').write(t)
    done, res, lem, exs = [], None, [], []
    for f in todo:
        fp = os.path.join(W, f); done.append(f)
        while res is None:
            try: r = subprocess.run(['coqc', '-Q', 'theories', 'Verif', f], cwd=W, capture_output=True, text=True, timeout=300)
            except subprocess.TimeoutExpired: res = {'failed': [], 'error': 'timeout in ' + f}; break
            if r.returncode == 0: break
            m = re.search(r'File "\./[^"]*", line (\d+)', r.stderr)
            a = admit(open(fp).read(), int(m.group(1))) if m else None
            if a is None: res = {'error': 'not in a proof: ' + f + ': ' + r.stderr[:300]}; break
            th = theorems_on('Verif.' + os.path.basename(f)[:-2], a[2])
            if a[1] == 'Example': exs.append(a[2])
            else: lem.append(a[2])
            if th: res = {'failed': sorted(th)}; break
            open(fp, 'w').write(a[0])
        if res: break
    for f in done:
        for e in ('', 'o', 'os', 'ok'):
            src = os.path.join(SRC, f + e)
            if os.path.exists(src): shutil.copy2(src, os.path.join(W, f + e))
        gl = f[:-2] + '.glob'; shutil.copy2(os.path.join(SRC, gl), os.path.join(W, gl))
    res = res or {'failed': []}
    res.update(lemmas=sorted(set(lem) - set(res.get('failed', []))), examples=exs)
    return res
if __name__ == '__main__':
    muts = json.load(open(sys.argv[1])); start = int(sys.argv[2]) if len(sys.argv) > 2 else 0; step = int(sys.argv[3]) if len(sys.argv) > 3 else 1
    log = os.path.join(ROOT, 'seeded/LOG.jsonl')
    shutil.rmtree(W, ignore_errors=True); shutil.copytree(SRC, W)
    for i in range(start, len(muts), step):
        mu = muts[i]; r = run(mu)
        print(i, mu['file'], mu['def'], '|', mu['old'][:60].replace('\n', ' '), '==>', mu['new'][:60].replace('\n', ' '), '|', mu['claim'][:40], '->', ('ERROR ' + r['error'][:200]) if 'error' in r else (r['failed'][:3] or 'SURVIVED'), r['lemmas'] if not r.get('failed') else '', flush=True)
        if 'error' not in r and not mu.get('nolog'):
            with open(log, 'a') as fh:
                fh.write(json.dumps({'definition': mu['def'], 'edit': mu.get('ctx', mu['old'] + '  ==>  ' + mu['new']), 'claim_broken': mu['claim'], 'theorems_failed': r['failed'],
                    'lemmas_failed': r['lemmas'], 'examples_failed': r['examples'], 'theorems_tightened': mu.get('tightened', [])}, ensure_ascii=False) + '\n')
