"""Mutation testing: python3 tools/mutate.py muts.json [start]
Each entry: {"def","file","old","new","claim"}; applies the edit in /tmp/mut, rebuilds; every lemma whose proof no longer
checks is replaced by Admitted so that the build can go on, and the property theorems that then rest on an admitted lemma
(or were admitted themselves) are reported as failed. Appends one line per mutation to seeded/LOG.jsonl."""
import json, os, re, subprocess, sys, shutil
ROOT = os.path.dirname(os.path.dirname(os.path.abspath(__file__)))
SRC = os.environ.get('MUTSRC', os.path.join(ROOT, 'rocq')); W = os.environ.get('MUTDIR', '/tmp/mut')
def order():
    return [l.strip() for l in open(os.path.join(SRC, '_CoqProject')) if l.strip().endswith('.v')]
FILES = order()
HEAD = re.compile(r'^\s*(?:#\[[^\]]*\]\s*)?(?:Local\s+|Global\s+)?(Lemma|Theorem|Example|Corollary|Fact|Remark)\s+([\w\x27]+)', re.M)
def deps():
    d = {}
    for f in FILES:
        t = open(os.path.join(SRC, f)).read(); s = set()
        for m in re.finditer(r'From Verif Require (?:Import|Export)\s+([\w\s]+?)\.', t):
            s |= {'theories/%s.v' % x for x in m.group(1).split()}
        d[f] = s
    c = {}
    for f in FILES:
        c[f] = set(d[f])
        for g in d[f]: c[f] |= c.get(g, set())
    return c
DEPS = deps()
def admit(text, line):
    """admit the proof enclosing the line; returns (new text, kind, name)"""
    offs = [0]
    for l in text.split('\n'): offs.append(offs[-1] + len(l) + 1)
    pos = offs[line]  # end of that line
    ms = [m for m in HEAD.finditer(text) if m.start() < pos]
    if not ms: return None
    m = ms[-1]
    q = re.compile(r'\b(Qed|Defined)\.').search(text, m.end())
    p = re.compile(r'\bProof\b[^.]*\.').search(text, m.end())
    if q is None or p is None or p.start() > q.start() or q.end() < offs[line - 1]: return None
    body = text[p.end():q.start()]
    return text[:p.end()] + ' Admitted. ' + '\n' * body.count('\n') + text[q.end():], m.group(1), m.group(2)
def run(mu):
    target = 'theories/' + mu['file'] + '.v'
    path = os.path.join(W, target)
    s = open(os.path.join(SRC, target)).read()
    n = s.count(mu['old'])
    if n != 1: return {'error': 'pattern occurs %d times' % n}
    todo = [f for f in FILES if f == target or target in DEPS[f]]
    if 'only' in mu:  # keep these files and what they depend on
        keep = [f for f in todo if any(f.startswith('theories/' + p) for p in mu['only'])]
        todo = [f for f in todo if f in keep or any(f in DEPS[k] for k in keep)]
    for f in todo: shutil.copy(os.path.join(SRC, f), os.path.join(W, f))
    open(path, 'w').write(s.replace(mu['old'], mu['new']))
    failed, failed_props, out = [], set(), ''
    for f in todo:
        fp = os.path.join(W, f)
        while True:
            try:
                r = subprocess.run(['coqc', '-Q', 'theories', 'Verif', f], cwd=W, capture_output=True, text=True, timeout=240)
            except subprocess.TimeoutExpired:
                return {'error': 'timeout in ' + f}
            if r.returncode == 0: break
            m = re.search(r'File "\./[^"]*", line (\d+)', r.stderr)
            if not m: return {'error': r.stderr[:300]}
            a = admit(open(fp).read(), int(m.group(1)))
            if a is None: return {'error': 'not in a proof: ' + f + ': ' + r.stderr[:400]}
            open(fp, 'w').write(a[0]); failed.append((a[1], a[2]))
        if 'Props' in f and failed:
            names = [m.group(2) for m in HEAD.finditer(open(fp).read()) if m.group(1) == 'Theorem']
            mod = os.path.basename(f)[:-2]
            with open(os.path.join(W, 'Chk.v'), 'w') as fh:
                fh.write('From Verif Require Import %s.\n' % mod + ''.join('Print Assumptions %s.\n' % x for x in names))
            r = subprocess.run(['coqc', '-Q', 'theories', 'Verif', 'Chk.v'], cwd=W, capture_output=True, text=True, timeout=240)
            chunks = re.split(r'(?m)^(?=Closed under the global context|Axioms:)', r.stdout)
            chunks = [c for c in chunks if c.startswith(('Closed', 'Axioms'))]
            assert len(chunks) == len(names), (f, r.stderr[:300])
            bad = {x for _, x in failed}
            for nme, ch in zip(names, chunks):
                ax = {x.split('.')[-1] for x in re.findall(r"(?m)^([\w'.]+)(?:\s*:|$)", ch)}
                if ax & bad or nme in bad: failed_props.add(nme)
    for f in todo:  # restore the originals
        shutil.copy(os.path.join(SRC, f), os.path.join(W, f))
    exs = sorted(x for k, x in failed if k == 'Example')
    return {'failed': sorted(failed_props), 'lemmas': sorted({x for k, x in failed if k != 'Example'} - failed_props), 'examples': exs}
if __name__ == '__main__':
    muts = json.load(open(sys.argv[1])); start = int(sys.argv[2]) if len(sys.argv) > 2 else 0
    log = os.path.join(ROOT, 'seeded/LOG.jsonl')
    for i, mu in enumerate(muts[start:], start):
        shutil.rmtree(W, ignore_errors=True)
        shutil.copytree(SRC, W)
        r = run(mu)
        print(i, mu['def'], '|', mu['claim'][:60], '->', r if 'error' in r else (r['failed'] or 'SURVIVED'), r.get('lemmas', '') if not r.get('failed') else '', flush=True)
        if 'error' not in r and not mu.get('nolog'):
            json_line = {'definition': mu['def'], 'edit': mu['old'] + '  ==>  ' + mu['new'], 'claim_broken': mu['claim'], 'theorems_failed': r['failed'],
                         'lemmas_failed': r['lemmas'], 'examples_failed': r['examples'], 'theorems_tightened': mu.get('tightened', [])}
            with open(log, 'a') as fh: fh.write(json.dumps(json_line, ensure_ascii=False) + '\n')
