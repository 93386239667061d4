"""Generates mutants: python3 tools/automut.py out.json per_definition [seed]. Picks random textual operators inside each definition of the model files."""
import re, json, glob, os, random, sys
ROOT = os.path.dirname(os.path.dirname(os.path.abspath(__file__)))
OPS = [(r'<=\?', ['<?']), (r'<\?', ['<=?']), (r'>=\?', ['>?']), (r'>\?', ['>=?']), (r'>\?b', []), (r'Qle_bool (\(?[\w.#]+\)?) (\w+)', [r'Qle_bool \2 \1']), (r' \+ 1\b(?!%)', ['', ' + 2']), (r' - 1\b(?!%)', ['', ' - 2']), (r' - 2\b', [' - 1']), (r' \+ 2\b', [' + 1']),
       (r'&&', ['||']), (r'\|\|', ['&&']), (r'\bnegb ', ['']), (r'\bfirstn\b', ['skipn']), (r'\bskipn\b', ['firstn']), (r'\bfst\b', ['snd']), (r'\bsnd\b', ['fst']), (r'\brev \(', ['(']), (r'\bremovelast\b', ['@tl N']), (r'\bexistsb\b', ['forallb']), (r'\bforallb\b', ['existsb']),
       (r'\bmin\b', ['max']), (r'\bmax\b', ['min']), (r'\btrue\b', ['false']), (r'\bfalse\b', ['true']), (r'\bValueError\b', ['KeyError']), (r'\bIndexError\b', ['KeyError']), (r'\bKeyError\b', ['IndexError']), (r'\bTypeError\b', ['ValueError']),
       (r'\b(\w+) \+\+ (\w+)\b', [r'\2 ++ \1', r'\1', r'\2']), (r' \+\+ \[[^\[\]]*\]', ['']), (r'(?<![\w#.\x22])([1-9]\d?)(?=%nat|%Z|%N|\b)(?![\d.#])', ['INC']), (r' \+ (?=[a-z(])', [' - ']), (r' - (?=[a-z(])', [' + ']), (r' \* ', [' + ']), (r' / ', [' * ']),
       (r'(?<=then )(\w+) else (\w+)', [r'\2 else \1']), (r'\[\] => \[\]', ['[] => [[]]']), (r'\bSome\b (\w+) => ', []), (r'\bdgetd (\w+) (\w+) 0', [r'dgetd \1 \2 1']), (r'\bdset\b (\w+) (\w+) (\w+)', []), (r'\bmem\b (\w+) (\w+)', ['false', 'true']), (r'\bdmem\b (\w+) (\w+)', ['false', 'true'])]
def defs(t):
    """(name, start, end) of every Definition/Fixpoint"""
    ms = list(re.finditer(r'^[ \t]*(?:Definition|Fixpoint)\s+(\w+)', t, re.M))
    for m in ms:
        e = re.compile(r'\.[ \t]*(?:\(\*.*?\*\)[ \t]*)?$', re.M).search(t, m.end())
        yield m.group(1), m.start(), e.start() if e else len(t)
def comments(t):
    out, d, st = [], 0, 0
    i = 0
    while i < len(t) - 1:
        if t[i:i+2] == '(*': d += 1; st = i if d == 1 else st; i += 2; continue
        if t[i:i+2] == '*)': d -= 1; i += 2; (out.append((st, i)) if d == 0 else None); continue
        i += 1
    return out
if __name__ == '__main__':
    out, per, seed = sys.argv[1], int(sys.argv[2]), int(sys.argv[3]) if len(sys.argv) > 3 else 1
    files = sys.argv[4].split(',') if len(sys.argv) > 4 else None
    skip = set(sys.argv[5].split(',')) if len(sys.argv) > 5 else set()
    random.seed(seed); M = []
    for f in sorted(glob.glob(ROOT + '/rocq/theories/*Model.v')):
        b = os.path.basename(f)[:-2]
        if files and b not in files: continue
        t = open(f).read(); cs = comments(t)
        for name, s, e in defs(t):
            if name in skip: continue
            h = t.find(':=', s, e); h = s if h < 0 else h
            c = []
            for pat, news in OPS:
                for m in re.finditer(pat, t[h:e]):
                    p, q = h + m.start(), h + m.end()
                    if any(x <= p < y for x, y in cs): continue
                    if t.rfind('"', h, p) >= 0 and t[h:p].count('"') % 2 == 1: continue
                    for n in news:
                        new = str(int(m.group(0)) + 1) if n == 'INC' else m.expand(n)
                        if new != m.group(0): c.append((p, q, m.group(0), new))
            random.shuffle(c)
            for p, q, old, new in c[:per]:
                a, z = max(s, p - 50), min(e, q + 50)
                M.append({'def': name, 'file': b, 'pos': [p, q], 'old': old, 'new': new, 'ctx': t[a:z].replace('\n', ' ') + '  ==>  ' + (t[a:p] + new + t[q:z]).replace('\n', ' '), 'claim': 'automatic edit: the claims about ' + name})
    json.dump(M, open(out, 'w'), ensure_ascii=False); print(len(M))
