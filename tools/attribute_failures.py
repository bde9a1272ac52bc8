"""Which theorems of Props/ use given lemmas, from the .glob files of a built copy.

usage: attribute_failures.py BUILT_ROCQ_DIR FILE.v:lemma ...
Uses inside Ltac definitions and hint databases are not seen, so the answer can miss theorems but does not add any.
"""
import sys, re, glob, os, collections

def graph(root):
    uses = collections.defaultdict(set)      # (module, name) -> {(module, name)}
    for g in glob.glob(root + '/theories/*/*.glob'):
        lines = open(g, encoding='utf-8', errors='replace').read().split('\n')
        mod = lines[1][1:]
        defs, refs = [], []
        for l in lines[2:]:
            m = re.match(r'(prf|def|ind|rec|fix|thm|inst|coe|proj|constr) (\d+):\d+ (\S+) (\S+)', l)
            if m:
                if m.group(1) not in ('proj', 'constr'): defs.append((int(m.group(2)), m.group(4)))
                continue
            m = re.match(r'R(\d+):\d+ (\S+) (\S+) (\S+) (\w+)', l)
            if m and m.group(2).startswith('Verif.') and m.group(5) not in ('var', 'lib', 'not', 'sec', 'binder'):
                refs.append((int(m.group(1)), (m.group(2), m.group(4))))
        defs.sort(); refs.sort()
        i = -1
        for p, r in refs:
            while i + 1 < len(defs) and defs[i + 1][0] <= p: i += 1
            if i >= 0: uses[(mod, defs[i][1])].add(r)
        for _, n in defs: uses[(mod, n)]
    return uses

def users(uses, failed):
    back = collections.defaultdict(set)
    for a, bs in uses.items():
        for b in bs: back[b].add(a)
    todo = [k for k in uses if (k[0].split('.')[-1] + '.v:' + k[1]) in failed]
    seen = set(todo)
    while todo:
        for a in back[todo.pop()]:
            if a not in seen: seen.add(a); todo.append(a)
    return seen

def theorems(root):
    out = []
    for f in sorted(glob.glob(root + '/theories/Props/*.v')):
        out += re.findall(r'^Theorem (C\d\d_\w+)', open(f).read(), re.M)
    return out

if __name__ == '__main__':
    u = users(graph(sys.argv[1]), set(sys.argv[2:]))
    names = {n for m, n in u if '.Props.' in m}
    print('\n'.join(t for t in theorems(sys.argv[1]) if t in names))
