#!/usr/bin/env python3
"""Test the theorems against wrong programs.

usage: mutate.py MUTATIONS.jsonl [SCRATCH]   (appends to seeded/LOG.jsonl)

Each line of MUTATIONS.jsonl: {"file", "definition", "old", "new", "edit", "claim", "property"}, and "also": a list of {"file", "old", "new"}.
The edit is made in a scratch copy of rocq/; the files depending on it are rebuilt.  A proof that fails is replaced by
Admitted in the scratch copy, and the build goes on until a theorem of the property in question has failed.  Which property theorems rest on
a failing lemma is read off the .glob files of the unedited build.
"""
import json, os, re, subprocess, sys, shutil, collections
V = '/verif'; TH = os.environ.get('SRC', V + '/rocq') + '/theories'   # SRC: a built snapshot, while files here are being edited
muts = [json.loads(l) for l in open(sys.argv[1]) if l.strip()]
S = sys.argv[2] if len(sys.argv) > 2 else '/tmp/mut/rocq'
LOG = V + '/seeded/LOG.jsonl'

def order():
    return [l.strip()[9:-2] for l in open(TH + '/../_CoqProject') if l.startswith('theories/')]
def requires(f):
    t = open(f'{TH}/{f}.v').read()
    r = set()
    for m in re.finditer(r'From Verif Require (?:Import|Export) ([^.]*)\.', t): r |= set(m.group(1).split())
    return r
ORD = order()
DEP = {f: requires(f) for f in ORD}
def dependents(f):
    out, ch = {f}, True
    for g in ORD:
        if DEP[g] & out: out.add(g)
    return [g for g in ORD if g in out]

# constants and what they refer to, from the .glob files
def graph():
    G = {}; 
    for f in ORD:
        defs = []; refs = []
        for l in open(f'{TH}/{f}.glob', errors='replace'):
            m = re.match(r'(\w+) (\d+):(\d+) (\S+) (\S+)$', l.strip())
            if m and m.group(1) != 'R' and not l.startswith('R') and m.group(1) in ('def','prf','thm','ind','rec','fix','inst'):
                defs.append((int(m.group(2)), f + '.' + m.group(5)))
            m = re.match(r'R(\d+):(\d+) Verif\.(\w+) (\S+) (\S+) (\S+)$', l.strip())
            if m: refs.append((int(m.group(1)), m.group(3) + '.' + m.group(5)))
        defs.sort(); refs.sort()
        import bisect
        starts = [d[0] for d in defs]
        for _, n in defs: G.setdefault(n, set())
        for p, r in refs:
            i = bisect.bisect_right(starts, p) - 1
            if i >= 0: G[defs[i][1]].add(r)
    return G
G = graph()
def rests_on(bad):
    """property theorems whose closure meets bad"""
    res = []
    for n in G:
        c = n.split('.')[-1]
        if not re.match(r'C\d\d_', c) : continue
        seen, st = set(), [n]
        while st:
            x = st.pop()
            if x in seen: continue
            seen.add(x); st += G.get(x, ())
        if seen & bad: res.append(c)
    return sorted(res)

def sync():
    os.makedirs(S + '/theories', exist_ok=True)
    subprocess.run(['rsync', '-a', '--delete', TH + '/', S + '/theories/'], check=True) if shutil.which('rsync') else subprocess.run(f'rm -rf {S}/theories && cp -a {TH} {S}/theories', shell=True, check=True)

HEAD = re.compile(r'(?m)^\s*(?:Local |Global )?(Lemma|Theorem|Corollary|Example|Definition|Fixpoint|Fact|Remark|Instance)\s+(\w+)')
def compile(f):
    p = subprocess.run(['timeout', '900', 'coqc', '-q', '-Q', 'theories', 'Verif', f'theories/{f}.v'], cwd=S, capture_output=True, text=True)
    return p.returncode, p.stdout + p.stderr
def fix(f, msg):
    """admit the failing proof; returns its name, or None"""
    m = re.search(r'File "[^"]*", line (\d+), characters (\d+)', msg)
    path = f'{S}/theories/{f}.v'; t = open(path).read()
    if not m: return None
    lines = t.split('\n'); off = sum(len(l) + 1 for l in lines[:int(m.group(1)) - 1]) + int(m.group(2))
    heads = [h for h in HEAD.finditer(t) if h.start() <= off]
    if not heads: return None
    h = heads[-1]; name = h.group(2)
    p = re.compile(r'Proof\b').search(t, h.start())
    q = re.compile(r'(?:Qed|Defined)\.').search(t, h.start())
    if not p or not q or p.start() > q.start() or q.end() <= off and 'Qed' not in t[off-8:off+8] and q.start() < off - 10: return name + ' (statement)'
    open(path, 'w').write(t[:p.start()] + 'Admitted.' + t[q.end():])
    return name

def run(m):
    sync()
    path = f"{S}/theories/{m['file']}.v"; t = open(path).read()
    n = t.count(m['old'])
    if n != 1: return {'error': f'{n} occurrences'}
    open(path, 'w').write(t.replace(m['old'], m['new']))
    for a in m.get('also', []):   # the same edit where the model says the same thing again
        path = f"{S}/theories/{a['file']}.v"; t = open(path).read()
        if t.count(a['old']) != 1: return {'error': f"{t.count(a['old'])} occurrences in {a['file']}"}
        open(path, 'w').write(t.replace(a['old'], a['new']))
    bad = []; dead = set()
    for f in dependents(m['file']):
        if DEP[f] & dead: dead.add(f); continue
        for _ in range(60):
            rc, msg = compile(f)
            if rc == 0: break
            name = fix(f, msg)
            if name is None or name.endswith('(statement)'):
                bad.append(f + '.' + (name or '?').split(' ')[0]); dead.add(f); break
            bad.append(f + '.' + name)
        else: dead.add(f)
        if any(t.startswith(w) for w in m['property'].split('/') for t in rests_on(set(bad))): break   # caught
    thms = rests_on(set(bad))
    return {'lemmas': bad, 'theorems': thms}

for m in muts:
    r = run(m)
    if 'error' in r: print('SKIP', m['definition'], r['error'], flush=True); continue
    rec = {'file': f"rocq/theories/{m['file']}.v", 'definition': m['definition'], 'edit': m['edit'], 'claim_broken': f"{m['property']}: {m['claim']}",
           'failed_proofs': r['lemmas'], 'theorems_failed': r['theorems'], 'theorems_tightened': []}
    want = m['property'].split('/')
    ok = any(t.startswith(w) for w in want for t in r['theorems'])
    print('CAUGHT' if ok else 'SURVIVED' if not r['lemmas'] else 'OTHER', m['property'], m['definition'], '|', m['edit'], '|', r['lemmas'][:4], '|', [t for t in r['theorems'] if any(t.startswith(w) for w in want)], flush=True)
    open(LOG if ok else '/tmp/mut/survived.jsonl', 'a').write(json.dumps(rec) + '\n')
