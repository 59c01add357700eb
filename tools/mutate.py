#!/usr/bin/env python3
"""Seeded-bug runner.  usage: mutate.py BASE WORK MUTATIONS.json OUT.jsonl
BASE is a built scratch copy of rocq/ (with .glob files), WORK a directory to build the
edited copy in.  Each mutation: {"id","file","old","new","definition","edit","claim"}; the
edit is applied and everything is rebuilt with make -k.  The theorems that depend on a
lemma whose proof no longer passes (from the .glob files of BASE) are reported as failed.
If there are none, the failing lemmas are admitted (in the scratch copy only) and the
rebuild goes on, until a theorem fails or everything builds."""
import sys, os, re, json, subprocess, shutil, glob
base, work, muts, out = sys.argv[1:5]
HEAD = re.compile(r'^\s*(?:Local |Global |#\[[^\]]*\]\s*)?(Lemma|Theorem|Example|Corollary|Fact|Remark|Definition|Fixpoint|Instance|Program Definition)\s+([\w\']+)')
def graph():
    g = {}
    for f in glob.glob(base + '/theories/*.glob'):
        lib = 'Verif.' + os.path.basename(f)[:-5]
        defs, refs = [], []
        for l in open(f):
            w = l.split()
            if not w: continue
            if w[0].startswith('R') and len(w) >= 5:
                refs.append((int(w[0][1:].split(':')[0]), w[1], w[3]))
            elif w[0] in ('prf', 'def', 'thm', 'inst', 'lem', 'ex', 'ind', 'rec', 'constr', 'not', 'fix', 'proj', 'class', 'coe', 'var', 'sec', 'scheme', 'binder') and len(w) >= 4:
                if w[0] in ('prf', 'def', 'thm', 'inst', 'lem', 'ex', 'fix'):
                    defs.append((int(w[1].split(':')[0]), w[3]))
        defs.sort()
        import bisect
        pos = [d[0] for d in defs]
        for (p, rl, rn) in refs:
            i = bisect.bisect_right(pos, p) - 1
            if i < 0: continue
            g.setdefault((lib, defs[i][1]), set()).add((rl, rn))
        for _, n in defs: g.setdefault((lib, n), set())
    return g
G = graph()
REV = {}
for a, bs in G.items():
    for b in bs: REV.setdefault(b, set()).add(a)
def dependents(roots):
    seen, todo = set(), list(roots)
    while todo:
        x = todo.pop()
        if x in seen: continue
        seen.add(x)
        todo += list(REV.get(x, ()))
    return sorted(n for l, n in seen if l.startswith('Verif.Thm_') and re.match(r'C\d+_', n) and n in THEOREMS)
THEOREMS = set()
for f in glob.glob(base + '/theories/Thm_*.v'):
    THEOREMS |= set(re.findall(r'^Theorem\s+(C\d+_\w+)', open(f).read(), re.M))
def make():
    r = subprocess.run(['make', '-k', '-j2', '-Otarget', '-C', work], capture_output=True, text=True)
    return r.returncode, r.stdout + r.stderr
def admit(path, line):
    L = open(path).read().split('\n')
    i = line - 1
    h = i
    while h >= 0 and not HEAD.match(L[h]): h -= 1
    if h < 0: return None
    name = HEAD.match(L[h]).group(2)
    p = h
    while p < len(L) and not re.match(r'^\s*Proof\b', L[p]) and 'Proof.' not in L[p]: p += 1
    if p > i: return ('bad', name)
    e = p
    while e < len(L) and not re.search(r'\b(Qed|Defined)\.\s*$', L[e]): e += 1
    pre = L[p][:L[p].index('Proof')]
    for x in range(p, e + 1): L[x] = ''
    L[p] = pre + 'Proof. Admitted.'
    open(path, 'w').write('\n'.join(L))
    return ('ok', name)
done = set()
if os.path.exists(out):
    done = {json.loads(l)['id'] for l in open(out)}
for m in json.load(open(muts)):
    if m['id'] in done: continue
    shutil.rmtree(work, ignore_errors=True); subprocess.run(['cp', '-a', base, work], check=True)
    p = work + '/theories/' + m['file']
    s = open(p).read()
    c = s.count(m['old'])
    if c != 1:
        rec = dict(m, result='edit not applied: %d occurrences' % c)
        print(rec['id'], rec['result'], flush=True); continue
    open(p, 'w').write(s.replace(m['old'], m['new']))
    admitted, status, failed = [], 'ok', []
    for rnd in range(40):
        rc, log = make()
        if rc == 0: break
        errs = {}
        for a in re.finditer(r'File "(?:\./)?(theories/\w+\.v)", line (\d+)[^\n]*\n(Error[^\n]*(?:\n[^\n]*)?)', log):
            errs.setdefault(a.group(1), (int(a.group(2)), a.group(3)))
        if not errs: status = 'unparsed: ' + log[-400:]; break
        bad, roots = False, set()
        for f, (ln, msg) in errs.items():
            r = admit(work + '/' + f, ln)
            if r is None or r[0] == 'bad':
                status = 'does not typecheck: %s:%d %s %s' % (f, ln, r, msg); bad = True
            else:
                admitted.append(f.split('/')[-1][:-2] + '.' + r[1])
                roots.add(('Verif.' + f.split('/')[-1][:-2], r[1]))
        failed = sorted(set(failed) | set(dependents(roots)))
        if bad or failed: break
    rec = dict(m, result=status, admitted=admitted, theorems_failed=failed)
    open(out, 'a').write(json.dumps(rec) + '\n')
    print(m['id'], status, admitted, failed, flush=True)
