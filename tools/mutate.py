#!/usr/bin/env python3
"""Test the theorems against wrong programs.

usage: mutate.py MUTATIONS.json [name ...]

Each mutation is {"name", "file", "old", "new", "definition", "edit", "claim", "check": [files]}.
SafeWalk.v (slow) is rechecked only if "safe" is set.  The sources are copied to /tmp/mut/theories, the edit is made there, the interfaces are rebuilt with
coqc -vos and the proofs below the theorems of the claim (or of the files in "check") are rechecked with -vok.  A proof that breaks is replaced
by Admitted and the file is checked again, so every broken lemma is found.  A property theorem counts as
failed if it breaks itself or uses a broken lemma, directly or through other lemmas."""
import json, os, re, shutil, subprocess, sys, time
from concurrent.futures import ThreadPoolExecutor

SRC = os.environ.get('SRC', '/verif/rocq/theories')
DST = os.environ.get('MUT', '/tmp/mut') + '/theories'
WORKERS = int(os.environ.get('WORKERS', '4'))
FILES = [l.split('/')[1].strip()[:-2] for l in open('/verif/rocq/_CoqProject') if l.startswith('theories/')]

def deps():
    out = subprocess.run(['coqdep', '-Q', '.', 'Verif'] + [f + '.v' for f in FILES], cwd=SRC, capture_output=True, text=True).stdout
    d = {}
    for l in out.splitlines():
        m = re.match(r'(\w+)\.vo\b.*?:(.*)', l)
        if m: d[m.group(1)] = [x[:-3] for x in re.findall(r'\w+\.vo\b', m.group(2)) if x[:-3] != m.group(1)]
    return d
DEPS = deps()

def closure(f):
    """files that depend on f"""
    res = {f}
    for g in FILES:
        if any(x in res for x in DEPS.get(g, [])): res.add(g)
    return [g for g in FILES if g in res]

def below(fs):
    """fs and the files they depend on"""
    res = set(fs)
    for g in reversed(FILES):
        if g in res: res |= set(DEPS.get(g, []))
    return res

def targets(claim):
    """the files with the theorems of the claim"""
    ids = set(re.findall(r'C\d\d', claim))
    return [f for f in FILES if f.startswith('Prop') and ids & set(re.findall(r'Theorem (C\d\d)_', open(f'{SRC}/{f}.v').read()))]

def coqc(f, mode, limit=900):
    try:
        p = subprocess.run(['timeout', str(limit), 'coqc', '-q', mode, '-Q', '.', 'Verif', f + '.v'], cwd=DST, capture_output=True, text=True)
        return p.returncode, p.stdout + p.stderr
    except Exception as e:
        return 1, str(e)

VOSBROKEN = {}
def interface(f):
    """some proofs are needed for the interface already"""
    br = []
    for _ in range(20):
        c, o = coqc(f, '-vos')
        if c == 0: return c, o, br
        n = patch(f, o)
        if n is None or n in br: return c, o, br
        br.append(n)
    return c, o, br

def vos(fs):
    todo, done = list(fs), set(FILES) - set(fs)
    bad = {}
    with ThreadPoolExecutor(WORKERS) as ex:
        while todo:
            ready = [f for f in todo if all(d in done for d in DEPS.get(f, []))]
            if not ready: break
            for f, (c, o, br) in zip(ready, ex.map(interface, ready)):
                if br: VOSBROKEN[f] = br
                if c: bad[f] = o
                done.add(f); todo.remove(f)
    return bad

ITEM = re.compile(r'^\s*(?:#\[[^\]]*\]\s*)?(?:Local\s+)?(Lemma|Theorem|Example|Corollary|Instance|Fact|Remark)\s+([\w\']+)', re.M)

def patch(f, out):
    """replace the proof in which the error lies by Admitted; return the lemma's name"""
    m = re.search(r'File "\./%s\.v", line (\d+), characters (\d+)' % f, out)
    if not m: return None
    path = f'{DST}/{f}.v'
    text = open(path).read()
    lines = text.split('\n')
    b = text.encode()
    pos, ln = 0, int(m.group(1))
    pos = sum(len(l) + 1 for l in lines[:ln - 1]) + int(m.group(2)) // 1
    items = [i for i in ITEM.finditer(text) if i.start() <= pos]
    if not items: return None
    it = items[-1]
    end = re.compile(r'\b(Qed|Defined|Admitted)\.').search(text, it.end())
    if not end: return None
    body = text[it.start():end.start()]
    p = re.search(r'\bProof\b[^.]*\.', body)
    if p is None or 'Admitted' in end.group(0): return None
    if text[it.start()+p.end():end.start()].strip() == '' and False: return None
    stmt = body[:p.start()]
    nl = text[it.start():end.end()].count('\n') - stmt.count('\n')
    open(path, 'w').write(text[:it.start()] + stmt + 'Proof. Admitted.' + '\n' * nl + text[end.end():])
    return it.group(2)

def check(f):
    broken = []
    for _ in range(60):
        c, o = coqc(f, '-vok')
        if c == 0: return f, broken, None
        if c == 124: return f, broken, 'timeout'
        n = patch(f, o)
        if n is None or n in broken: return f, broken, o[-400:]
        broken.append(n)
    return f, broken, 'too many'

def bodies():
    d = {}
    for f in FILES:
        t = open(f'{SRC}/{f}.v').read()
        its = list(ITEM.finditer(t))
        for i, it in enumerate(its):
            e = its[i + 1].start() if i + 1 < len(its) else len(t)
            b = t[it.start():e]
            q = re.search(r'\b(Qed|Defined)\.', b)
            d.setdefault(it.group(2), '')
            d[it.group(2)] += b[:q.end()] if q else b
    return d

def dependents(broken):
    d = bodies()
    words = {n: set(re.findall(r"[\w']+", b)) for n, b in d.items()}
    bad = set(broken)
    while True:
        new = {n for n, w in words.items() if n not in bad and w & bad}
        if not new: break
        bad |= new
    return sorted(n for n in bad if re.match(r'C\d\d_', n) and not n.endswith('_cases'))

def main():
    muts = json.load(open(sys.argv[1]))
    want = set(sys.argv[2:])
    log = os.environ.get('LOG', '/tmp/mut/log.jsonl')
    fresh = not os.path.exists(DST)
    os.makedirs(DST, exist_ok=True)
    stale = set(FILES) if fresh else set()
    for f in FILES:
        a, b = f'{SRC}/{f}.v', f'{DST}/{f}.v'
        if not os.path.exists(b) or open(a).read() != open(b).read():
            shutil.copy(a, b); stale |= set(closure(f))
    if stale:
        bad = vos([f for f in FILES if f in stale])
        if bad: print('baseline broken', bad); return
    pending = set()
    for m in muts:
        if want and m['name'] not in want: continue
        t0 = time.time()
        f = m['file']
        text = open(f'{SRC}/{f}.v').read()
        if text.count(m['old']) != 1:
            print(m['name'], 'pattern occurs', text.count(m['old']), 'times'); continue
        open(f'{DST}/{f}.v', 'w').write(text.replace(m['old'], m['new']))
        goal = below(targets(m['claim']) or FILES)
        aff = [g for g in closure(f) if g in goal]
        VOSBROKEN.clear()
        bad = vos([g for g in FILES if g in goal and (g in pending or g in aff)])
        pending = (pending - goal) | set(aff)
        res, broken, notes = {}, [], []
        for g, br in VOSBROKEN.items(): res[g] = list(br); broken += br
        VOSBROKEN.clear()
        if bad: notes.append({k: v[-300:] for k, v in bad.items()})
        chk = m.get('check') or [g for g in aff if not g.startswith('Spec') and (m.get('safe') or g != 'SafeWalk')]
        chk = [g for g in chk if g in aff and g not in bad]
        with ThreadPoolExecutor(WORKERS) as ex:
            for g, br, err in ex.map(check, chk):
                if br: res[g] = res.get(g, []) + br; broken += br
                if err: notes.append({g: err})
        thms = dependents(broken + (['safe_string_prims'] if 'SafeWalk' in res else []))
        entry = {k: m[k] for k in ('name', 'definition', 'edit', 'claim')}
        entry.update({'broken_lemmas': res, 'theorems_failed': thms, 'checked': chk, 'notes': notes, 'seconds': round(time.time() - t0)})
        open(log, 'a').write(json.dumps(entry) + '\n')
        print(m['name'], '->', thms, res, notes, entry['seconds'], 's', flush=True)
        for g in FILES:
            a, b = f'{SRC}/{g}.v', f'{DST}/{g}.v'
            if open(a).read() != open(b).read(): shutil.copy(a, b)
    vos([g for g in FILES if g in pending])
main()
