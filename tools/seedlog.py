#!/usr/bin/env python3
"""Convert the output of mutate.py to seeded/LOG.jsonl.

usage: seedlog.py TIGHTENED.json LOG.jsonl ...

The theorems that failed are recomputed: those whose proof uses a broken lemma, directly or through other lemmas.
SafeWalk.v uses its lemmas as hints, so one broken lemma there breaks the final result; a file that could not be
built at all counts as broken completely."""
import json, os, re, sys
ROOT = os.path.dirname(os.path.dirname(os.path.abspath(__file__)))
TH = os.path.join(ROOT, 'rocq/theories')
FILES = [l.split('/')[1].strip()[:-2] for l in open(os.path.join(ROOT, 'rocq/_CoqProject')) if l.startswith('theories/')]
ITEM = re.compile(r"^\s*(?:#\[[^\]]*\]\s*)?(?:Local\s+)?(Lemma|Theorem|Example|Corollary|Instance|Fact|Remark|Definition|Fixpoint|Ltac)\s+([\w']+)", re.M)
words, where = {}, {}
for f in FILES:
    t = open(f'{TH}/{f}.v').read()
    its = list(ITEM.finditer(t))
    for i, it in enumerate(its):
        e = its[i + 1].start() if i + 1 < len(its) else len(t)
        b = t[it.start():e]
        q = re.search(r'\b(Qed|Defined)\.', b)
        if it.group(1) in ('Lemma', 'Theorem', 'Example', 'Corollary', 'Instance', 'Fact', 'Remark'):
            if q: b = b[:q.end()]
            words.setdefault(it.group(2), set()).update(re.findall(r"[\w']+", b))
            where.setdefault(f, []).append(it.group(2))
users = {}
for n, w in words.items():
    for x in w:
        if x != n and x in words: users.setdefault(x, set()).add(n)
def dependents(bad):
    bad, todo = set(bad), list(bad)
    while todo:
        for n in users.get(todo.pop(), ()):
            if n not in bad: bad.add(n); todo.append(n)
    return sorted(n for n in bad if re.match(r'C\d\d_', n) and not n.endswith('_cases'))
def main():
    tight = json.load(open(sys.argv[1]))
    out = []
    for p in sys.argv[2:]:
        for l in open(p):
            e = json.loads(l)
            broken = [x for f, xs in e['broken_lemmas'].items() for x in xs]
            unbuilt = [f for n in e['notes'] for f in n if f in FILES and f not in e['broken_lemmas']]
            for f in unbuilt: broken += where.get(f, [])
            if 'SafeWalk' in e['broken_lemmas'] or 'SafeWalk' in unbuilt: broken += where['SafeWalk'][-1:] + ['safe_string_prims']
            t = tight.get(e['name'], {})
            out.append({'definition': e['definition'], 'edit': e['edit'], 'claim_broken': e['claim'], 'theorems_failed': dependents(broken),
                        'lemmas_broken': sorted(set(x for xs in e['broken_lemmas'].values() for x in xs)) + ['(all of %s.v)' % f for f in unbuilt],
                        'theorems_tightened': t.get('tightened', []), 'remark': t.get('remark', '')})
    with open(os.path.join(ROOT, 'seeded/LOG.jsonl'), 'w') as o:
        for e in out: o.write(json.dumps(e) + '\n')
    print(len(out), 'entries;', [e['definition'] for e in out if not e['theorems_failed']])
main()
