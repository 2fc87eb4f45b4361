#!/usr/bin/env python3
"""Run the repository's own Lisp tests (/repo/tests/*.lsp, on top of /repo/lisp/testing.lsp) inside the
Rocq model, sequentially, and print what the test framework reports.  Needs compiled theories."""
import subprocess, sys, glob, os
T = '/repo/tests/'
ROCQ = '/verif/rocq/theories'
names = sys.argv[1:] or sorted(os.path.basename(f) for f in glob.glob(T + '*.lsp'))
def lit(s): return '"' + s.replace('"', '""') + '"'
testing = open('/repo/lisp/testing.lsp', encoding='latin1').read()
tot = [0, 0, 0]
for n in names:
    src = open(T + n, encoding='latin1').read()
    code = f'''From Verif Require Import Interp.
Local Open Scope string_scope.
Definition framework : string := {lit(testing)}.
Definition tests : string := {lit(src)}.
Definition after (p : option (outcome (res val) * state)) : option state := match p with Some (_, s) => Some s | None => None end.
Definition outc (p : option (outcome (res val) * state)) := match p with Some (o, s) => Some o | None => None end.
Definition s1 := after (eval_text 4000 framework start).
Definition s2 := match s1 with Some s => eval_text 4000 tests s | None => None end.
Eval vm_compute in outc s2.
Eval vm_compute in match after s2 with Some s => show 4000 "(list number-of-passes number-of-failures number-of-errors failure-messages error-messages)" s | None => None end.
'''
    f = f'/tmp/lsp/{n.replace(".lsp", "").replace("-", "_")}.v'
    open(f, 'w', encoding='latin1').write(code)
    r = subprocess.run(['timeout', '300', 'coqc', '-Q', ROCQ, 'Verif', f], capture_output=True, encoding='latin1')
    print('==', n)
    out = r.stdout + r.stderr
    print(out[:6000])
