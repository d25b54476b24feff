#!/usr/bin/env python3
"""List what Print Assumptions says of each property theorem (needs a built rocq/)."""
import glob, os, re, subprocess, sys, tempfile
rocq = os.path.join(os.path.dirname(os.path.dirname(os.path.abspath(__file__))), 'rocq')
groups = {}
for f in sorted(glob.glob(os.path.join(rocq, 'theories/*Props.v'))):
    asked = re.findall(r'^Print Assumptions (\w+)\.', open(f).read(), re.M)
    with tempfile.TemporaryDirectory() as t:
        name = os.path.basename(f)[:-2]
        p = subprocess.run(['coqc', '-time', '-Q', 'theories', 'Verif', '-o', os.path.join(t, name + '.vo'), f],
                           cwd=rocq, capture_output=True, text=True)
    assert p.returncode == 0, (f, p.stderr[-500:])
    out, acc = [], ''
    for line in p.stdout.splitlines():
        if line.startswith('Chars '):
            if '[Print~Assumptions' in line: out.append(acc)
            acc = ''
        else:
            acc += line + '\n'
    assert len(out) == len(asked), f
    for n, o in zip(asked, out):
        axioms = tuple(sorted(re.findall(r'^([\w.\']+) *(?::|$)', o, re.M))) if 'Axioms' in o else ()
        axioms = tuple(a for a in axioms if a != 'Axioms')
        groups.setdefault(axioms, []).append(n)
for axioms, names in sorted(groups.items(), key=lambda g: len(g[0])):
    print('%d theorems: %s' % (len(names), ', '.join(axioms) or 'closed under the global context'))
    if axioms or '-v' in sys.argv:
        for n in sorted(names): print('   ', n)
