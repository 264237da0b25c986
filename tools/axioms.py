#!/usr/bin/env python3
"""Recompile the Prop*.v files into a scratch directory, three at a time, and group the theorems by the axioms
Print Assumptions lists.  Writes the text between the AXIOMS markers of DESIGN.md."""
import glob, os, re, subprocess, sys
root = os.path.dirname(os.path.dirname(os.path.abspath(__file__)))
from concurrent.futures import ThreadPoolExecutor
groups = {}
def compile(f):
    return subprocess.run(['coqc', '-Q', 'theories', 'Verif', '-o', '/tmp/ax/' + os.path.basename(f) + 'o', f],
                          cwd=root + '/rocq', capture_output=True, text=True)
files = sorted(glob.glob(root + '/rocq/theories/Prop*.v'))
with ThreadPoolExecutor(3) as ex:
    outs = list(ex.map(compile, files))
for f, out in zip(files, outs):
    text = re.sub(r'\(\*.*?\*\)', '', open(f).read(), flags=re.S)
    names = re.findall(r'Print Assumptions (\w+)', text)
    if out.returncode:
        sys.exit(out.stderr)
    blocks, cur = [], None
    for line in out.stdout.split('\n'):
        if line.startswith('Closed under'):
            blocks.append([]); cur = None
        elif line.startswith('Axioms:'):
            cur = []; blocks.append(cur)
        elif cur is not None and re.match(r'^[A-Za-z_]', line):
            cur.append(line.split()[0])
    assert len(blocks) == len(names), (f, len(blocks), len(names))
    for n, b in zip(names, blocks):
        groups.setdefault(tuple(sorted(b)), []).append(n)
lines = []
for k, v in sorted(groups.items()):
    lines.append('* ' + (', '.join('`%s`' % a for a in k) if k else '**no axiom** (closed under the global context)') + ' — %d theorems: ' % len(v)
                 + ', '.join(sorted(v)) + '.')
d = root + '/DESIGN.md'
s = open(d).read()
a, b = '<!-- AXIOMS -->', '<!-- END AXIOMS -->'
s = s[:s.index(a) + len(a)] + '\n' + '\n'.join(lines) + '\n' + s[s.index(b):]
open(d, 'w').write(s)
print({k: len(v) for k, v in groups.items()})
