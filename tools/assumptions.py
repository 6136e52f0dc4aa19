#!/usr/bin/env python3
"""Rewrite the generated part of DESIGN.md: what Print Assumptions lists for each
theorem of rocq/theories/Prop*.v (the compiled files of a build must be there)."""
import glob, os, re, subprocess, sys, tempfile
root = os.path.dirname(os.path.dirname(os.path.abspath(__file__)))
rocq = root + '/rocq'
sets = {}
for f in sorted(glob.glob(rocq + '/theories/Prop*.v')):
    name = os.path.basename(f)[:-2]
    src = open(f, 'rb').read()
    with tempfile.TemporaryDirectory() as d:
        p = subprocess.run(['coqc', '-q', '-time', '-Q', 'theories', 'Verif', '-o', d + '/' + name + '.vo', '-dump-glob', d + '/x', f],
                           cwd=rocq, capture_output=True)
    if p.returncode:
        sys.exit(p.stderr.decode())
    buf = ''
    for l in p.stdout.decode().split('\n'):
        m = re.match(r'Chars (\d+) - (\d+) \[Print~Assumptions', l)
        if m:
            th = re.search(r'Assumptions\s+(\w+)', src[int(m.group(1)):int(m.group(2))].decode()).group(1)
            ax = tuple(sorted(set(re.findall(r'^([\w.]+)(?:\s*:|\s*$)', buf.replace('Closed under the global context', '').replace('Axioms:', ''), re.M))))
            sets.setdefault(ax, {}).setdefault(name, []).append(th)
            buf = ''
        elif l.startswith('Chars '):
            buf = ''
        else:
            buf += l + '\n'
out = []
for ax in sorted(sets, key=len):
    out.append('**' + ('No axioms (closed under the global context)' if not ax else ', '.join('`%s`' % a for a in ax)) + '**\n')
    for n in sets[ax]:
        out.append('* %s: %s' % (n, ', '.join(sets[ax][n])))
    out.append('')
s = open(root + '/DESIGN.md').read()
a, b = '<!-- assumptions: begin -->\n', '<!-- assumptions: end -->'
i, j = s.index(a) + len(a), s.index(b)
open(root + '/DESIGN.md', 'w').write(s[:i] + '\n'.join(out) + s[j:])
print({ax: sum(map(len, v.values())) for ax, v in sets.items()})
