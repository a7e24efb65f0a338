"""Group the property theorems by the axioms Print Assumptions lists (stdin: output of coqc Audit.v) and write the list into DESIGN.md."""
import re, sys, collections, textwrap
names = re.findall(r'^Print Assumptions (\w+)\.', open('/verif/rocq/theories/Audit.v').read(), re.M)
blocks = []
for l in sys.stdin:
    if l.startswith('Axioms:') or l.startswith('Closed under'):
        blocks.append([])
        continue
    m = re.match(r'^([A-Za-z_][\w.]*)(?: :|$)', l)
    if m:
        blocks[-1].append(m.group(1))
assert len(blocks) == len(names), (len(blocks), len(names))
g = collections.OrderedDict()
for n, b in zip(names, blocks):
    g.setdefault(tuple(sorted(b)), []).append(n)
out = []
for k, v in sorted(g.items(), key=lambda x: len(x[0])):
    l = '* **%s** (%d theorems): %s.' % (', '.join('`%s`' % a for a in k) if k else 'no axioms', len(v), ', '.join(v))
    out.append(textwrap.fill(l, 110, subsequent_indent='  ', break_on_hyphens=False))
p = '/verif/DESIGN.md'
s = open(p).read()
b, e = '<!-- axioms begin -->', '<!-- axioms end -->'
open(p, 'w').write(s[:s.index(b) + len(b)] + '\n' + '\n'.join(out) + '\n' + s[s.index(e):])
