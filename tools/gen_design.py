#!/usr/bin/env python3
"""Regenerate DESIGN.md = tools/design_head.md + tables derived from properties.jsonl, MANIFEST.json, the Coq files
and [Print Assumptions] (compiled in a temporary file outside the tree; needs a built rocq/)."""
import json, re, glob, os, subprocess, tempfile
root = os.path.dirname(os.path.dirname(os.path.abspath(__file__)))
th = root + '/rocq/theories/'
props = [json.loads(l) for l in open(root + '/properties.jsonl')]
man = {c['property']: c for c in json.load(open(root + '/MANIFEST.json'))['claims']}
where = {}
for f in sorted(glob.glob(th + 'Prop_*.v')):
    for m in re.finditer(r'^Theorem (C\d+_\w*)', open(f).read(), re.M):
        where[m.group(1)] = os.path.basename(f)[:-2]
names = [t for p in props for t in man[p['id']]['theorems']]
with tempfile.TemporaryDirectory() as d:
    src = ''.join(f'From Verif Require Import {f}.\n' for f in sorted(set(where.values())))
    src += ''.join(f'Goal True. idtac "@@ {t}". exact I. Qed.\nPrint Assumptions {t}.\n' for t in names)
    open(d + '/axioms_scratch.v', 'w').write(src)
    r = subprocess.run(['coqc', '-Q', th, 'Verif', d + '/axioms_scratch.v'], capture_output=True, text=True)
    if r.returncode:
        raise SystemExit(r.stderr[-2000:])
ax, cur = {}, None
code = {'ClassicalDedekindReals.sig_forall_dec': 'F', 'ClassicalDedekindReals.sig_not_dec': 'N',
        'FunctionalExtensionality.functional_extensionality_dep': 'E', 'Classical_Prop.classic': 'C'}
for line in r.stdout.splitlines():
    if line.startswith('@@ '):
        cur = line[3:].strip(); ax[cur] = ''
    elif line and line[0].isalpha() and '.' in line.split()[0] and cur:
        a = line.split()[0]
        if a in ('Closed', 'Axioms:', 'Fetching'): continue
        ax[cur] += code[a]
ax = {k: ''.join(sorted(v)) or '-' for k, v in ax.items()}
def models(fs):
    out, todo = [], list(fs)
    for f in fs:
        for m in re.finditer(r'From Verif Require Import ([^.]*)\.', open(th + f + '.v').read()):
            out += [x for x in m.group(1).split() if not x.startswith('Prop_')]
    out = [x for x in dict.fromkeys(out) if not re.search(r'Proofs?2?$|Facts$|Examples$|^RBase$|^Base$', x)]
    return out
o = [open(root + '/tools/design_head.md').read()]
o.append('\n## Every property\n\nStatus, where it is modelled, and what it needed.  The letters after a theorem are its assumptions '
         '(`-`: closed under the global context).\n')
for p in props:
    c = man[p['id']]
    fs = list(dict.fromkeys(where[t] for t in c['theorems']))
    anchors = p['anchors']
    if isinstance(anchors, list): anchors = '; '.join(a if isinstance(a, str) else ' '.join(map(str, a.values())) for a in anchors)
    o.append(f"\n### {p['id']} {p['title']} ({c['status']})\n")
    o.append(f"* code: {anchors}\n* model: {', '.join(models(fs)) or '-'}; statements in {', '.join(fs) or '-'}\n")
    o.append('* theorems: ' + (', '.join(f"`{t}` {ax[t]}" for t in c['theorems']) or 'none') + '\n')
    if c['note']: o.append(f"* {c['note']}\n")
o.append('\n## Source files, function by function\n\nThe fraction of the lines of each file that some definition of the model cites '
         '(`tools/coverage.py -a` prints the functions and the model files one by one), and the functions that no definition '
         'cites.  Property getters that only return a stored attribute are left out of the list.\n\n')
cov = subprocess.run(['python3', root + '/tools/coverage.py', '-a'], capture_output=True, text=True).stdout
cur, tab = None, {}
for line in cov.splitlines():
    if line.startswith('## '): cur = line[3:]; tab[cur] = []
    else:
        m = re.match(r'  (\d+)-(\d+) (\S+) (\d+)/(\d+) ?(.*)', line)
        if m: tab[cur].append((m.group(3), int(m.group(1)), int(m.group(2)), int(m.group(4)), int(m.group(5)), m.group(6)))
o.append('| file | cited | model files | functions not modelled |\n|---|---|---|---|\n')
for f, fs in tab.items():
    k, n = sum(x[3] for x in fs), sum(x[4] for x in fs)
    ms = sorted({m for x in fs for m in x[5].split()})
    miss = [f'`{x[0]}`' for x in fs if x[3] == 0 and x[4] > 2]
    o.append(f"| `{f}` | {100 * k // n} % | {', '.join(ms) or '-'} | {', '.join(miss) or '-'} |\n")
open(root + '/DESIGN.md', 'w').write(''.join(o))
import collections
print(collections.Counter(ax.values()))
