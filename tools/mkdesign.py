#!/usr/bin/env python3
"""Rewrites sections 5 and 6 of DESIGN.md: the refuted statements (theorem and the comment
above it) and the axioms that Print Assumptions lists for each theorem of the manifest.
Needs a finished build in /verif/rocq."""
import collections, glob, json, os, re, subprocess, tempfile
V = '/verif'
T = V + '/rocq/theories'
extra = json.load(open(V + '/tools/findings.json'))
titles = {}
for l in open(V + '/properties.jsonl'):
    o = json.loads(l); titles[o['id']] = o['title']
where = {}
refuted = collections.defaultdict(list)
for f in sorted(glob.glob(T + '/*Props*.v')):
    s = open(f).read()
    mod = os.path.basename(f)[:-2]
    for m in re.finditer(r'^\s*(?:Theorem|Lemma|Corollary|Example) (C\d\d\w*)', s, re.M):
        where[m.group(1)] = mod
    for m in re.finditer(r'(?:\(\*\*((?:(?!\*\)).)*)\*\)\s*)?(?:Theorem|Lemma|Corollary) (C\d\d\w*_refuted)\b', s, re.S):
        c = re.sub(r'\s+', ' ', m.group(1) or '').strip()
        c = extra['theorems'].get(m.group(2), c)
        i = re.match(r'C\d+', m.group(2)).group(0)
        refuted['C1' + i[1:] if 'C1' + i[1:] in titles else i].append((m.group(2), c))
def other(p):
    if 'C1' + p[1:] in titles: return []
    return extra['other'].get('C' + p[2:] if len(p) == 4 and p[1] == '1' else p, [])
out = []
for p in sorted(titles, key=lambda p: (p[-2:], p)):
    if refuted.get(p) or other(p):
        out.append('\n**%s** %s\n' % (p, titles[p]))
        for n, c in refuted.get(p, []):
            out.append('* `%s`: %s' % (n, c))
        for c in other(p):
            out.append('* (read in the code, no theorem) ' + c)
out.append('\n**Outside the properties** (read in the code, no theorem)\n')
for c in extra['other'].get('', []):
    out.append('* ' + c)
sec5 = '\n'.join(out)

# section 3: files cited by the model
cited = collections.defaultdict(lambda: collections.defaultdict(set))
for f in sorted(glob.glob(T + '/*.v')):
    mod = os.path.basename(f)[:-2]
    if 'Props' in mod: continue
    for m in re.finditer(r'\b([A-Z]\w+\.(?:cxx|h))\b[:,]?((?:[\s,]*(?:and )?\d+(?:\s?-\s?\d+)?)*)', open(f).read()):
        for r in re.findall(r'\d+(?:\s?-\s?\d+)?', m.group(2)):
            cited[m.group(1)][mod].add(r.replace(' ', ''))
        cited[m.group(1)][mod]
rows, rest = [], []
for f in sorted(set(glob.glob('/repo/src/*.cxx') + glob.glob('/repo/src/*.h') + glob.glob('/repo/Likelihood/*.h')), key=os.path.basename):
    b = os.path.basename(f)
    n = sum(1 for _ in open(f, errors='replace'))
    if b in cited:
        ms = [m for m in cited[b] if cited[b][m]] or list(cited[b])
        rs = sorted(set(r for m in cited[b] for r in cited[b][m]), key=lambda r: int(r.split('-')[0]))
        rs = [r for r in rs if int(r.split('-')[-1]) <= n + 1]
        rows.append('| %s (%d) | %s | %s |' % (f[6:], n, ', '.join(ms), ', '.join(rs)))
    else:
        rest.append('%s (%d)' % (f[6:], n))
tools = sorted(set(os.path.dirname(x)[6:] for x in glob.glob('/repo/src/*/*.cxx')))
sec3 = ('Lines cited by the definitions of the model (number of lines of the file in brackets):\n\n| file | modelled in | lines |\n|---|---|---|\n' + '\n'.join(rows) +
        '\n\nFiles of which nothing is modelled (number of lines): ' + ', '.join(rest) + '.\n\nThe command line tools in ' + ', '.join(tools) +
        ' are not modelled either, nor are FITS and XML input and output, the packages tip, optimizers, irfs, astro and\nevtbin (their functions appear as universally quantified arguments, with the assumptions stated in the theorems),\nmemory allocation, threads (the code has none), and floating point rounding except where section 1 says so.\n')
man = json.load(open(V + '/MANIFEST.json'))
thms = [t for c in man['claims'] for t in c['theorems']]
mods = sorted(set(where[t] for t in thms))
src = ''.join('From Verif Require %s.\n' % m for m in mods)
for t in thms:
    src += 'Print Assumptions Verif.%s.%s.\n' % (where[t], t)
with tempfile.TemporaryDirectory() as d:
    p = d + '/Ax.v'
    open(p, 'w').write(src)
    r = subprocess.run(['coqc', '-Q', T, 'Verif', p], stdout=subprocess.PIPE, stderr=subprocess.STDOUT, text=True)
    assert r.returncode == 0, r.stdout[-2000:]
blocks = re.split(r'^(?=Axioms:|Closed under the global context)', r.stdout, flags=re.M)
blocks = [b for b in blocks if b.strip()]
assert len(blocks) == len(thms), (len(blocks), len(thms))
groups = collections.defaultdict(list)
for t, b in zip(thms, blocks):
    ax = tuple(sorted(re.findall(r'^([A-Za-z_][\w.]*)\s*(?::|$)', b, re.M)))
    ax = tuple(a for a in ax if a not in ('Axioms', 'Closed'))
    groups[ax].append(t)
out = ['Output of `Print Assumptions`, the same set grouped together (%d theorems in the manifest).' % len(thms)]
for ax, ts in sorted(groups.items(), key=lambda x: (len(x[0]), x[0])):
    out.append('\n%s (%d theorems):\n' % ('No axioms, closed under the global context' if not ax else ', '.join('`%s`' % a for a in ax), len(ts)))
    out.append(', '.join('`%s`' % t for t in ts))
sec6 = '\n'.join(out)
s = open(V + '/DESIGN.md').read()
i = s.index('## 3. What is'); j = s.index('## 4. Trusted base')
s = s[:i] + '## 3. What is modelled and what is not\n\n' + sec3 + '\n' + s[j:]
i = s.index('## 5. Findings'); j = s.index('## 6. Axioms per theorem')
s = s[:i] + '## 5. Findings\n\nStatements that the code does not meet. Each theorem below is proved of the model, with a\nwitness or for all inputs; the property keeps the status "partial".\n' + sec5 + '\n\n## 6. Axioms per theorem\n\n' + sec6 + '\n'
open(V + '/DESIGN.md', 'w').write(s)
print(len(thms), 'theorems;', {', '.join(k) or 'closed': len(v) for k, v in groups.items()})
