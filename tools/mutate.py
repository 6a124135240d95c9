#!/usr/bin/env python3
"""Seeded-bug harness.  Reads a JSON list of edits to model files, applies each
in a scratch copy outside /verif, rebuilds the files that depend on it and
reports which Cnn_ theorems no longer have their proof.  A broken lemma is
admitted in the scratch copy so that exactly the theorems that depend on it are
found (through Print Assumptions).  Usage: mutate.py edits.json [--log]"""
import json, os, re, shutil, subprocess, sys, concurrent.futures as cf

SRC = '/verif/rocq'
def sh(cmd, cwd, t=900):
    return subprocess.run(cmd, cwd=cwd, stdout=subprocess.PIPE, stderr=subprocess.STDOUT, text=True, timeout=t)

def files():
    return [l.strip() for l in open(SRC + '/_CoqProject') if l.strip().endswith('.v')]

def deps():
    out = subprocess.run(['coqdep', '-Q', 'theories', 'Verif'] + files(), cwd=SRC, stdout=subprocess.PIPE,
                         stderr=subprocess.DEVNULL, text=True).stdout
    d = {}
    for l in out.splitlines():
        m = re.match(r'(theories/\S+)\.vo \S.*?:(.*)', l)
        if m:
            d[m.group(1) + '.v'] = [x[:-3] + '.v' for x in m.group(2).split() if x.startswith('theories/') and x.endswith('.vo')]
    return d

START = re.compile(r'^\s*(?:Local |Global |#\[.*\]\s*)?(Lemma|Theorem|Example|Corollary|Fact|Remark|Proposition|Instance|Definition|Fixpoint)\s+([\w\']+)')

def admit_at(path, line):
    ls = open(path).read().split('\n')
    i = min(line, len(ls)) - 1
    while i >= 0 and not START.match(ls[i]):
        i -= 1
    if i < 0:
        return None
    name = START.match(ls[i]).group(2)
    kind = START.match(ls[i]).group(1)
    if kind in ('Fixpoint', 'Definition'):
        return None
    j = i
    while j < len(ls) and 'Proof' not in ls[j]:
        j += 1
    k = j
    while k < len(ls) and not re.search(r'(Qed|Defined|Admitted)\.', ls[k]):
        k += 1
    if k >= len(ls) or 'Admitted.' in ls[k]:
        return None
    head = ls[j][:ls[j].index('Proof')]
    ls[j:k+1] = [head + 'Proof. Admitted.'] + [''] * (k - j)
    open(path, 'w').write('\n'.join(ls))
    return name

def run(mut, idx, dep):
    d = '/tmp/mut/%d' % idx
    shutil.rmtree(d, ignore_errors=True)
    os.makedirs('/tmp/mut', exist_ok=True)
    shutil.copytree(SRC, d)
    f = 'theories/' + mut['file']
    p = os.path.join(d, f)
    s = open(p).read()
    if s.count(mut['old']) < 1:
        return dict(mut, error='pattern not found')
    n = mut.get('nth', 0)
    parts = s.split(mut['old'])
    if len(parts) > 2 and 'nth' not in mut:
        return dict(mut, error='pattern not unique: %d' % (len(parts) - 1))
    s = mut['old'].join(parts[:n+1]) + mut['new'] + mut['old'].join(parts[n+1:])
    open(p, 'w').write(s)
    # affected files, in project order
    aff = [f]
    order = files()
    changed = True
    while changed:
        changed = False
        for x in order:
            if x not in aff and any(y in aff for y in dep.get(x, [])):
                aff.append(x); changed = True
    aff = topo([x for x in order if x in aff], dep)
    failed, skipped, lemmas = [], [], []
    bad = set()
    for x in aff:
        if any(y in bad for y in dep.get(x, [])):
            bad.add(x); skipped.append(x); continue
        while True:
            try:
                r = sh(['coqc', '-Q', 'theories', 'Verif', x], d, 600)
                out, rc = r.stdout, r.returncode
            except subprocess.TimeoutExpired:
                out, rc = 'File "x", line 1, characters 0-0:\nError: timeout', 1
            if rc == 0:
                break
            m = [mm for mm in re.finditer(r'File "[^"]*", line (\d+), characters', out)
                 if re.match(r'[^\n]*\n(Error|Timeout)', out[mm.start():])]
            m = m[-1] if m else None
            name = admit_at(os.path.join(d, x), int(m.group(1))) if m else None
            if name is None:
                bad.add(x); skipped.append(x)
                lemmas.append('(stopped in %s: %s)' % (x, out[-300:].replace('\n', ' ')))
                break
            lemmas.append(name)
            if re.match(r'C\d\d', name):
                failed.append(name)
        if rc == 0:
            cur = None
            adm = set(l for l in lemmas)
            for blk in re.split(r'\n(?=Closed under|Axioms:)', '\n' + out):
                pass
            # map Print Assumptions outputs to theorems in order
            src = open(os.path.join(d, x)).read()
            names = re.findall(r'Print Assumptions ([\w\']+)\.', src)
            blocks = re.findall(r'(?:^|\n)(Closed under the global context|Axioms:\n(?:(?!\nClosed under|\nAxioms:).|\n(?!Closed under|Axioms:))*)', out)
            for nm, b in zip(names, blocks):
                if b.startswith('Axioms') and any(re.search(r'(^|\n|\.)%s\s*(:|\n)' % re.escape(l), b) for l in adm):
                    if nm not in failed and re.match(r'C\d\d', nm):
                        failed.append(nm)
    shutil.rmtree(d, ignore_errors=True)
    return dict(mut, failed=failed, lemmas=lemmas, stopped=skipped)

def topo(xs, dep):
    done, out = set(), []
    def go(x):
        if x in done: return
        done.add(x)
        for y in dep.get(x, []):
            if y in xs: go(y)
        out.append(x)
    for x in xs: go(x)
    return out

def main():
    muts = json.load(open(sys.argv[1]))
    log = '--log' in sys.argv
    dep = deps()
    with cf.ThreadPoolExecutor(4) as ex:
        for r in ex.map(lambda a: run(a[1], a[0], dep), list(enumerate(muts))):
            print(json.dumps({k: r.get(k) for k in ('definition', 'edit', 'failed', 'lemmas', 'stopped', 'error')}))
            sys.stdout.flush()
            if log and 'error' not in r:
                e = {'definition': '%s (%s)' % (r['definition'], r['file']), 'edit': r['edit'], 'claim': r['claim'],
                     'failed': r['failed'] if not r['stopped'] else (r['failed'] or ['whole file: ' + ', '.join(r['stopped'])]),
                     'tightened': r.get('tightened', [])}
                open('/verif/seeded/LOG.jsonl', 'a').write(json.dumps(e) + '\n')
main()
