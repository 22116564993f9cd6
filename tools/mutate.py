#!/usr/bin/env python3
"""Mutation tester.  usage: mutate.py mutants.json [workers]
Each mutant: {id, file, def, old, new, claim, expect:[Cnn...]}.
In a scratch copy of rocq/ the edit is applied and everything is rebuilt; every
lemma whose proof breaks is replaced by Admitted there, until the build
finishes; then the Print Assumptions output tells which Cnn theorems rest on a
broken lemma (or are broken themselves).  Results go to /tmp/mut/results.jsonl."""
import json, os, re, shutil, subprocess, sys
from concurrent.futures import ThreadPoolExecutor
SRC = '/verif/rocq'
HEAD = re.compile(r'^\s*(?:#\[[^\]]*\]\s*)?(?:Local |Global )?(Lemma|Theorem|Example|Corollary|Fact|Remark|Definition|Fixpoint|Instance)\s+([A-Za-z0-9_\']+)')

def order(d):
    return [l.strip() for l in open(f'{d}/_CoqProject') if l.strip().endswith('.v')]

def deps(d, files):
    names = {os.path.basename(f)[:-2]: f for f in files}
    dep = {}
    for f in files:
        t = open(f'{d}/{f}').read()
        s = set()
        for m in re.finditer(r'From Verif Require (?:Import|Export)?([^.]*)\.', t):
            s |= {x for x in m.group(1).split() if x in names}
        dep[f] = {names[x] for x in s}
    return dep

def topo(files, dep):
    out, seen = [], set()
    def visit(f):
        if f in seen: return
        seen.add(f)
        for g in sorted(dep[f]): visit(g)
        out.append(f)
    for f in files: visit(f)
    return out

def admit(path, line):
    """replace the proof around `line` (1-based) by Admitted; returns lemma name"""
    L = open(path).read().split('\n')
    i = line - 1
    while i >= 0:
        m = HEAD.match(L[i])
        if m: break
        i -= 1
    if i < 0: return None
    name, kind = m.group(2), m.group(1)
    j = i
    while j < len(L) and not re.search(r'(^|\s)Proof\b', L[j]):
        j += 1
        if j < len(L) and HEAD.match(L[j]): return None
    if j >= len(L) or line - 1 < j: return None
    k = j
    while k < len(L) and not re.search(r'\b(Qed|Defined)\.', L[k]): k += 1
    if k >= len(L): return None
    head = L[j][:re.search(r'\bProof\b', L[j]).start()]
    tail = L[k][re.search(r'\b(Qed|Defined)\.', L[k]).end():]
    L[j:k+1] = [head + 'Proof. Admitted.' + tail] + [''] * (k - j)
    open(path, 'w').write('\n'.join(L))
    return name

def run_one(mu, wd):
    if os.path.exists(wd): shutil.rmtree(wd)
    shutil.copytree(SRC, wd, ignore=shutil.ignore_patterns('Makefile*', '.*.aux'))
    files = order(wd)
    p = f'{wd}/theories/{mu["file"]}'
    t = open(p).read()
    if t.count(mu['old']) != 1:
        return dict(mu, outcome='BAD-EDIT', n=t.count(mu['old']))
    open(p, 'w').write(t.replace(mu['old'], mu['new']))
    dep = deps(wd, files)
    files = topo(files, dep)
    dirty = set()
    target = 'theories/' + mu['file']
    broken, notes, rest = [], [], {}
    for f in files:
        if f != target and not (dep[f] & dirty): continue
        dirty.add(f)
        tries = 0
        while True:
            tries += 1
            try:
                r = subprocess.run(['nice', 'coqc', '-Q', 'theories', 'Verif', f], cwd=wd,
                                   capture_output=True, text=True, timeout=600)
            except subprocess.TimeoutExpired:
                notes.append(f'timeout {f}'); return dict(mu, outcome='timeout', broken=broken, notes=notes)
            if r.returncode == 0: break
            m = re.search(r'File "[^"]*", line (\d+), characters[^\n]*\nError:', r.stderr) or re.search(r'line (\d+)', r.stderr)
            nm = admit(f'{wd}/{f}', int(m.group(1))) if m else None
            if nm is None or tries > 60:
                notes.append(f'{f}: ' + r.stderr.strip()[:300])
                return dict(mu, outcome='stuck', broken=broken, notes=notes)
            broken.append(f'{os.path.basename(f)[:-2]}.{nm}')
        if os.path.basename(f).startswith('Props_'):
            src = open(f'{wd}/{f}').read()
            q = re.findall(r'\bPrint Assumptions ([A-Za-z0-9_\']+)\.', src)
            blocks = re.findall(r'^(Closed under the global context|Axioms:(?:\n(?!Closed|Axioms:).*)*)', r.stdout, re.M)
            if len(q) != len(blocks): notes.append(f'{f}: {len(q)} vs {len(blocks)}')
            bn = {b.split('.')[1] for b in broken}
            for n, b in zip(q, blocks):
                ax = set(re.findall(r'^([A-Za-z0-9_\'.]+)\s*$|^([A-Za-z0-9_\'.]+) :', b, re.M) and
                         [x[0] or x[1] for x in re.findall(r'^([A-Za-z0-9_\'.]+)\s*$|^([A-Za-z0-9_\'.]+) :', b, re.M)])
                hit = [a for a in ax if a.split('.')[-1] in bn]
                if hit: rest[n] = sorted(hit)
            for b in broken:
                if b.startswith(os.path.basename(f)[:-2] + '.'): rest.setdefault(b.split('.')[1], ['itself'])
    return dict(mu, outcome='killed' if broken else 'SURVIVED', broken=broken, failed=sorted(rest), notes=notes)

def main():
    mus = json.load(open(sys.argv[1])); w = int(sys.argv[2]) if len(sys.argv) > 2 else 2
    done = set()
    if os.path.exists('/tmp/mut/results.jsonl'):
        done = {json.loads(l)['id'] for l in open('/tmp/mut/results.jsonl')}
    todo = [m for m in mus if m['id'] not in done]
    def job(m):
        wd = f'/tmp/mut/w_{m["id"]}'
        try: r = run_one(m, wd)
        except Exception as e: r = dict(m, outcome='ERR', notes=[repr(e)])
        shutil.rmtree(wd, ignore_errors=True)
        miss = [c for c in m.get('expect', []) if not any(x.startswith(c + '_') for x in r.get('failed', []))]
        r['missed'] = miss
        with open('/tmp/mut/results.jsonl', 'a') as f: f.write(json.dumps(r) + '\n')
        print(m['id'], r['outcome'], 'missed', miss, 'broken', r.get('broken', [])[:4], r.get('notes'), flush=True)
    with ThreadPoolExecutor(w) as ex: list(ex.map(job, todo))
main()
