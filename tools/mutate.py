#!/usr/bin/env python3
"""mutate.py MUTATIONS.json [-j N] [-o OUT]: try wrong programs against the theorems.

MUTATIONS.json is a list of {"file", "def", "edit", "old", "new", "claim"}.  For each one, in a
scratch copy outside /verif, the text "old" in theories/file is replaced by "new", the file and
everything that depends on it is recompiled, every proof that no longer goes through is replaced
by Admitted (in the scratch copy only), and the theorems of the *_Props files that fail or rest on
such a lemma are reported."""
import json, os, re, subprocess, sys, shutil, time
from concurrent.futures import ThreadPoolExecutor
import threading
SRC = os.environ.get('MUT_SRC', '/verif/rocq')
START = re.compile(r'^\s*(?:Local |Global |#\[[a-z]*\] )?(Lemma|Theorem|Example|Corollary|Fact|Remark|Instance|Definition|Fixpoint|Inductive|Record|Goal|Function|Ltac|Program Definition|Program Fixpoint|Equations)\s+([A-Za-z_0-9\']+)', re.M)

def deps(d):
    out = subprocess.run('coqdep -Q theories Verif theories/*.v', shell=True, cwd=d, capture_output=True, text=True).stdout
    dep = {}
    for l in out.splitlines():
        m = re.match(r'theories/(\w+)\.vo.*?:(.*)', l)
        if m and '.vo ' in l.split(':')[0] + ' ':
            dep[m.group(1)] = set(re.findall(r'theories/(\w+)\.vo\b', m.group(2)))
    return dep

def compile1(d, f, to=300):
    try:
        r = subprocess.run(['coqc', '-Q', 'theories', 'Verif', '-time', f'theories/{f}.v'], cwd=d, capture_output=True, text=True, timeout=to)
        return r.returncode, r.stdout, r.stderr
    except subprocess.TimeoutExpired as e:
        return -9, (e.stdout or b'').decode(errors='replace'), ''

def admit_at(src, pos):
    """replace the proof containing pos by Admitted; return (new source, lemma) or (None, name)."""
    last = None
    for m in START.finditer(src):
        if m.start() <= pos: last = m
        else: break
    if not last: return None, '?'
    p = re.compile(r'\bProof\b', ).search(src, last.start())
    q = re.compile(r'\b(Qed|Defined)\.').search(src, last.start())
    nxt = START.search(src, last.end())
    if not p or not q or (nxt and p.start() > nxt.start()) or pos < p.start(): return None, last.group(2)
    return src[:p.start()] + 'Proof. Admitted.' + src[q.end():], last.group(2)

def run_mut(mut, d):
    t0 = time.time()
    shutil.rmtree(d, ignore_errors=True); subprocess.run(['cp', '-a', SRC, d], check=True)
    path = f'{d}/theories/{mut["file"]}'
    s = open(path).read()
    if s.count(mut['old']) != 1:
        return {'error': f'old text occurs {s.count(mut["old"])} times'}
    open(path, 'w').write(s.replace(mut['old'], mut['new']))
    dep = deps(d)
    root = mut['file'][:-2]
    todo, order = {root}, [root]
    changed = True
    while changed:
        changed = False
        for f in dep:
            if f not in todo and dep[f] & todo: todo.add(f); changed = True
    order, done = [], set(dep) - todo
    while len(order) < len(todo):
        for f in sorted(todo):
            if f not in done and dep[f] <= done: order.append(f); done.add(f)
    failed, broken = [], []
    for f in order:
        if dep[f] & set(broken): broken.append(f); continue
        p = f'{d}/theories/{f}.v'
        for it in range(80):
            rc, out, err = compile1(d, f)
            if rc == 0: break
            src = open(p).read()
            if rc == -9:
                cs = re.findall(r'^Chars (\d+) - (\d+)', out, re.M)
                b = src.encode(); pos = len(b[:int(cs[-1][1]) + 3].decode(errors='ignore')) if cs else 0
            else:
                m = re.search(r'line (\d+), characters (\d+)-(\d+):\s*\n\s*Error', err) or re.search(r'line (\d+), characters (\d+)-(\d+)', err)
                if not m: broken.append(f); break
                lines = src.split('\n'); pos = sum(len(x) + 1 for x in lines[:int(m.group(1)) - 1]) + int(m.group(2))
            new, name = admit_at(src, pos)
            if new is None:
                broken.append(f); failed.append(f'{f}.{name} (statement)'); 
                print('   broken', f, name, err[-400:]); break
            failed.append(f'{f}.{name}'); open(p, 'w').write(new)
    bad, ok = [], []
    for f in order:
        src = open(f'{d}/theories/{f}.v').read()
        if not f.endswith('_Props'): continue
        names = re.findall(r'^Theorem\s+([A-Za-z_0-9\']+)', src, re.M)
        if f in broken: bad += names; continue
        chk = f'From Verif Require Import {f}.\n' + ''.join(f'Goal True. idtac "@@ {n}". Abort.\nPrint Assumptions {f}.{n}.\n' for n in names)
        open(f'{d}/theories/Chk.v', 'w').write(chk)
        out = subprocess.run(['coqc', '-Q', 'theories', 'Verif', 'theories/Chk.v'], cwd=d, capture_output=True, text=True).stdout
        for part in out.split('@@ ')[1:]:
            n = part.split()[0]
            ax = set(re.findall(r'^(\S+)\s*:', part, re.M)) | set(re.findall(r'^([A-Za-z_0-9\'.]+)\s*$', part, re.M))
            last = {x.split('.')[-1] for x in ax}
            (bad if last & {y.split('.')[-1] for y in failed} else ok).append(n)
    return {'failed_lemmas': failed, 'failed_theorems': bad, 'still_proved': ok, 'secs': round(time.time() - t0)}

def main():
    a = sys.argv[1:]
    muts = json.load(open(a[0]))
    if isinstance(muts, dict): muts = [muts]
    j = int(a[a.index('-j') + 1]) if '-j' in a else 3
    o = a[a.index('-o') + 1] if '-o' in a else '/tmp/mut_out.jsonl'
    free = [f'/tmp/mw{i}' for i in range(j)]; lock = threading.Lock()
    def go(m):
        with lock: d = free.pop()
        try: r = run_mut(m, d)
        except Exception as e: r = {'error': repr(e)}
        with lock:
            free.append(d)
            with open(o, 'a') as f: f.write(json.dumps({**m, **r}) + '\n')
            print('==', m['file'], m['def'], '|', m['edit'], '|', m['claim']); 
            if 'error' in r: print('   ERROR', r['error'])
            else: print('   lemmas:', ' '.join(r['failed_lemmas'])[:300], '\n   FAILED:', ' '.join(r['failed_theorems']), '\n   still:', ' '.join(r['still_proved']), r['secs'], 's', flush=True)
    with ThreadPoolExecutor(j) as ex: list(ex.map(go, muts))
main()
