#!/usr/bin/env python3
"""Seeded-bug testing of the theorems.

usage: mutate.py MUTANTS.json [--log]

MUTANTS.json: list of {"file","def","old","new","edit","claim"}.  Each edit is
applied to a scratch copy of rocq/ (with its compiled files) under /tmp/mut; every
file that depends on the edited one is recompiled.  A lemma whose proof no longer
goes through is admitted in the scratch copy so that compilation continues; the
property theorems that then rest on an admitted lemma (Print Assumptions) or fail
themselves are the "failed theorems" of the edit.
"""
import json, os, re, shutil, subprocess, sys
from concurrent.futures import ThreadPoolExecutor

ROOT = os.path.dirname(os.path.dirname(os.path.abspath(__file__)))
SRC = os.environ.get('MUT_SRC') or os.path.join(ROOT, 'rocq')
HEAD = re.compile(r'^\s*(?:#\[[^\]]*\]\s*)?(?:Local |Global )?(Lemma|Theorem|Example|Corollary|Fact|Remark|Instance)\s+([\w\']+)', re.M)

def order():
    return [l.strip() for l in open(os.path.join(SRC, '_CoqProject')) if l.strip().endswith('.v')]

def requires(path):
    s = open(path, encoding='utf8').read()
    names = set()
    for m in re.finditer(r'From Verif Require (?:Import|Export)?([^.]*)\.', s):
        names |= set(m.group(1).split())
    return names

def dependents(fn):
    files = order()
    base = os.path.basename(fn)[:-2]
    hit = {base}
    out = []
    for f in files:
        b = os.path.basename(f)[:-2]
        if b == base or requires(os.path.join(SRC, f)) & hit:
            hit.add(b)
            out.append(f)
    return out

def coqc(d, f, timeout):
    try:
        r = subprocess.run(['coqc', '-time', '-Q', 'theories', 'Verif', f], cwd=d, capture_output=True, text=True, timeout=timeout)
        return r.returncode, r.stdout + r.stderr
    except subprocess.TimeoutExpired as e:
        o = (e.stdout or b'').decode(errors='replace') if isinstance(e.stdout, bytes) else (e.stdout or '')
        return 124, o

def admit(path, pos):
    s = open(path, encoding='utf8').read()
    heads = [m for m in HEAD.finditer(s) if m.start() <= pos]
    if not heads:
        return None
    h = heads[-1]
    m = re.compile(r'\bProof\b').search(s, h.start())
    q = re.compile(r'\b(Qed|Defined|Admitted)\.').search(s, m.start()) if m else None
    if not q or (m and pos > q.end()) or q.group(1) == 'Admitted':
        return None
    s = s[:m.start()] + 'Admitted.' + s[q.end():]
    open(path, 'w', encoding='utf8').write(s)
    return h.group(2)

def drop(path, pos):
    """remove the whole statement (its type no longer checks)"""
    s = open(path, encoding='utf8').read()
    heads = [m for m in HEAD.finditer(s) if m.start() <= pos]
    if not heads:
        return None
    h = heads[-1]
    q = re.compile(r'\b(Qed|Defined|Admitted)\.').search(s, h.start())
    s = s[:h.start()] + s[q.end():]
    open(path, 'w', encoding='utf8').write(s)
    return h.group(2)

def run(i, m, timeout):
    d = '/tmp/mut/%d-%d' % (os.getpid(), i)
    shutil.rmtree(d, ignore_errors=True)
    shutil.copytree(SRC, d)
    f = 'theories/' + m['file']
    p = os.path.join(d, f)
    s = open(p, encoding='utf8').read()
    n = s.count(m['old'])
    if n != 1:
        if not ('nth' in m and n > m['nth']):
            return {'error': 'old text occurs %d times' % n, **m}
        parts = s.split(m['old'])
        k = m['nth'] + 1
        s2 = m['old'].join(parts[:k]) + m['new'] + m['old'].join(parts[k:])
    else:
        s2 = s.replace(m['old'], m['new'])
    open(p, 'w', encoding='utf8').write(s2)
    failed, notes = [], []
    props = []
    for g in dependents(f):
        path = os.path.join(d, g)
        for _ in range(200):
            rc, out = coqc(d, g, timeout)
            if rc == 0:
                break
            src = open(path, encoding='utf8').read()
            if rc == 124:
                ch = re.findall(r'^Chars (\d+) - (\d+)', out, re.M)
                pos = int(ch[-1][1]) if ch else 0
                pos = len(src.encode()[:pos].decode(errors='ignore')) + 1
                # timed out while running the sentence after pos
                while pos < len(src) and src[pos].isspace():
                    pos += 1
            else:
                e = None
                for e in re.finditer(r'line (\d+), characters (\d+)-(\d+):\n(?:Error|In env)', out):
                    pass
                if not e:
                    notes.append('unparsed error in ' + g + ': ' + out[-300:])
                    break
                ln, c0 = int(e.group(1)), int(e.group(2))
                lines = src.split('\n')
                pos = sum(len(l) + 1 for l in lines[:ln - 1]) + c0
            if re.match(r'\s*Print Assumptions', src[pos:]) or re.search(r'Print Assumptions [\w\']*$', src[:pos].split('\n')[-1]):
                # theorem dropped: drop this line too
                lines = src.split('\n'); k = src[:pos].count('\n')
                lines[k] = ''
                open(path, 'w').write('\n'.join(lines)); continue
            name = admit(path, pos)
            if name is None:
                name = drop(path, pos)
            if name is None:
                notes.append('edit does not typecheck: ' + out[-300:])
                break
            failed.append(name)
        else:
            notes.append('gave up on ' + g)
        if rc != 0:
            break
        if g.endswith('Props.v'):
            cur = open(path, encoding='utf8').read()
            names = re.findall(r"Print Assumptions ([\w']+)\.", cur)
            txt = '\n'.join(l for l in out.split('\n') if not re.match(r'^Chars \d', l))
            chunks = re.split(r'(?m)^(?=Closed under the global context|Axioms:)', txt)[1:]
            if len(chunks) == len(names):
                for nme, c in zip(names, chunks):
                    if c.startswith('Axioms') and re.search(r'^(?:[\w.]*\.)?(' + '|'.join(map(re.escape, failed or ['@'])) + r')\s*:', c, re.M):
                        props.append(nme)
            else:
                notes.append('%s: %d Print Assumptions, %d outputs' % (g, len(names), len(chunks)))
    props += [x for x in failed if re.match(r'C\d+', x)]
    shutil.rmtree(d, ignore_errors=True)
    return {**m, 'failed': sorted(set(props)), 'lemmas': failed, 'notes': notes}

def main():
    ms = json.load(open(sys.argv[1]))
    timeout = int(os.environ.get('MUT_TIMEOUT', '60'))
    jobs = int(os.environ.get('MUT_JOBS', '4'))
    os.makedirs('/tmp/mut', exist_ok=True)
    log = os.path.join(ROOT, 'seeded', 'LOG.jsonl')
    with ThreadPoolExecutor(jobs) as ex:
      for r in ex.map(lambda t: run(t[0], t[1], timeout), enumerate(ms)):
        if 'error' in r:
            print('ERROR', r['file'], r['def'], r['error'], flush=True); continue
        st = 'KILLED' if r['failed'] else 'SURVIVED'
        print(st, r['file'], r['def'], '|', r['edit'], '|', len(r['failed']), r['failed'][:6], '' if r['failed'] else r['lemmas'], r['notes'], flush=True)
        if '--log' in sys.argv:
            e = {'definition': r['file'] + ':' + r['def'], 'edit': r['edit'], 'old': r['old'], 'new': r['new'],
                 'claim_broken': r['claim'], 'theorems_failed': r['failed'], 'theorems_tightened': r.get('tightened', [])}
            open(log, 'a').write(json.dumps(e) + '\n')

main()
