#!/usr/bin/env python3
"""Translate /repo/hash_set_test.go and btree_set_test.go into examples about the model
(theories/RepoSetTests.v).  They are tests of the model, not proofs."""
import re, sys
REPO = sys.argv[1] if len(sys.argv) > 1 else '/repo'
I = r'I32\((\d+)\)'

def test(name, where, body, tree):
    out, answers, n = [], [], 0
    def bind(x, term): out.append('%s <~ %s ;;' % (x, term) if tree else 'let %s := %s in' % (x, term))
    def cond(e):
        nonlocal n
        neg = e.startswith('!'); e = e.lstrip('!')
        m = re.match(r'(\w+)\.Len\(\) == (\d+)$', e)
        if m: return '(sLen %s =? %s)%%Z' % m.groups()
        m = re.match(r'(\w+)\.Contains\(' + I + r'\)$', e) 
        m2 = re.match(r'(\w+)\.(\w+)\((\w+)\)$', e)
        if m: term = 'Contains %s %s %s' % (EQ, m.group(1), m.group(2))
        else: term = '%s %s %s%s %s' % (m2.group(2), EQ, '' if tree else 'ids ', m2.group(1), m2.group(3))
        v = 'b%d' % n; n += 1
        bind(v, 'reading (%s)' % term if tree else term)
        return 'negb %s' % v if neg else v
    EQ = 'cmpZ' if tree else 'Z.eqb'
    for l in body.split('\n'):
        l = l.strip()
        if not l or l.startswith('t.'): continue
        m = re.match(r'(\w+) := (?:BTree|Hash)SetNew\[I32\]\(\)$', l)
        if m: out.append('let %s := %s in' % (m.group(1), 'BTreeSetNew' if tree else 'HashSetNew : HashSet Z')); continue
        m = re.match(r'(\w+)\.Insert\(' + I + r'\)$', l)
        if m:
            bind("r", 'sInsert %s %s %s' % (EQ, m.group(1), m.group(2))); out.append('let %s := fst r in' % m.group(1)); continue
        m = re.match(r'(\w+) := (\w+)\.(\w+)\((\w+)\)$', l)
        if m:
            two = m.group(3) in ('Union', 'SymmetricDifference')
            o = '' if tree else ('ids ids ' if two else 'ids ')
            bind(m.group(1), '%s %s %s%s %s' % (m.group(3), EQ, o, m.group(2), m.group(4))); continue
        m = re.match(r'Assert\((.*)\)$', l)
        if m: answers.append(cond(m.group(1))); continue
        raise SyntaxError(l)
    trues = '[%s]' % '; '.join(['true'] * len(answers))
    ans = '[%s]' % '; '.join(answers)
    body = '\n    '.join(out)
    if tree:
        return '(** %s. *)\nExample %s : answers (\n    %s\n    mret %s) = Ret %s.\nProof. vm_compute. reflexivity. Qed.\n' % (where, name, body, ans, trues), len(answers)
    return '(** %s. *)\nExample %s : (\n    %s\n    %s) = %s.\nProof. vm_compute. reflexivity. Qed.\n' % (where, name, body, ans, trues), len(answers)

res, total = {}, 0
for fn, tree in (('hash_set_test.go', False), ('btree_set_test.go', True)):
    src = open(REPO + '/' + fn).read(); res[tree] = []
    for m in re.finditer(r'^func (Test_\w+)\(t \*testing.T\) \{\n(.*?)^\}', src, re.M | re.S):
        line = src[:m.start()].count('\n') + 1
        t, k = test(m.group(1), '%s:%d-%d' % (fn, line, line + m.group().count('\n')), m.group(2), tree)
        res[tree].append(t); total += k
open('/verif/rocq/theories/RepoSetTests.v', 'w').write('''(** RepoSetTests.v -- the assertions of hash_set_test.go and btree_set_test.go (%d of them),
    translated by tools/repo_set_tests.py and computed in the model: tests of the model's
    fidelity, not proofs.  Maps are visited in the order of insertion; that the answers do not
    depend on the order is C53. *)
From Coq Require Import ZArith List Bool.
From Verif Require Import Base Effect HashModel.
Import ListNotations.
Definition ids (m : list (Z * unit)) : list (Z * unit) := m.
Local Open Scope Z_scope.

%s
From Verif Require Import BTreeModel CmpModel VecProps.
Definition answers {A} (m : M (heap Z unit) A) : out A := r <- m [] ;; Ret (fst r).

%s''' % (total, '\n'.join(res[False]), '\n'.join(res[True])))
print(total)
