#!/usr/bin/env python3
"""Translate the assertions of /repo/ops_test.go, bitwise_test.go and float_test.go into
examples about the model (theories/RepoTests.v): one Example per Go test, computed by the
kernel.  They are tests of the model, not proofs."""
import re, sys

REPO = sys.argv[1] if len(sys.argv) > 1 else '/repo'
OUT_ = {'WrappingDiv', 'CheckedDiv', 'SaturatingDiv', 'Pow', 'Rem', 'Div'}   # methods that may panic
ITY = 'ISize I8 I16 I32 I64 USize U8 U16 U32 U64'.split()
CONST = {'math.MaxInt': '(MAX ISize)', 'math.MinInt': '(MIN ISize)', 'math.MaxUint': '(MAX USize)'}
for w in '8 16 32 64'.split():
    CONST['math.MaxInt' + w] = '(MAX I%s)' % w
    CONST['math.MinInt' + w] = '(MIN I%s)' % w
    CONST['math.MaxUint' + w] = '(MAX U%s)' % w

class P:
    """A parser for the expressions the tests use.  Values are (type, term); a term of a method
    that may panic is kept as a computation ([pure] false)."""
    def __init__(s, text, env): s.t, s.i, s.env = text, 0, env
    def ws(s):
        while s.i < len(s.t) and s.t[s.i] in ' \n\t': s.i += 1
    def eat(s, x):
        s.ws()
        if s.t.startswith(x, s.i): s.i += len(x); return True
        return False
    def need(s, x):
        if not s.eat(x): raise SyntaxError(s.t[s.i:s.i + 40] + ' expected ' + x)
    def name(s):
        s.ws(); m = re.compile(r'[A-Za-z_][\w.]*').match(s.t, s.i)
        if not m: return None
        n = m.group(); 
        if '.' in n and not n.startswith('math.'): n = n.split('.')[0]
        s.i += len(n); return n
    def expr(s):
        a = s.post()
        while s.eat('+'):
            b = s.post(); t = a[0] if a[0] != 'lit' else b[0]
            a = (t, '(wrap %s (%s + %s))' % (t, a[1], b[1]) if t in ITY else '(%s + %s)' % (a[1], b[1]))
        return a
    def post(s):
        a = s.atom()
        while True:
            s.ws()
            if s.i < len(s.t) and s.t[s.i] == '.':
                s.i += 1; m = s.name(); args = s.args(); a = s.method(a, m, args)
            else: return a
    def args(s):
        s.need('('); r = []
        if s.eat(')'): return r
        while True:
            r.append(s.expr())
            if s.eat(')'): return r
            s.need(',')
    def atom(s):
        s.ws(); m = re.compile(r'-?[0-9]+(\.[0-9]+)?').match(s.t, s.i)
        if m:
            s.i = m.end(); return ('lit', m.group() if not m.group().startswith('-') else '(%s)' % m.group())
        if s.eat('"'):
            j = s.t.index('"', s.i); r = s.t[s.i:j]; s.i = j + 1; return ('String', '(zs "%s")' % r)
        n = s.name()
        if n in CONST: return ('lit', CONST[n])
        if n in ('U64_MAX', 'I64_MAX'): return (n[:3], '(MAX %s)' % n[:3])
        if n == 'I64_MIN': return ('I64', '(MIN I64)')
        if n == 'I128_MAX': return ('I128', '(mkI (MAX I64) (MAX U64))')
        if n == 'I128_MIN': return ('I128', '(mkI (MIN I64) 0)')
        if n in s.env: return s.env[n]
        if n in ITY:
            a, = s.args(); return (n, '(wrap %s %s)' % (n, a[1]) if a[0] in ITY else a[1])
        if n in ('F32', 'F64'):
            a, = s.args(); v = a[1].strip('()'); d = v.split('.')
            k = len(d[1]) if len(d) > 1 else 0
            return (n, '(lit%s (%s) %d)' % (n[1:], ''.join(d), 10 ** k))
        if n == 'Some': a, = s.args(); return ('option', '(Some %s)' % a[1])
        if n == 'None':
            s.need('['); s.name(); s.need(']'); s.args(); return ('option', 'None')
        if n in ('U128_FromU64', 'I128_FromU64', 'I128_FromI64'): a, = s.args(); return (n[:4], '(%s %s)' % (n, a[1]))
        if n in ('U128', 'I128'):
            s.need('{'); s.need('high:'); h = s.expr(); s.need(','); s.need('low:'); l = s.expr(); s.need('}')
            return (n, '(mk%s %s %s)' % (n[0], h[1], l[1]))
        raise SyntaxError(n)
    def method(s, a, m, args):
        t, x = a
        if t.startswith('out '):
            r = s.method((t[4:], 'v'), m, args)
            return ('out ' + r[0], '(v <- %s ;; Ret %s)' % (x, r[1]))
        rt = t
        if m == 'ToString': rt = 'String'
        if m.startswith('Checked'): rt = 'option'
        if t in ITY: r = '(%s %s %s)' % (m, t, ' '.join([x] + [b[1] for b in args]))
        else: r = '(%s_%s %s)' % (t, m, ' '.join([x] + [b[1] for b in args]))
        return (('out ' if m in OUT_ else '') + rt, r)

def main():
    out = []; count = 0
    for fn in ('ops_test.go', 'bitwise_test.go', 'float_test.go'):
        src = open(REPO + '/' + fn).read()
        out.append('\n(** *** %s *)\n' % fn)
        for m in re.finditer(r'^func (Test_\w+)\(t \*testing.T\) \{\n(.*?)^\}', src, re.M | re.S):
            env, eqs = {}, []
            line = src[:m.start()].count('\n') + 1
            for l in m.group(2).split('\n'):
                l = l.strip()
                d = re.match(r'(\w+) := (.*)$', l)
                if d: env[d.group(1)] = P(d.group(2), env).expr()
                elif l.startswith('AssertEq'):
                    p = P(l[len('AssertEq'):], env); p.need('('); a = p.expr(); p.need(','); b = p.expr()
                    eqs.append('%s = %s' % (a[1], '(Ret %s)' % b[1] if a[0].startswith('out ') else b[1])); count += 1
            out.append('(** %s:%d-%d. *)\nExample %s :\n  %s.\nProof. vm_compute. repeat split. Qed.\n' % (
                fn, line, line + m.group().count('\n'), m.group(1), ' /\\\n  '.join(eqs)))
    head = '''(** RepoTests.v -- the assertions of the repository's own tests (%d of them), translated by
    tools/repo_tests.py and computed in the model: tests of the model's fidelity, not proofs. *)
From Coq Require Import ZArith List Floats.SpecFloat.
From Verif Require Import Base TextSpec FloatModel FloatProps.
From Verif Require Import IntModel Int128Model.
Local Open Scope Z_scope.
''' % count
    open('/verif/rocq/theories/RepoTests.v', 'w').write(head + '\n'.join(out))
    print(count)
main()
