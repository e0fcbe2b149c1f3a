#!/usr/bin/env python3
"""citations.py: cited line ranges of the model that do not line up with the Go source: a
range that starts inside one declaration and ends inside another, or past the end of the file."""
import os, re
ROOT = os.path.dirname(os.path.dirname(os.path.abspath(__file__)))
src = {}
for d, _, fs in os.walk('/repo'):
    for f in fs:
        if f.endswith('.go'):
            p = os.path.join(d, f)
            src[os.path.relpath(p, '/repo')] = open(p, encoding='utf8').read().split('\n')
def decls(lines):
    """(first line of the comment or declaration, declaration line, last line), 1-based."""
    out, i = [], 0
    n = len(lines)
    while i < n:
        if re.match(r'(func|type|var|const)\b', lines[i]):
            j = i
            if re.search(r'[{(]\s*$', lines[i]):
                while j + 1 < n and not re.match(r'[})]', lines[j]): j += 1
            k = i
            while k > 0 and lines[k - 1].startswith('//'): k -= 1
            out.append((k + 1, i + 1, j + 1))
            i = j
        i += 1
    return out
D = {f: decls(l) for f, l in src.items()}
bad = 0
TH = os.path.join(ROOT, 'rocq', 'theories')
for v in sorted(os.listdir(TH)):
    if not v.endswith('.v'): continue
    text = open(os.path.join(TH, v), encoding='utf8').read()
    for m in re.finditer(r'\b((?:gokio/)?\w+\.go):((?:\s*\d+(?:-\d+)?\s*(?:\([^()]*\)\s*)?,?)+)', text):
        f = m.group(1)
        if f not in src: continue
        for r in re.finditer(r'(\d+)(?:-(\d+))?', re.sub(r'\([^()]*\)', '', m.group(2))):
            a = int(r.group(1)); b = int(r.group(2) or a)
            ln = text.count('\n', 0, m.start()) + 1
            if b > len(src[f]):
                print('%s:%d %s:%d-%d past the end' % (v, ln, f, a, b)); bad += 1; continue
            ia = [x for x in D[f] if x[0] <= a <= x[2]]
            ib = [x for x in D[f] if x[0] <= b <= x[2]]
            # inside one declaration, or from the head of one to the end of another
            if ia and ib and ia[0] == ib[0]: continue
            okA = (not ia) or a <= ia[0][1]
            okB = (not ib) or b == ib[0][2]
            if not (okA and okB):
                print('%s:%d %s:%d-%d starts %s, ends %s' % (v, ln, f, a, b, ia[0] if ia else '-', ib[0] if ib else '-')); bad += 1
print(bad, 'doubtful')

# Definitions whose name does not occur among the functions their comment cites (for review).
import sys
if '--names' in sys.argv:
    for v in sorted(os.listdir(TH)):
        if not v.endswith('Model.v'): continue
        text = open(os.path.join(TH, v), encoding='utf8').read()
        for m in re.finditer(r'\(\*\*((?:(?!\*\)).)*?)\*\)\s*(?:Definition|Fixpoint|Inductive|Record)\s+(\w+)', text, re.S):
            names = set()
            cited = False
            for c in re.finditer(r'\b((?:gokio/)?\w+\.go):((?:\s*\d+(?:-\d+)?\s*(?:\([^()]*\)\s*)?,?)+)', m.group(1)):
                f = c.group(1)
                if f not in src: continue
                cited = True
                for r in re.finditer(r'(\d+)(?:-(\d+))?', re.sub(r'\([^()]*\)', '', c.group(2))):
                    a = int(r.group(1)); b = int(r.group(2) or a)
                    for x in D[f]:
                        if x[0] <= b and a <= x[2]:
                            n = re.match(r'func(?: \([^)]*\))? (\w+)|(?:type|var|const) (\w+)', src[f][x[1] - 1])
                            if n: names.add((n.group(1) or n.group(2)).lower().lstrip('_'))
            d = m.group(2).lower()
            if cited and not any(n in d or d in n or d.split('_')[-1] in n for n in names):
                print('%s:%d %s cites %s' % (v, text.count('\n', 0, m.start()) + 1, m.group(2), sorted(names)[:6]))
