#!/usr/bin/env python3
"""addstatus.py 'C33|proved|note' ... : update tools/status.json (one property per line)."""
import json, os, sys
p = os.path.join(os.path.dirname(os.path.abspath(__file__)), 'status.json')
d = json.load(open(p))
for a in sys.argv[1:]:
    k, s, n = a.split('|', 2)
    d[k] = {'status': s, 'note': n}
open(p, 'w').write('{\n' + ',\n'.join('%s: %s' % (json.dumps(k), json.dumps(d[k], ensure_ascii=False)) for k in sorted(d)) + '\n}\n')
