#!/usr/bin/env python3
"""Regenerate MANIFEST.json: theorem names are taken from the *Props.v files
(any theorem whose name starts with the property id), status and note from
tools/status.json."""
import json, re, glob, os
root = os.path.dirname(os.path.dirname(os.path.abspath(__file__)))
thms = {}
for f in sorted(glob.glob(root + '/rocq/theories/*Props.v')):
    for m in re.finditer(r'^(?:Theorem|Corollary)\s+((C\d+)_[\w\']+)', open(f).read(), re.M):
        thms.setdefault(m.group(2), []).append(m.group(1))
# theorems that settle part of another property as well
also = {i: ["C54_all_histories_characterised"] for i in ("C55", "C56", "C57")}
status = json.load(open(root + '/tools/status.json'))
ids = [json.loads(l)['id'] for l in open(root + '/properties.jsonl') if l.strip()]
claims = []
for i in ids:
    st = status.get(i)
    if st is None:
        st = {"status": "not_applicable", "note": "Not modelled yet."} if i not in thms else \
             {"status": "proved", "note": ""}
        if i in thms: print("no status for", i)
    claims.append({"property": i, "status": st["status"], "theorems": thms.get(i, []) + also.get(i, []), "note": st["note"]})
    if st["status"] == "proved" and any(x.endswith('_refuted') or x.endswith('_partial') for x in thms.get(i, [])):
        print("warning: proved but has partial/refuted:", i)
for k in thms:
    if k not in ids: print("theorem for unknown property", k)
json.dump({"claims": claims}, open(root + '/MANIFEST.json', 'w'), indent=1, ensure_ascii=False)
print(len(claims), {s: sum(c["status"] == s for c in claims) for s in ("proved", "partial", "not_applicable")})
