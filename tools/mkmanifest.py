#!/usr/bin/env python3
"""Write MANIFEST.json: theorem names are collected from Properties_*.v by their Cxx_ prefix;
status and note per property are below."""
import json, re, glob, os
root = os.path.dirname(os.path.dirname(os.path.abspath(__file__)))
thms = {}
for f in sorted(glob.glob(root + '/rocq/theories/Properties_*.v')):
    for m in re.finditer(r'^Theorem (C\d\d)(_\w+)', open(f).read(), re.M):
        thms.setdefault(m.group(1), []).append(m.group(1) + m.group(2))
status = json.load(open(root + '/tools/status.json'))
claims = []
for pid in sorted(thms):
    st, note = status.get(pid, ['proved', ''])
    claims.append({"property": pid, "status": st, "theorems": thms[pid], "note": note})
for pid in sorted(status):
    if pid not in thms:
        st, note = status[pid]
        claims.append({"property": pid, "status": st, "theorems": [], "note": note})
claims.sort(key=lambda c: c["property"])
json.dump({"claims": claims}, open(root + '/MANIFEST.json', 'w'), indent=1)
print(len(claims), 'claims', sum(len(c['theorems']) for c in claims), 'theorems')
