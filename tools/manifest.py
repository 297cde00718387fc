#!/usr/bin/env python3
"""Regenerates MANIFEST.json: theorem names are collected from the Props_*.v files
(the prefix cNN_ names the property), status and note come from STATUS below."""
import re, json, glob, os
root = os.path.dirname(os.path.dirname(os.path.abspath(__file__)))
STATUS = json.load(open(os.path.join(root, 'tools', 'status.json')))
th = {}
for f in sorted(glob.glob(os.path.join(root, 'rocq/theories/Props_*.v'))):
    for m in re.finditer(r'^Theorem\s+((c\d\d)_\w+)', open(f).read(), re.M):
        th.setdefault(m.group(2).upper(), []).append(m.group(1))
claims = []
for l in open(os.path.join(root, 'properties.jsonl')):
    pid = json.loads(l)['id']
    if pid in STATUS and pid in th:
        claims.append({"property": pid, "status": STATUS[pid][0], "theorems": th[pid], "note": STATUS[pid][1]})
    elif pid in STATUS and STATUS[pid][0] == 'not_applicable':
        claims.append({"property": pid, "status": "not_applicable", "theorems": [], "note": STATUS[pid][1]})
    elif pid in th:
        print("no status for", pid)
json.dump({"claims": claims}, open(os.path.join(root, 'MANIFEST.json'), 'w'), indent=1)
print(len(claims), "claims")
