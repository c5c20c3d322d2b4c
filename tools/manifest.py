#!/usr/bin/env python3
"""Regenerates MANIFEST.json from the theorem names in rocq/theories/*_Props.v and the notes below.
A theorem named Cnn_... belongs to property Cnn."""
import re, json, glob, os, sys
root = os.path.join(os.path.dirname(os.path.abspath(__file__)), "..")
thms = {}
for f in sorted(glob.glob(root + "/rocq/theories/*_Props.v")):
    for m in re.finditer(r"^(?:Theorem|Lemma|Corollary)\s+(C\d\d+)(_\w+)", open(f).read(), re.M):
        thms.setdefault(m.group(1), []).append(m.group(1) + m.group(2))
exec(open(root + "/tools/notes.py").read())
claims = []
for line in open(root + "/properties.jsonl"):
    pid = json.loads(line)["id"]
    st, note = NOTES.get(pid, (None, ""))
    names = thms.get(pid, [])
    if st is None:
        continue
    claims.append({"property": pid, "status": st, "theorems": names, "note": note})
    if not names and st != "not_applicable":
        print("warning: no theorem for", pid)
for pid in thms:
    if pid not in NOTES: print("warning: no note for", pid)
json.dump({"claims": claims}, open(root + "/MANIFEST.json", "w"), indent=1)
print(len(claims), "claims")
