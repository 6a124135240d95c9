#!/usr/bin/env python3
"""Regenerate MANIFEST.json from the theorem names in rocq/theories/*Props*.v.
A theorem named Cnn_... belongs to property Cnn, unless it ends in _partial or _refuted
and there is a property C1nn (the part of Cnn's subject that is not proved in full), or
notes.json moves it.  A property with a theorem
ending in _partial or _refuted is "partial", otherwise "proved"; notes.json may
override the status and supplies the notes."""
import glob, json, os, re
root = os.path.dirname(os.path.dirname(os.path.abspath(__file__)))
props = [json.loads(l) for l in open(root + "/properties.jsonl") if l.strip()]
notes = json.load(open(root + "/tools/notes.json"))
thms = {}
ids = set(p["id"] for p in props)
for f in sorted(glob.glob(root + "/rocq/theories/*Props*.v")):
    for m in re.finditer(r"^\s*Theorem\s+(C(\d+)_\w+)", open(f).read(), re.M):
        i, n = "C" + m.group(2), m.group(1)
        if re.search(r"_(partial|refuted)$", n) and "C1" + m.group(2) in ids:
            i = "C1" + m.group(2)
        thms.setdefault(notes.get("move", {}).get(n, i), []).append(n)
claims = []
for p in props:
    i = p["id"]
    t = thms.pop(i, [])
    n = notes.get(i, {})
    if not t:
        st = n.get("status", "partial")
        if st != "not_applicable":
            continue
    else:
        st = n.get("status") or ("partial" if any(re.search(r"_(partial|refuted)$", x) for x in t) else "proved")
    claims.append({"property": i, "status": st, "theorems": t, "note": n.get("note", "")})
assert not thms, "theorems without property: %s" % thms
json.dump({"claims": claims}, open(root + "/MANIFEST.json", "w"), indent=1)
print(len(claims), "claims,", sum(len(c["theorems"]) for c in claims), "theorems,",
      sum(c["status"] == "proved" for c in claims), "proved")
