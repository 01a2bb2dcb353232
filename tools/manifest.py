#!/usr/bin/env python3
"""Regenerate MANIFEST.json from the theorem names in rocq/theories/*Props.v.

A theorem whose name starts with Cnn_ belongs to property Cnn. A property is
"proved" when it has no _partial and no _refuted theorem. Notes come from
tools/notes.json, which may also force a status."""
import glob, json, os, re
root = os.path.dirname(os.path.dirname(os.path.abspath(__file__)))
ths = {}
for f in sorted(glob.glob(root + "/rocq/theories/*Props.v")):
    for m in re.finditer(r"^(?:Theorem|Corollary)\s+(C\d+_\w+)", open(f).read(), re.M):
        ths.setdefault(m.group(1).split("_")[0], []).append(m.group(1))
notes = json.load(open(root + "/tools/notes.json"))
props = [json.loads(l)["id"] for l in open(root + "/properties.jsonl") if l.strip()]
claims = []
for p in props:
    n = notes.get(p, {})
    if p not in ths and n.get("status") != "not_applicable":
        continue
    t = ths.get(p, [])
    st = n.get("status") or ("partial" if any(x.endswith(("_partial", "_refuted")) for x in t) else "proved")
    claims.append({"property": p, "status": st, "theorems": t, "note": n.get("note", "")})
extra = set(ths) - set(props)
assert not extra, extra
json.dump({"claims": claims}, open(root + "/MANIFEST.json", "w"), indent=1)
print(len(claims), "claims;", sum(c["status"] == "proved" for c in claims), "proved;",
      "missing:", [p for p in props if p not in {c["property"] for c in claims}])
