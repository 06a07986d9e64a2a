"""Regenerate MANIFEST.json from the table below (theorem names are checked against the sources)."""
import json, os, re
root = os.path.join(os.path.dirname(__file__), "..")
names = set()
for f in os.listdir(os.path.join(root, "rocq/theories")):
    if f.endswith(".v"):
        for m in re.finditer(r"^\s*Theorem\s+(\w+)", open(os.path.join(root, "rocq/theories", f)).read(), re.M):
            names.add(m.group(1))
STATUS = {}   # id -> "partial" where not fully proved
NOTES = {}
exec(open(os.path.join(os.path.dirname(__file__), "notes.py")).read())
props = [json.loads(l)["id"] for l in open(os.path.join(root, "properties.jsonl"))]
claims = []
for p in props:
    th = sorted(n for n in names if n.startswith(p + "_"))
    if th:
        claims.append({"property": p, "status": STATUS.get(p, "proved"), "theorems": th, "note": NOTES.get(p, "")})
json.dump({"claims": claims}, open(os.path.join(root, "MANIFEST.json"), "w"), indent=1)
missing = [p for p in props if not any(n.startswith(p + "_") for n in names)]
print("claims", len(claims), "without theorem", missing)
