#!/usr/bin/env python3
"""Print Assumptions of every theorem of MANIFEST.json, grouped, for the appendix of DESIGN.md.
   Run after a build, from /verif:  python3 tools/assumptions.py"""
import json, pathlib, re, subprocess, tempfile, collections
root = pathlib.Path(__file__).resolve().parents[1]
th = root / "rocq" / "theories"
names = [t for c in json.load(open(root / "MANIFEST.json"))["claims"] for t in c["theorems"]]
where = {}
for f in th.glob("*.v"):
    for m in re.finditer(r"^\s*Theorem\s+([\w']+)", f.read_text(), re.M):
        where[m.group(1)] = f.stem
src = "".join(f"From Verif Require {m}.\n" for m in sorted(set(where[n] for n in names)))
for n in names:
    src += f'Locate {where[n]}.{n}. Print Assumptions {where[n]}.{n}.\n'
with tempfile.TemporaryDirectory() as d:
    p = pathlib.Path(d) / "A.v"
    p.write_text(src)
    out = subprocess.run(["coqc", "-Q", str(th), "Verif", str(p)], capture_output=True, text=True)
    text = out.stdout + out.stderr if out.returncode else out.stdout
groups = collections.OrderedDict()
cur = None
buf = {}
for line in text.splitlines():
    m = re.match(r"Constant Verif\.\w+\.([\w']+)", line)
    if m:
        cur = m.group(1); buf[cur] = []
        continue
    if cur is None: continue
    m = re.match(r"([A-Za-z_][\w.']*)\s*(:|$)", line)
    if m and m.group(1) not in ("Axioms", "Closed"): buf[cur].append(m.group(1))
for n in names:
    groups.setdefault(tuple(sorted(set(buf.get(n, ["?"])))), []).append(n)
for k, v in sorted(groups.items(), key=lambda kv: len(kv[0])):
    print(f"- {', '.join('`'+x+'`' for x in k) if k else '*closed under the global context*'} ({len(v)} theorems): " + ", ".join(v) + ".\n")
