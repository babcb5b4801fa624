#!/usr/bin/env python3
"""Regenerates rocq/_CoqProject and MANIFEST.json from the theory files and tools/status.json."""
import json, re, glob, os
root = os.path.dirname(os.path.dirname(os.path.abspath(__file__)))
files = sorted(glob.glob(root + "/rocq/theories/*.v"))
with open(root + "/rocq/_CoqProject", "w") as f:
    f.write("-Q theories Verif\n")
    for p in files:
        f.write("theories/" + os.path.basename(p) + "\n")
thms = {}
for p in files:
    if not p.endswith("Props.v"):
        continue
    for name in re.findall(r"^Theorem\s+(C\d+\w*)", open(p).read(), re.M):
        thms.setdefault(name.split("_")[0], []).append("Verif." + os.path.basename(p)[:-2] + "." + name)
status = json.load(open(root + "/tools/status.json"))
claims = []
for line in open(root + "/properties.jsonl"):
    pid = json.loads(line)["id"]
    st = status.get(pid, {})
    names = thms.get(pid, [])
    if not names and not st:
        st = {"status": "partial", "note": "Model not built yet; no theorem."}
    claims.append({"property": pid, "status": st.get("status", "proved"), "theorems": names, "note": st.get("note", "")})
json.dump({"claims": claims}, open(root + "/MANIFEST.json", "w"), indent=1)
print(len(files), "files;", sum(len(v) for v in thms.values()), "theorems;", sum(1 for c in claims if not c["theorems"]), "claims without theorem")
