"""Rebuild MANIFEST.json: theorem names are read from rocq/theories/P_*.v, the
status and note of each property from tools/notes.json."""
import glob, json, os, re

root = os.path.dirname(os.path.dirname(os.path.abspath(__file__)))
thms = {}
for f in sorted(glob.glob(root + "/rocq/theories/P_*.v")):
    for name in re.findall(r"^Theorem (C\d\d\w*)", open(f).read(), re.M):
        thms.setdefault(name[:3], []).append(name)
notes = json.load(open(root + "/tools/notes.json"))
ids = [json.loads(x)["id"] for x in open(root + "/properties.jsonl") if x.strip()]
claims = []
for i in ids:
    n = notes.get(i)
    if i in thms:
        n = n or {}
        auto = "partial" if any(t.endswith(("_refuted", "_partial")) for t in thms[i]) else "proved"
        claims.append({"property": i, "status": n.get("status", auto),
                       "theorems": thms[i], "note": n.get("note", "")})
    elif n:
        claims.append({"property": i, "status": n["status"], "theorems": [], "note": n["note"]})
json.dump({"claims": claims}, open(root + "/MANIFEST.json", "w"), indent=1)
missing = [i for i in ids if i not in thms and i not in notes]
print(len(claims), "claims; no theorem yet:", missing)
