"""Write MANIFEST.json.  A theorem named Cnn_* in a Props_*.v file belongs to
property Cnn; notes and statuses other than "proved" are given below."""
import glob
import json
import os
import re

ROOT = os.path.dirname(os.path.dirname(os.path.abspath(__file__)))
ids = [json.loads(l)["id"] for l in open(os.path.join(ROOT, "properties.jsonl"))]
thms = {}
for f in sorted(glob.glob(os.path.join(ROOT, "rocq/theories/Props_*.v"))):
    for m in re.finditer(r"^ *Theorem (C\d+)(_\w+)", open(f).read(), re.M):
        thms.setdefault(m.group(1), []).append(m.group(1) + m.group(2))
notes = json.load(open(os.path.join(ROOT, "tools/manifest_notes.json")))
claims = []
for i in ids:
    n = notes.get(i, {})
    t = thms.get(i, [])
    status = n.get("status") or ("partial" if not t or any(x.endswith("_partial") for x in t) else "proved")
    note = n.get("note", "" if t else "not yet proved")
    claims.append({"property": i, "status": status, "theorems": t, "note": note})
json.dump({"claims": claims}, open(os.path.join(ROOT, "MANIFEST.json"), "w"), indent=1)
print({s: sum(c["status"] == s for c in claims) for s in ("proved", "partial", "not_applicable")})
