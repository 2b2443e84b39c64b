"""Regenerate MANIFEST.json from the Theorem names in rocq/theories/Props*.v."""
import glob, json, re, os
root = os.path.dirname(os.path.dirname(os.path.abspath(__file__)))
thms = {}
for f in sorted(glob.glob(os.path.join(root, "rocq/theories/Props*.v"))):
    for m in re.finditer(r"^Theorem (C\d\d+)(_\w+)", open(f).read(), re.M):
        thms.setdefault(m.group(1), []).append(m.group(1) + m.group(2))
notes = {}
exec(open(os.path.join(root, "tools/notes.py")).read())
props = [json.loads(l)["id"] for l in open(os.path.join(root, "properties.jsonl"))]
claims = []
for p in props:
    t = thms.get(p, [])
    st, note = notes.get(p, (None, ""))
    if not t:
        st, note = "partial", note or "not proved yet"
    if st is None:
        st = "partial" if any(x.endswith(("_partial", "_refuted")) for x in t) else "proved"
    claims.append({"property": p, "status": st, "theorems": t, "note": note})
json.dump({"claims": claims}, open(os.path.join(root, "MANIFEST.json"), "w"), indent=1)
print({s: sum(c["status"] == s for c in claims) for s in ("proved", "partial", "not_applicable")},
      [c["property"] for c in claims if not c["theorems"]])
