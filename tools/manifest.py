"""Regenerate MANIFEST.json from the property files: every theorem named Cxx_* in a
Prop*.v file is attached to property Cxx.  Notes/status overrides are in notes.json."""
import glob, json, os, re
root = os.path.dirname(os.path.dirname(os.path.abspath(__file__)))
notes = json.load(open(os.path.join(root, "tools", "notes.json")))
thms = {}
for f in sorted(glob.glob(os.path.join(root, "rocq/theories/Prop*.v"))):
    for n in re.findall(r"^Theorem ((C\d\d+)_\w+)", open(f).read(), re.M):
        thms.setdefault(n[1], []).append(n[0])
claims = []
for line in open(os.path.join(root, "properties.jsonl")):
    d = json.loads(line)
    i = d["id"]
    n = notes.get(i, {})
    if i in thms or i in notes:
        st = n.get("status") or ("partial" if any(t.endswith("_partial") for t in thms[i]) else "proved")
        claims.append({"property": i, "status": st, "theorems": thms.get(i, []), "note": n.get("note", "")})
json.dump({"claims": claims}, open(os.path.join(root, "MANIFEST.json"), "w"), indent=1)
print(len(claims), "claims;", [c["property"] for c in claims if c["status"] != "proved"])
