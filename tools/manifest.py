"""Writes MANIFEST.json: the theorems named Cnn_* in rocq/theories/Prop*.v, with a status and a note per property."""
import glob, json, re, os
root = os.path.dirname(os.path.dirname(os.path.abspath(__file__)))
names = {}
for f in sorted(glob.glob(root + "/rocq/theories/Prop*.v")):
    for m in re.finditer(r"^Theorem (C\d\d)_(\w+)", open(f).read(), re.M):
        names.setdefault(m[1], []).append(m[1] + "_" + m[2])
info = json.load(open(root + "/tools/notes.json"))
props = [json.loads(l)["id"] for l in open(root + "/properties.jsonl")]
claims = []
for p in props:
    st, note = info.get(p, ["partial", "in progress"])
    if not names.get(p): st, note = "partial", "No theorem yet."
    claims.append({"property": p, "status": st, "theorems": names.get(p, []), "note": note})
json.dump({"claims": claims}, open(root + "/MANIFEST.json", "w"), indent=1)
print([(c["property"], c["status"], len(c["theorems"])) for c in claims])
