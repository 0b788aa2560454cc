"""Rebuilds MANIFEST.json from the theorem names in rocq/theories/P_*.v.
A theorem named Cnn_... belongs to property Cnn. Notes and statuses that differ
from the default are kept in tools/notes.json."""
import glob, json, os, re
root = os.path.join(os.path.dirname(os.path.abspath(__file__)), "..")
ids = [json.loads(l)["id"] for l in open(os.path.join(root, "properties.jsonl"))]
notes = json.load(open(os.path.join(root, "tools", "notes.json")))
thms = {i: [] for i in ids}
for f in sorted(glob.glob(os.path.join(root, "rocq/theories/P_*.v"))):
    for name in re.findall(r"^Theorem\s+(C\d\d+_\w+)", open(f).read(), re.M):
        thms[name.split("_")[0]].append(name)
claims = []
for i in ids:
    n = notes.get(i, {})
    status = n.get("status")
    if status is None:
        if not thms[i]:
            status = "partial"
        elif any(t.endswith("_partial") for t in thms[i]):
            status = "partial"
        else:
            status = "proved"
    note = n.get("note", "" if thms[i] else "not yet formalised")
    claims.append(dict(property=i, status=status, theorems=thms[i], note=note))
json.dump({"claims": claims}, open(os.path.join(root, "MANIFEST.json"), "w"), indent=1)
print(sum(1 for c in claims if c["theorems"]), "of", len(claims), "with theorems")
