#!/usr/bin/env python3
"""Write seeded/LOG.jsonl from the mutations (seeded/mutations*.py -> /tmp/seed/mut.json), the results kept in seeded/results.json and seeded/tightened.json."""
import json, glob, os
base = os.path.dirname(os.path.dirname(os.path.abspath(__file__)))
res_file = os.path.join(base, "seeded", "results.json")
results = json.load(open(res_file)) if os.path.exists(res_file) else {}
for f in glob.glob("/tmp/seed/out/*.json"):
    r = json.load(open(f))
    results[os.path.basename(f)[:-5]] = {k: r[k] for k in ("status", "failed", "survive", "admitted", "broken") if k in r}
json.dump(results, open(res_file, "w"), indent=0, sort_keys=True)
tight = json.load(open(os.path.join(base, "seeded", "tightened.json")))
with open(os.path.join(base, "seeded", "LOG.jsonl"), "w") as out:
    for m in json.load(open("/tmp/seed/mut.json")):
        r = results.get(m["id"])
        if r is None: continue
        claim = m["claim"]
        if m["id"].startswith("X"):   # label with the properties whose theorems failed
            claim = "/".join(sorted({t.split("_")[0] for t in r["failed"] if t[0] == "C" and t[1:3].isdigit()})[:4]) + ":" + claim.split(":", 1)[1]
        out.write(json.dumps({"id": m["id"], "definition": m["file"] + "." + m["definition"], "edit": {"old": m["old"], "new": m["new"]}, "claim_broken": claim,
            "theorems_failed": r["failed"], "other_lemmas_failed": r.get("admitted", []), "theorems_tightened": tight.get(m["id"], {}).get("theorems", []), "note": tight.get(m["id"], {}).get("note", "")}) + "\n")
