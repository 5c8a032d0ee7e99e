"""Writes MANIFEST.json: the theorem names come from the Props_*.v files, the status from below."""
import glob, json, os, re

here = os.path.dirname(os.path.abspath(__file__))
root = os.path.dirname(here)

names = {}
for path in sorted(glob.glob(os.path.join(root, "rocq", "theories", "Props_*.v"))):
    for m in re.finditer(r"^ *Theorem (C\d\d+)_(\w+)", open(path).read(), re.M):
        names.setdefault(m.group(1), []).append(m.group(1) + "_" + m.group(2))

exec(open(os.path.join(here, "status.py")).read())   # defines STATUS

claims = []
for line in open(os.path.join(root, "properties.jsonl")):
    pid = json.loads(line)["id"]
    status, note = STATUS.get(pid, ("partial", "not modelled yet"))
    thms = names.get(pid, [])
    if not thms and status == "proved":
        raise SystemExit("no theorem for " + pid)
    claims.append({"property": pid, "status": status, "theorems": thms, "note": note})

with open(os.path.join(root, "MANIFEST.json"), "w") as f:
    json.dump({"claims": claims}, f, indent=1)
    f.write("\n")
