#!/usr/bin/env python3
"""Apply one edit to a scratch copy of the model, rebuild, and say which lemmas broke.

usage: mutate.py mutations.json start [end]
Each entry: {"file", "old", "new", "definition", "edit", "claim"}.  Prints one JSON line per entry.
The copy in /tmp/scratch is rebuilt incrementally; /verif is never changed.
TARGETS limits the rebuild to some .vo files, LIMIT gives each file a time limit in seconds."""
import json, os, re, subprocess, sys, shutil

muts = json.load(open(sys.argv[1]))
lo = int(sys.argv[2]); hi = int(sys.argv[3]) if len(sys.argv) > 3 else len(muts)
SRC = os.environ.get("SRC", "/verif/rocq"); DST = os.environ.get("SCRATCH", "/tmp/scratch")
TARGETS = os.environ.get("TARGETS", ""); LIMIT = os.environ.get("LIMIT", "1500")

def enclosing(path, line):
    name = "?"
    for i, l in enumerate(open(path)):
        m = re.match(r"\s*(Lemma|Theorem|Example|Definition|Fixpoint|Corollary)\s+(\w+)", l)
        if m: name = m.group(2)
        if i + 1 >= line: break
    return name

for k in range(lo, min(hi, len(muts))):
    m = muts[k]
    subprocess.run(["rsync", "-a", "--delete", SRC + "/", DST + "/"] if shutil.which("rsync") else ["bash", "-c", "rm -rf %s && cp -a %s %s" % (DST, SRC, DST)], check=True)
    p = "%s/theories/%s" % (DST, m["file"])
    s = open(p).read()
    if s.count(m["old"]) < 1:
        print(json.dumps({"n": k, "error": "pattern not found"})); continue
    s = s.replace(m["old"], m["new"], 1)
    open(p, "w").write(s)
    r = subprocess.run("cd %s && timeout 1500 make -k -j3 COQC='timeout %s coqc' %s 2>&1" % (DST, LIMIT, TARGETS), shell=True, capture_output=True, text=True)
    out = r.stdout
    fails = []
    for f, l in re.findall(r'File "\./(theories/\w+\.v)", line (\d+), characters[^\n]*\nError', out):
        fails.append("%s (%s)" % (enclosing(DST + "/" + f, int(l)), os.path.basename(f)))
    fails += ["did not finish (%s)" % f for f in re.findall(r"theories/(\w+)\.vo\] Error 124", out)]
    print(json.dumps({"n": k, "definition": m["definition"], "edit": m["edit"], "claim": m["claim"], "failed": fails, "rc": r.returncode}), flush=True)
