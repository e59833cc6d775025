#!/usr/bin/env python3
"""Regenerates MANIFEST.json from the theorem names in rocq/theories/Properties and the notes below.

A theorem named Cnn_... belongs to property Cnn. A property whose theorems are all
missing is not listed. Notes and non-default statuses are in tools/notes.json."""
import json, os, re
root = os.path.dirname(os.path.dirname(os.path.abspath(__file__)))
notes = json.load(open(os.path.join(root, "tools", "notes.json")))
thms = {}
pdir = os.path.join(root, "rocq", "theories", "Properties")
for f in sorted(os.listdir(pdir)):
    if f.endswith(".v"):
        for m in re.finditer(r"^(?:Theorem|Lemma|Corollary)\s+((C\d+)_\w+)", open(os.path.join(pdir, f)).read(), re.M):
            thms.setdefault(m.group(2), []).append(m.group(1))
claims = []
for l in open(os.path.join(root, "properties.jsonl")):
    pid = json.loads(l)["id"]
    n = notes.get(pid, {})
    if pid in thms or n.get("status") == "not_applicable":
        status = n.get("status") or ("partial" if all(t.endswith("_partial") for t in thms[pid]) else "proved")
        refuted = [t for t in thms.get(pid, []) if t.endswith("_refuted")]
        about = "Proved of the statement in properties.jsonl; a stronger claim is false of the code, with a witness in " + ", ".join(refuted) + "." if refuted else ""
        note = " ".join(x for x in [n.get("note", ""), about] if x)
        claims.append({"property": pid, "status": status, "theorems": thms.get(pid, []), "note": note})
    else:
        print("no theorem yet:", pid)
json.dump({"claims": claims}, open(os.path.join(root, "MANIFEST.json"), "w"), indent=1)
