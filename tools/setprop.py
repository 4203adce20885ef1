"""Edit one property: setprop.py ID field text [field text ...]; new ids are appended."""
import json
import os
import sys

P = os.path.join(os.path.dirname(os.path.dirname(os.path.abspath(__file__))), "properties.jsonl")
pid, rest = sys.argv[1], sys.argv[2:]
rows = [json.loads(l) for l in open(P)]
row = next((r for r in rows if r["id"] == pid), None)
if row is None:
    row = {"id": pid, "title": "", "statement": "", "quantifier": "", "why_tests_cant": "", "anchors": []}
    rows.append(row)
for k, v in zip(rest[::2], rest[1::2]):
    row[k] = json.loads(v) if k == "anchors" else v
open(P, "w").write("".join(json.dumps(r) + "\n" for r in rows))
