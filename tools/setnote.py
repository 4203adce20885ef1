"""setnote.py ID status note: override for the manifest."""
import json, os, sys
P = os.path.join(os.path.dirname(os.path.abspath(__file__)), "status.json")
d = json.load(open(P))
d[sys.argv[1]] = {"status": sys.argv[2], "note": sys.argv[3]}
json.dump(d, open(P, "w"), indent=1)
