#!/usr/bin/env python3
"""usage: note.py C12 proved "text" — record the status and note of a property."""
import json, os, sys
p = os.path.join(os.path.dirname(os.path.abspath(__file__)), "notes.json")
d = json.load(open(p))
d[sys.argv[1]] = {"status": sys.argv[2], "note": sys.argv[3] if len(sys.argv) > 3 else ""}
json.dump(dict(sorted(d.items())), open(p, "w"), indent=1, ensure_ascii=False)
