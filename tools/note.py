#!/usr/bin/env python3
# note.py Cnn "text"  -- set the manifest note of a property
import json, sys
p = '/verif/tools/notes.json'
n = json.load(open(p))
n[sys.argv[1]] = {"note": sys.argv[2]}
json.dump(n, open(p, 'w'), indent=1)
