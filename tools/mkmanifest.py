#!/usr/bin/env python3
"""Writes MANIFEST.json from the table below."""
import json, os
here=os.path.dirname(os.path.abspath(__file__))
C={}
def p(pid,status,theorems,note=""):
    C[pid]={"property":pid,"status":status,"theorems":theorems,"note":note}
exec(open(os.path.join(here,'claims.py')).read())
ids=[json.loads(l)["id"] for l in open(os.path.join(here,'../properties.jsonl'))]
out=[C[i] for i in ids if i in C]
json.dump({"claims":out},open(os.path.join(here,'../MANIFEST.json'),'w'),indent=1)
print(len(out),"claims;", "missing:", [i for i in ids if i not in C])
