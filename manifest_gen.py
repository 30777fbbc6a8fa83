#!/usr/bin/env python3
"""Regenerates MANIFEST.json: theorem names are collected from rocq/theories/Props_*.v by their Cnn_ prefix;
status and note come from status.json."""
import json,re,glob,os
root=os.path.dirname(os.path.abspath(__file__))
th={}
for f in sorted(glob.glob(root+"/rocq/theories/Props_*.v")):
    for m in re.finditer(r"^\s*Theorem\s+((C\d+)_[\w']+)",open(f).read(),re.M):
        th.setdefault(m.group(2),[]).append(m.group(1))
st=json.load(open(root+"/status.json"))
ids=[json.loads(l)["id"] for l in open(root+"/properties.jsonl") if l.strip()]
claims=[]
for i in ids:
    s=st.get(i)
    if i in th and s is None: print("no status for",i)
    if s is None: continue
    claims.append({"property":i,"status":s["status"],"theorems":th.get(i,[]),"note":s["note"]})
json.dump({"claims":claims},open(root+"/MANIFEST.json","w"),indent=1)
print(len(claims),"claims",sum(len(c["theorems"]) for c in claims),"theorems")
