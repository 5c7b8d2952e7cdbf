#!/usr/bin/env python3
"""Regenerates MANIFEST.json from tools/claims.json, checking that every named theorem exists."""
import json,re,glob,sys
names=set()
for f in glob.glob('/verif/rocq/theories/*.v'):
    names|=set(re.findall(r'^(?:Theorem|Lemma|Corollary)\s+(\w+)',open(f).read(),re.M))
claims=json.load(open('/verif/tools/claims.json'))
ids=[json.loads(l)['id'] for l in open('/verif/properties.jsonl') if l.strip()]
ok=True
for c in claims:
    for t in c['theorems']:
        if t not in names: print('missing theorem',t); ok=False
have={c['property'] for c in claims}
for i in ids:
    if i not in have: print('no claim for',i)
json.dump({"claims":claims},open('/verif/MANIFEST.json','w'),indent=1)
sys.exit(0 if ok else 1)
