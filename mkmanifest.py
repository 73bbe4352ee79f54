#!/usr/bin/env python3
"""Regenerate MANIFEST.json from theorem names Cxx_* in rocq/theories/Properties_*.v and notes.json."""
import re,glob,json,os
os.chdir(os.path.dirname(os.path.abspath(__file__)))
th={}
for f in sorted(glob.glob('rocq/theories/Properties_*.v')):
    for m in re.finditer(r'^Theorem (C(\d\d)_\w+)',open(f).read(),re.M):
        th.setdefault('C'+m.group(2),[]).append(m.group(1))
notes=json.load(open('notes.json')) if os.path.exists('notes.json') else {}
claims=[]
for l in open('properties.jsonl'):
    i=json.loads(l)['id']
    ts=th.get(i,[])
    if not ts: continue
    part=any(t.endswith('_partial') or t.endswith('_refuted') for t in ts)
    claims.append({"property":i,"status":"partial" if part else "proved","theorems":ts,"note":notes.get(i,"")})
json.dump({"claims":claims},open('MANIFEST.json','w'),indent=1)
print(len(claims),'claims', [c['property'] for c in claims if c['status']=='partial'])
