import json,os,re,sys
props=[json.loads(l)['id'] for l in open('/verif/properties.jsonl')]
thms={}
import glob
for f in sorted(glob.glob('/verif/rocq/theories/Prop*.v')):
    for m in re.finditer(r'^(?:Theorem|Corollary)\s+((C\d{2,3})_\w+)',open(f).read(),re.M):
        for c in re.findall(r'C\d{2,3}(?=_)',m.group(1)): thms.setdefault(c,[]).append(m.group(1))
notes=json.load(open('/verif/tools/notes.json'))
claims=[]
for p in props:
    if p in thms:
        n=notes.get(p,{})
        st=n.get('status','partial' if any(t.endswith('_partial') for t in thms[p]) else 'proved')
        claims.append({"property":p,"status":st,"theorems":thms[p],"note":n.get('note','')})
json.dump({"claims":claims},open('/verif/MANIFEST.json','w'),indent=1)
print(len(claims),'claims; missing',[p for p in props if p not in thms])
