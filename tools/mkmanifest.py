# Collects property theorems (named Cnn_...) from rocq/theories/*Props.v into MANIFEST.json.
import re,glob,json,collections
notes=json.load(open('/verif/tools/notes.json'))
th=collections.defaultdict(list)
for f in sorted(glob.glob('/verif/rocq/theories/*.v')):
    s=open(f).read()
    for m in re.finditer(r'^(?:Theorem|Corollary)\s+((C\d\d)_\w+)',s,re.M):
        th[m.group(2)].append(m.group(1))
claims=[]
for l in open('/verif/properties.jsonl'):
    i=json.loads(l)['id']
    n=notes.get(i,{})
    ts=th.get(i,[])
    st=n.get('status')
    if st is None:
        st='partial' if (not ts or any(t.endswith(('_partial','_refuted')) for t in ts)) else 'proved'
    note=n.get('note','')
    if not ts and not n: continue
    claims.append(dict(property=i,status=st,theorems=ts,note=note))
json.dump({"claims":claims},open('/verif/MANIFEST.json','w'),indent=1)
import collections as c
print(c.Counter(x['status'] for x in claims), sum(len(x['theorems']) for x in claims), [x['property'] for x in claims if not x['theorems']])
