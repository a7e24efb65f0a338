import re,json,glob,os
os.chdir('/verif/rocq')
order=[l.strip() for l in open('/verif/tools/order.txt') if l.strip()]
open('_CoqProject','w').write('-Q theories Verif\n'+''.join('theories/%s.v\n'%f for f in order)+'theories/Audit.v\n')
notes=json.load(open('/verif/tools/notes.json'))
props=[json.loads(l) for l in open('/verif/properties.jsonl')]
th={}
allth=[]
pf=[f for f in order if f.startswith('P_')]
for f in pf:
    for m in re.finditer(r'^Theorem (\w+)',open('theories/%s.v'%f).read(),re.M):
        n=m.group(1); allth.append(n)
        c=re.match(r'C\d+',n)
        for cc in re.findall(r'C\d\d+',n): th.setdefault(cc,[]).append(n)
claims=[]
for p in props:
    i=p['id']; t=th.get(i,[])
    n=notes.get(i,{})
    if not t and not n.get('status')=='not_applicable': continue
    # A claim with a refutation is false of the code as stated: it must not be reported as proved.
    if any('refuted' in x for x in t): assert n.get('status')=='partial' and n.get('note'), i
    claims.append(dict(property=i,status=n.get('status','proved'),theorems=t,note=n.get('note','')))
json.dump(dict(claims=claims),open('/verif/MANIFEST.json','w'),indent=1)
with open('theories/Audit.v','w') as g:
    g.write('(** Audit: the axioms every property theorem rests on, printed at build time. *)\nFrom Verif Require Import Prelude %s.\n\n'%' '.join(pf))
    for n in allth: g.write('Print Assumptions %s.\n'%n)
print(len(allth),'theorems',len(claims),'claims; missing:',[p['id'] for p in props if p['id'] not in [c['property'] for c in claims]])
