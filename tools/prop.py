"""prop.py FILE: merge JSON lines of FILE into properties.jsonl by id."""
import json,sys
p='/verif/properties.jsonl'
old=[json.loads(l) for l in open(p) if l.strip()]
ix={d['id']:i for i,d in enumerate(old)}
for l in open(sys.argv[1]):
    if not l.strip(): continue
    d=json.loads(l)
    if d['id'] in ix: old[ix[d['id']]].update(d)
    else: old.append(d); ix[d['id']]=len(old)-1
open(p,'w').write(''.join(json.dumps(d)+'\n' for d in old))
