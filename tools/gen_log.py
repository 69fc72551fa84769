#!/usr/bin/env python3
# turns the raw results of the seeded-bug harness (/tmp/seed/out*.jsonl) into seeded/LOG.jsonl
import json,glob,os
NOTES=json.load(open('/verif/tools/seed_notes.json'))
p='/verif/seeded/LOG.jsonl'
old={}
if os.path.exists(p):
    for l in open(p):
        r=json.loads(l); old[r['id']]=r
for f in sorted(glob.glob('/tmp/seed/out*.jsonl')):
    for l in open(f):
        r=json.loads(l)
        if 'error' in r or (not r['failed'] and not r['survived']): continue
        m=r['mut']; n=NOTES.get(r['id'],{})
        fl=[x.replace('(unbuilt)','') for x in r['failed']]
        th=[x for x in fl if not x.endswith('_met')]
        e=dict(id=r['id'],definition=m['df'],edit=m['edit'],
               diff=[dict(file=a,old=b,new=c) for a,b,c in m['edits']],
               claims_broken=n.get('claims',m['claims']),
               theorems_failed=th, examples_failed=[x for x in fl if x.endswith('_met')],
               theorems_tightened=n.get('tightened',[]))
        if 'note' in n: e['note']=n['note']
        hit=[c for c in e['claims_broken'] if any(x.startswith(c+'_') for x in th)]
        e['caught']= n.get('caught', bool(hit) )
        old[r['id']]=e
with open(p,'w') as o:
    for k in old: o.write(json.dumps(old[k])+'\n')
print(len(old),'entries;','not caught:',[k for k in old if not old[k]['caught']])
