#!/usr/bin/env python3
"""append results of a seeded-bug round to seeded/LOG.jsonl: addlog.py seeds.json seeds.out.json [tight.json]"""
import json,sys
seeds=json.load(open(sys.argv[1])); outs=json.load(open(sys.argv[2]))
tight=json.load(open(sys.argv[3])) if len(sys.argv)>3 else {}
with open('/verif/seeded/LOG.jsonl','a') as f:
    for s,o in zip(seeds,outs):
        assert s['def']==o['def'] and s['edit']==o['edit']
        k=s['def']+'/'+s['edit']
        f.write(json.dumps({"definition":s['file']+':'+s['def'],"edit":s['edit']+": `"+s['old']+"` -> `"+s['new']+"`","claim_broken":s['claim'],
          "theorems_failed":o['errors'],"property_files_not_built":o['props_not_built'],"theorems_tightened":tight.get(k,[])},ensure_ascii=False)+"\n")
