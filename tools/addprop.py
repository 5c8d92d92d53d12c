"""usage: addprop.py file.json ; a list of [id,title,statement,quantifier,why,anchors,status,note]"""
import json,sys
n=json.load(open('/verif/tools/notes.json'))
have=[json.loads(l)['id'] for l in open('/verif/properties.jsonl')]
with open('/verif/properties.jsonl','a') as f:
    for e in json.load(open(sys.argv[1])):
        i,t,s,q,w,a,st,note=e
        if i not in have and t: f.write(json.dumps(dict(id=i,title=t,statement=s,quantifier=q,why_tests_cant=w,anchors=a))+"\n")
        n[i]=[st,note]
json.dump(n,open('/verif/tools/notes.json','w'),indent=1)
