#!/usr/bin/env python3
"""addprop.py: append properties read as JSON lines on stdin when their id is new"""
import json,sys,os
p=os.path.join(os.path.dirname(os.path.abspath(__file__)),'..','properties.jsonl')
ids={json.loads(l)['id'] for l in open(p) if l.strip()}
with open(p,'a') as f:
    for l in sys.stdin:
        if l.strip():
            o=json.loads(l)
            if o['id'] not in ids: f.write(json.dumps(o)+'\n')
