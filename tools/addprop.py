#!/usr/bin/env python3
"""Append a property: addprop.py < json object without id on stdin (one per line)."""
import json, os, sys
root = os.path.dirname(os.path.dirname(os.path.abspath(__file__)))
p = os.path.join(root, 'properties.jsonl')
n = sum(1 for l in open(p) if l.strip())
with open(p, 'a') as f:
    for l in sys.stdin:
        if l.strip():
            n += 1
            d = {'id': 'C%02d' % n}; d.update(json.loads(l)); f.write(json.dumps(d) + '\n'); print(d['id'], d['title'])
