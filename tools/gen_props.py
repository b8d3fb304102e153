#!/usr/bin/env python3
import json, os, sys
here = os.path.dirname(os.path.abspath(__file__))
sys.path.insert(0, here)
import props_a, props_b
with open(os.path.join(here, '..', 'properties.jsonl'), 'w') as f:
    for i, d in enumerate(props_a.P, 1):
        f.write(json.dumps(dict(id='C%02d' % i, **d)) + '\n')
print(len(props_a.P))
