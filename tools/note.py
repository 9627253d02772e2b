#!/usr/bin/env python3
"""note.py ID NOTE [STATUS]: records a manifest note."""
import json,sys,os
root=os.path.dirname(os.path.dirname(os.path.abspath(__file__)))
p=root+'/tools/notes.json'; d=json.load(open(p))
d[sys.argv[1]]={'note':sys.argv[2],'status':sys.argv[3]} if len(sys.argv)>3 else sys.argv[2]
json.dump(d,open(p,'w'),indent=1,ensure_ascii=False)
