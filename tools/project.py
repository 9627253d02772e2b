#!/usr/bin/env python3
"""Lists every theories/*.v in _CoqProject (the flags line is kept)."""
import glob,os
root=os.path.dirname(os.path.dirname(os.path.abspath(__file__)))+'/rocq'
os.chdir(root)
flags=[l for l in open('_CoqProject').read().splitlines() if not l.endswith('.v')]
open('_CoqProject','w').write('\n'.join(flags+sorted(glob.glob('theories/*.v')))+'\n')
