#!/usr/bin/env python3
"""Check the /repo citations in the comments of the model files: the file exists and the lines are in range."""
import re, os, sys, glob
ROOT = '/repo/src/MuyGPyS'
files = {}
for d, _, fs in os.walk('/repo'):
    for f in fs:
        if f.endswith(('.py', '.md', '.rst', '.toml')):
            files.setdefault(f, []).append(os.path.join(d, f))
def resolve(path):
    base = os.path.basename(path)
    c = [p for p in files.get(base, []) if p.endswith('/' + path)]
    return c or files.get(base, [])
bad = 0
for v in sorted(glob.glob(os.path.join(os.path.dirname(__file__), '../rocq/theories/*.v'))):
    s = open(v).read()
    for m in re.finditer(r'([\w/{},]+\.(?:py|md)):(\d+)(?:-(\d+))?((?:, \d+(?:-\d+)?)*)', s):
        cands = resolve(m.group(1)) if '{' not in m.group(1) else []
        nums = [int(x) for x in re.findall(r'\d+', m.group(0)[len(m.group(1)):])]
        if '{' in m.group(1): continue
        if not cands:
            print(os.path.basename(v), 'no file', m.group(0)); bad += 1; continue
        if not any(len(open(c).read().split('\n')) >= max(nums) for c in cands):
            print(os.path.basename(v), 'out of range', m.group(0), [len(open(c).read().split('\n')) for c in cands]); bad += 1
        n = re.match(r'\s*\[([\w.]+)\]', s[m.end():])
        if n and len(cands) >= 1:
            nm = n.group(1).split('.')[-1]
            def hit(c):
                L = open(c).read().split('\n')
                lo, hi = nums[0], nums[1] if len(nums) > 1 else nums[0]
                return any(re.search(r'(def|class) %s\b' % re.escape(nm), x) for x in L[lo-1:hi]) or any(re.search(r'\b%s\b' % re.escape(nm), x) for x in L[lo-1:hi])
            if not any(hit(c) for c in cands):
                print(os.path.basename(v), 'name not in range', m.group(0), nm, [(c.replace(ROOT, ''), [i+1 for i, x in enumerate(open(c).read().split('\n')) if re.search(r'(def|class) %s\b' % re.escape(nm), x)]) for c in cands][:4]); bad += 1
print(bad, 'problems')
