#!/bin/sh
# Print Assumptions of every theorem in MANIFEST.json (after a build in rocq/).
cd "$(dirname "$0")/../rocq" || exit 1
t=$(mktemp -d)
python3 - "$t" <<'P'
import json, sys, re
m = json.load(open('../MANIFEST.json'))
mods = [l.strip()[9:-2] for l in open('_CoqProject') if l.startswith('theories/')]
names = [n for c in m['claims'] for n in c['theorems']]
open(sys.argv[1] + '/Chk.v', 'w').write('From Verif Require Import ' + ' '.join(mods) + '.\n' + ''.join(f'Print Assumptions {n}.\n' for n in names))
print(len(names), 'theorems')
P
coqc -Q theories Verif "$t/Chk.v" | sort | uniq -c
rm -rf "$t"
