#!/bin/sh
# Prints the assumptions of every theorem in MANIFEST.json (run after building rocq/).
cd "$(dirname "$0")/../rocq" || exit 1
d=$(mktemp -d)
python3 - "$d/pa.v" <<'P'
import json,sys
m=json.load(open('../MANIFEST.json'))
mods=[l.strip()[9:-2] for l in open('_CoqProject') if l.startswith('theories/')]
with open(sys.argv[1],'w') as f:
    f.write("From Verif Require Import %s.\n"%' '.join(mods))
    for c in m['claims']:
        for t in c['theorems']: f.write('Print Assumptions %s.\n'%t)
P
coqc -Q theories Verif "$d/pa.v" | sort | uniq -c
rm -r "$d"
