#!/bin/sh
# Prints the assumptions of every theorem named in MANIFEST.json (after a build).
cd "$(dirname "$0")/../rocq" || exit 1
f=$(mktemp -d)/Check.v
for m in $(sed -n 's#^theories/\(.*\)\.v$#\1#p' _CoqProject); do echo "From Verif Require $m."; done > "$f"
python3 - >> "$f" <<'P'
import json, re, glob
where = {}
for p in glob.glob("theories/*.v"):
    for n in re.findall(r"^(?:Theorem|Lemma|Corollary|Example)\s+(\w+)", open(p).read(), re.M):
        where.setdefault(n, p[9:-2])
for c in json.load(open("../MANIFEST.json"))["claims"]:
    for t in c["theorems"]:
        print(f'Goal True. idtac "{t}". Abort. Print Assumptions Verif.{where[t]}.{t}.')
P
coqc -Q theories Verif "$f"
