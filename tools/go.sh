#!/bin/bash
# build, regenerate manifest, commit, vcheck
set -eo pipefail
cd /verif/rocq && (echo "-Q theories Verif"; ls theories/*.v) > _CoqProject && coq_makefile -f _CoqProject -o Makefile
make -j4 > /tmp/build.log 2>&1 || { grep -B2 -A8 "Error" /tmp/build.log | head -40; exit 1; }
cd .. && python3 tools/manifest.py && git add -A && git commit -qm "$1" || true
setsid vcheck > /tmp/vcheck.log 2>&1 || true
tail -1 /tmp/vcheck.log | python3 -c "
import sys,json
l=sys.stdin.read(); d=json.loads(l[l.index('{'):]); print({k:d.get(k) for k in ('n_files','n_built','n_theorems','manifest_status','manifest_missing','gate','why','wall')})"
