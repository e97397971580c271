#!/bin/bash
# regenerate manifest, build, commit, vcheck
set -e
cd /verif
python3 scripts/gen_properties.py
python3 scripts/gen_manifest.py
python3 scripts/gen_design.py
cd rocq && rm -f .lia.cache .nia.cache && coq_makefile -f _CoqProject -o Makefile >/dev/null && make -j4 > /tmp/make.log 2>&1 || { tail -5 /tmp/make.log; exit 1; }
cd .. && git add -A && (git commit -qm "$1" || true) && vcheck
