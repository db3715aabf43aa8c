#!/bin/bash
# regenerate metadata, build, commit, vcheck
set -o pipefail
cd /verif && python3 tools/mkprops.py >/dev/null && python3 tools/mkmanifest.py && cd rocq && coq_makefile -f _CoqProject -o Makefile || exit 1
make -j4 > /tmp/make.log 2>&1 || { grep -v "Closed under" /tmp/make.log | tail -30; exit 1; }
cd .. && git add -A && git commit -qm "${1:-wip}" ; vcheck 2>&1 | tail -1 > /tmp/vc.out; cut -c1-120 /tmp/vc.out; grep -o "\"gate\": \"[a-z]*\"" /tmp/vc.out; grep -o "\"problems\".\{0,300\}" /tmp/vc.out
