#!/bin/bash
# Regenerate the manifest, build locally, commit, and run the gate on the commit.
cd /verif || exit 1
python3 tools/gen_manifest.py > /tmp/man.out || exit 1
cd rocq && coq_makefile -f _CoqProject -o Makefile > /dev/null && make -j4 > /tmp/make.out 2>&1
if [ $? -ne 0 ]; then grep -v Closed /tmp/make.out | grep -A12 "Error\|^File" | head -40; echo BUILD FAILED; exit 1; fi
cd .. && tail -60 /tmp/man.out
git add -A && git commit -q -m "$1"
vcheck > /tmp/vcheck.out 2>&1
echo "VERDICT $(tail -1 /tmp/vcheck.out | cut -c1-1500)"
