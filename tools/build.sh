#!/bin/sh
# Regenerate Props files and build.
cd "$(dirname "$0")/../rocq" && python3 ../tools/mkprops.py && coq_makefile -f _CoqProject -o Makefile && make -j4 "$@"
