#!/bin/sh
# incremental build of everything listed in _CoqProject
cd /verif/rocq && coq_makefile -f _CoqProject -o Makefile >/dev/null && make -j4 "$@" 2>&1 | grep -v "^COQ\|Closed under\|make\[" 
