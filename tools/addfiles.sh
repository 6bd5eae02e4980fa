#!/bin/bash
# usage: tools/addfiles.sh A B C : append theories/A.v ... to rocq/_CoqProject if missing
cd "$(dirname "$0")/../rocq"
for f in "$@"; do grep -qx "theories/$f.v" _CoqProject || echo "theories/$f.v" >> _CoqProject; done
