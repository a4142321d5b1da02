#!/bin/bash
# Runs the model on floating-point numbers against the values recorded in /repo/pytest.
# Needs compiled theories (make in rocq/) and ocamlfind. Nothing here is part of a proof.
set -e
here=$(cd "$(dirname "$0")" && pwd); work=$(mktemp -d); cd "$work"
cp "$here/Extract.txt" Ex.v; cp "$here/Drv.ml.txt" Drv.ml; cp "$here/Tst.ml.txt" Tst.ml
coqc -Q "$here/../../rocq/theories" Verif Ex.v > /dev/null 2>&1
rm -f *.mli
mods=$(ocamlfind ocamldep -sort $(ls *.ml | grep -v '^Drv.ml$\|^Tst.ml$'))
ocamlfind ocamlopt -w -a -o tst $mods Drv.ml Tst.ml
./tst
rm -rf "$work"
