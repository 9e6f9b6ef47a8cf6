#!/bin/sh
# list every theory file in _CoqProject
cd "$(dirname "$0")/../rocq" && { head -1 _CoqProject; ls theories/*.v; } > /tmp/_cp && cp /tmp/_cp _CoqProject
