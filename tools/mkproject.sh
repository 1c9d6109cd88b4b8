#!/bin/bash
# regenerate the file list in rocq/_CoqProject (keeps the flags line)
cd "$(dirname "$0")/../rocq"
head -1 _CoqProject > /tmp/_cp; ls theories/*.v >> /tmp/_cp; cp /tmp/_cp _CoqProject
