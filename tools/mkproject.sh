#!/bin/sh
# regenerates the file list of rocq/_CoqProject (flags line unchanged)
cd "$(dirname "$0")/../rocq" && { echo "-Q theories Verif"; for f in theories/*.v; do echo $f; done; } > _CoqProject.new && mv _CoqProject.new _CoqProject
