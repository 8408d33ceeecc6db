#!/bin/sh
# Regenerate DESIGN.md after a build.
set -e
python3 /verif/tools/assumptions.py > /tmp/assumptions.md
cat /verif/tools/DESIGN.head.md /tmp/assumptions.md > /verif/DESIGN.md
