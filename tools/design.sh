#!/bin/bash
# regenerates DESIGN.md from tools/design_head.md, tools/design_tail.md and the Print Assumptions table (needs a compiled build)
cd "$(dirname "$0")/.."
python3 tools/assumptions.py > /tmp/assume.md && cat tools/design_head.md tools/design_tail.md /tmp/assume.md > DESIGN.md
