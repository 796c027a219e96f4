#!/usr/bin/env python3
"""Compare rocq/theories/SewbTables.v with /repo/src/se_wbsm4/se_wbsm4_local.c, entry by entry."""
import re
src = {"A": {}, "B": {}}
for line in open("/repo/src/se_wbsm4/se_wbsm4_local.c"):
    m = re.match(r"\s*([AB])\[(\d+)\]\.(?:Mat\.M\[(\d+)\]|Vec\.V) = (0x[0-9a-fA-F]+);", line)
    if m:
        e = src[m[1]].setdefault(int(m[2]), [None] * 9)
        e[8 if m[3] is None else int(m[3])] = int(m[4], 16)
txt = open("/verif/rocq/theories/SewbTables.v").read()
for nm in "AB":
    rows = []
    for g in re.findall(r"Definition %s_\d+ : list aff := \[(.*?)\]\." % nm, txt, re.S):
        rows += [[int(x, 16) for x in r.split()[1:]] for r in g.split(";")]
    assert rows == [src[nm][k] for k in range(2039)], nm
print("tables agree")
