#!/usr/bin/env python3
"""Insert property definitions read from stdin into mkprops.py just before the writer."""
import os, sys
p = os.path.join(os.path.dirname(os.path.abspath(__file__)), "mkprops.py")
s = open(p).read()
mark = "here = os.path.dirname"
i = s.index(mark)
open(p, "w").write(s[:i] + sys.stdin.read() + s[i:])
