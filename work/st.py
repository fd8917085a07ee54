#!/usr/bin/env python3
"""st.py CNN status note -- set a status entry."""
import json,sys
p='/verif/work/status.json'; d=json.load(open(p))
d[sys.argv[1]]={"status":sys.argv[2],"note":sys.argv[3]}
json.dump(d,open(p,'w'),indent=0)
