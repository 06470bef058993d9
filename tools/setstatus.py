#!/usr/bin/env python3
"""setstatus.py ID status note : update tools/status.json"""
import json,sys,os
p=os.path.dirname(os.path.abspath(__file__))+'/status.json'
d=json.load(open(p)); d[sys.argv[1]]={"status":sys.argv[2],"note":sys.argv[3]}
json.dump(dict(sorted(d.items())),open(p,'w'),indent=1)
