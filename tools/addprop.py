#!/usr/bin/env python3
"""Append properties to properties.jsonl: stdin is a JSON list."""
import json, sys, os
p = os.path.join(os.path.dirname(os.path.abspath(__file__)), "..", "properties.jsonl")
have = {json.loads(l)["id"] for l in open(p)}
with open(p, "a") as f:
    for d in json.load(sys.stdin):
        assert d["id"] not in have, d["id"]
        assert set(d) == {"id","title","statement","quantifier","why_tests_cant","anchors"}, d.keys()
        f.write(json.dumps(d) + "\n")
