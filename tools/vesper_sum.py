#!/usr/bin/env python3
"""Print the number of lines and the checksum of stl/TypeLib.vesper for rocq/theories/ArtifactsLayout.v."""
text = open("/repo/stl/TypeLib.vesper").read()
data = text[text.index("rec TypeLib\n"):].encode()
h = 0
for c in data:
    h = (h * 31 + c) % 2 ** 32
print(data.count(b"\n"), h)
