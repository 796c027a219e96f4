#!/usr/bin/env python3
"""Writes /verif/MANIFEST.json."""
import json, os
C = []
def c(prop, status, theorems, note):
    C.append(dict(property=prop, status=status, theorems=theorems.split(), note=note))

c("C01", "partial", "cbc_roundtrip_partial cbc_roundtrip_refuted",
  "Full statement is false of the code: block-aligned messages ending in a byte 1..16 come back shortened. Proved: bytes always come back, reported length right iff the message is recoverable.")
c("C02", "partial", "padding_roundtrip_partial padding_is_pkcs7_iff padding_injective_refuted padding_separate_empty_refuted",
  "Full statement is false of the code (no pad block for aligned messages; empty string reads before the buffer). Exact characterisation proved.")
c("C03", "proved", "cbc_encrypt_conforms cbc_encrypt_rejects cbc_encrypt_output_length", "Assumes the realloc in padding.c does not move the block (see C51) and lengths within int.")
c("C04", "proved", "cbc_decrypt_inplace_eq", "")
c("C05", "proved", "cbc_decrypt_pieces_eq", "")
c("C06", "partial", "cbc_encrypt_pieces_actual cbc_encrypt_pieces_refuted", "False of the code: encrypt never advances ivec. The actual behaviour is proved.")
c("C07", "partial", "cbc_decrypt_bounds_partial cbc_decrypt_bounds_refuted", "False of the code for unaligned inlen and for inlen = 0 in the wrappers. Exact characterisation proved.")
c("C51", "partial", "cbc_encrypt_realloc_refuted cbc_encrypt_defined_iff", "False of the code: use after free whenever realloc moves the block (and the message is not empty and the output buffer large enough); that, and messages too long for an int, are exactly the undefined cases.")
exec(open(os.path.join(os.path.dirname(__file__), "manifest_more.py")).read()) if os.path.exists(os.path.join(os.path.dirname(__file__), "manifest_more.py")) else None
C.sort(key=lambda x: x["property"])
json.dump(dict(claims=C), open(os.path.join(os.path.dirname(__file__), "..", "MANIFEST.json"), "w"), indent=1)
print(len(C))
