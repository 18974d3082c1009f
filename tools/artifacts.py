#!/usr/bin/env python3
"""Write rocq/theories/Artifacts.v: the library files of the repository as byte strings."""
import base64, re
repo = "/repo"
src = open(f"{repo}/src/stl.rs").read()
out = ['''(** The compiled libraries shipped in the repository (generated by tools/artifacts.py): the model decodes
    them, encodes them back to the same bytes and computes the published ids. Tests of the model. *)
From Coq Require Import NArith List Bool String Ascii Strings.Byte.
From Verif Require Import Base Sha256 Ty Ids LibCodec.
Import ListNotations.
Local Open Scope N_scope.

(** Test helper, no code modelled: hexadecimal digits to bytes. *)
Definition nibble (c : ascii) : N := let n := N_of_ascii c in if n <? 58 then n - 48 else n - 87.
Fixpoint hex (s : string) : bytes :=
  match s with
  | String a (String b r) => b8 (16 * nibble a + nibble b) :: hex r
  | _ => []
  end.
''']
for name, const, lines in (("Std", "LIB_ID_STD", "std"), ("StrictTypes", "LIB_ID_STRICT_TYPES", "strict_types")):
    data = open(f"{repo}/stl/{name}@0.1.0.stl", "rb").read()
    m = re.search(const + r': &str =\s*"([^"]*)"', src).group(1)
    body = m.split(":")[-1].split("#")[0].split("/")[0]
    out.append(f'(** stl/{name}@0.1.0.stl. *)\nDefinition {lines}_hex : list string := [')
    rows = [data[i:i + 50].hex() for i in range(0, len(data), 50)]
    out.append(";\n".join(f'  "{r}"' for r in rows))
    out.append(f']%string.\nDefinition {lines}_bytes : bytes := flat_map hex {lines}_hex.\n')
    raw = body.replace("-", "").replace("_", "+").replace("~", "/")
    b = base64.b64decode(raw + "=" * (-len(raw) % 4))
    assert len(b) == 32, (m, body)
    out.append(f'(** src/stl.rs: {const} = "{m}". *)\nDefinition {lines}_id : N := 0x{b.hex()}.\n')
    out.append(f'''(** The file decodes entirely, the result encodes to the file, and has the published id. *)
Example {lines}_decodes : match deserialize dec_lib {lines}_bytes with
  | Some l => enc_lib l = {lines}_bytes /\\ lib_id l = {lines}_id /\\ l_name l = "{name}"%string
  | None => False
  end.
Proof. vm_compute. repeat split. Qed.
''')
open("/verif/rocq/theories/Artifacts.v", "w").write("\n".join(out))
