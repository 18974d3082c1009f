#!/usr/bin/env python3
"""Write rocq/theories/ArtifactsSty.v: the source text of the shipped libraries without mnemonics."""
import re
out = ['''(** Test of the model: the source text of the shipped libraries (generated by tools/sty.py from stl/*.sty, without
    the comment at the beginning and without mnemonics). *)
From Coq Require Import NArith List Bool String Ascii Strings.Byte.
From Verif Require Import Base Ty Ids LibCodec Ston Sty Compile Artifacts ArtifactsBuild.
Import ListNotations.
Local Open Scope string_scope.
Local Open Scope N_scope.
''']
for name, const in (('Std', 'std'), ('StrictTypes', 'strict_types')):
    t = open(f'/repo/stl/{name}@0.1.0.sty').read()
    t = t.split('-}\n\n', 1)[1]
    assert t.endswith('\n\n\n')
    t = re.sub(r'@mnemonic\([\w-]+\)', '@mnemonic()', t)
    t = re.sub(r'^(import |  use )(\w+)#[\w-]+$', r'\1\2#', t, flags=re.M)
    assert '"' not in t
    out.append(f'(** stl/{name}@0.1.0.sty. *)\nDefinition {const}_text : list string := [')
    out.append(';\n'.join(f'  "{l}"' for l in t.split('\n')[:-1]))
    out.append('].\n')
out.append('''(** The text of the symbolic form of the libraries, with mnemonics left out, is the text of the files. *)
Goal
  match shipped with
  | [a; b] =>
      match to_symbolic a, to_symbolic b with
      | Ok s, Ok s' =>
          let text := fun s => (sty_lib prim_sty sizing_sty (fun _ => []) s ++ [x0a])%list in
          text s = flat_map (fun l => sbytes l ++ [x0a])%list std_text
          /\\ text s' = flat_map (fun l => sbytes l ++ [x0a])%list strict_types_text
      | _, _ => False
      end
  | _ => False
  end.
Proof. vm_compute. split; reflexivity. Abort.''')
open('/verif/rocq/theories/ArtifactsSty.v', 'w').write('\n'.join(out) + '\n')
