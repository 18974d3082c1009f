(** Specification of Unicode text: UTF-8 by its definition (RFC 3629), independent of the check in the
    model. *)
From Coq Require Import NArith List String Strings.Byte.
From Verif Require Import Base.
Import ListNotations.
Local Open Scope N_scope.

(** Unicode scalar values: code points without surrogates. *)
Definition scalar (c : N) : Prop := c < 0xD800 \/ 0xE000 <= c <= 0x10FFFF.

(** The bytes of a code point, six bits in each byte after the first. *)
Definition utf8 (c : N) : list N :=
  if c <? 0x80 then [c]
  else if c <? 0x800 then [0xC0 + c / 64; 0x80 + c mod 64]
  else if c <? 0x10000 then [0xE0 + c / 4096; 0x80 + (c / 64) mod 64; 0x80 + c mod 64]
  else [0xF0 + c / 262144; 0x80 + (c / 4096) mod 64; 0x80 + (c / 64) mod 64; 0x80 + c mod 64].

(** Bytes which are a text of scalar values. *)
Definition text_of (cs : list N) (b : bytes) : Prop := map Byte.to_N b = flat_map utf8 cs.
Definition is_text (b : bytes) : Prop := exists cs, Forall scalar cs /\ text_of cs b.
