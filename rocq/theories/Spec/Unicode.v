(** * UTF-8 (RFC 3629): the bytes of a text *)
From Coq Require Import ZArith List.
Import ListNotations.
Open Scope Z_scope.

(** A Unicode scalar value: any code point but the surrogates. *)
Definition scalar (c : Z) : Prop := 0 <= c < 55296 \/ 57344 <= c < 1114112.
(** The bytes of one scalar value. *)
Definition utf8 (c : Z) : list Z :=
  if c <? 128 then [c]
  else if c <? 2048 then [192 + c / 64; 128 + c mod 64]
  else if c <? 65536 then [224 + c / 4096; 128 + c / 64 mod 64; 128 + c mod 64]
  else [240 + c / 262144; 128 + c / 4096 mod 64; 128 + c / 64 mod 64; 128 + c mod 64].
(** Bytes that are a text. *)
Definition unicode (l : list Z) : Prop := exists cs, Forall scalar cs /\ l = flat_map utf8 cs.
