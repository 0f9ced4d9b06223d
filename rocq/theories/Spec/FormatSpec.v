(** The categories of characters in a format. *)
From Coq Require Import List Ascii.
From Verif.Model Require Import Token Lexer.

(** In a format '@' is a letter; the other characters have their default category. *)
Definition format_cat (c : ascii) : cat :=
  if ascii_dec c "@"%char then Letter else DefaultCatCodes c.
