(** UTF-8 as in RFC 3629, table 3-6 of the Unicode standard, by arithmetic. *)
From Coq Require Import List ZArith.
Import ListNotations.
Local Open Scope Z_scope.

(** The encoding of a code point below 2^21. *)
Inductive utf8 : Z -> list Z -> Prop :=
| utf8_1 c : 0 <= c < 128 -> utf8 c [c]
| utf8_2 a b : 2 <= a < 32 -> 0 <= b < 64 ->
    utf8 (64 * a + b) [192 + a; 128 + b]
| utf8_3 a b c : 0 <= a < 16 -> 0 <= b < 64 -> 0 <= c < 64 ->
    2048 <= 4096 * a + 64 * b + c ->
    utf8 (4096 * a + 64 * b + c) [224 + a; 128 + b; 128 + c]
| utf8_4 a b c d : 0 <= a < 8 -> 0 <= b < 64 -> 0 <= c < 64 -> 0 <= d < 64 ->
    65536 <= 262144 * a + 4096 * b + 64 * c + d ->
    utf8 (262144 * a + 4096 * b + 64 * c + d) [240 + a; 128 + b; 128 + c; 128 + d].

Definition surrogate (c : Z) : Prop := 55296 <= c < 57344.
Definition scalar_value (c : Z) : Prop := 0 <= c <= 1114111 /\ ~ surrogate c.

(** Byte strings made of a lead byte and the right number of continuation
    bytes, with the number they spell; shortest form is not required. *)
Inductive utf8_shape : list Z -> Z -> Prop :=
| shape_1 c : 0 <= c < 128 -> utf8_shape [c] c
| shape_2 a b : 0 <= a < 32 -> 0 <= b < 64 -> utf8_shape [192 + a; 128 + b] (64 * a + b)
| shape_3 a b c : 0 <= a < 16 -> 0 <= b < 64 -> 0 <= c < 64 ->
    utf8_shape [224 + a; 128 + b; 128 + c] (4096 * a + 64 * b + c)
| shape_4 a b c d : 0 <= a < 8 -> 0 <= b < 64 -> 0 <= c < 64 -> 0 <= d < 64 ->
    utf8_shape [240 + a; 128 + b; 128 + c; 128 + d] (262144 * a + 4096 * b + 64 * c + d).

(** A longer spelling than needed. *)
Definition overlong (s : list Z) (c : Z) : Prop :=
  exists s', utf8 c s' /\ (length s' < length s)%nat.

Definition bytes (s : list Z) : Prop := Forall (fun b => 0 <= b < 256) s.
