(** UTF-8 properties: C06 - C08. *)
From Coq Require Import List ZArith Lia.
From Verif.Base Require Import Result.
From Verif.Model Require Import Unicode.
From Verif.Spec Require Import UnicodeSpec.
From Verif.Proofs Require Import UnicodeProofs.
Import ListNotations.
Local Open Scope Z_scope.

(** C06, encoding: [Utf8Char(c)] holds the bytes of [c], a NUL, and the size. *)
Theorem C06_encode :
  forall c, 0 <= c <= 2097151 ->
    exists s, utf8 c s /\
      utf8_size (utf8_chars c) = Z.of_nat (length s) /\
      firstn (length s) (utf8_chars c) = s /\
      nth (length s) (utf8_chars c) 1 = 0 /\
      utf8_chars c = s ++ repeat 0 (4 - length s) ++ [4 - Z.of_nat (length s)] /\
      (0 < c -> cstring (utf8_chars c) = s).
Proof. exact encode_lemma. Qed.

(** The bytes of a code point are unique. *)
Theorem C06_unique : forall c s s', utf8 c s -> utf8 c s' -> s = s'.
Proof. exact utf8_det. Qed.

(** C06, decoding, unless both asserts are enabled and plain [char] is signed.
    What is missing is false: see [C06_decode_refuted]. *)
Theorem C06_decode_partial :
  forall debug char_signed c s r,
    (debug = false \/ char_signed = false \/ c < 65536) ->
    utf8 c s -> decode_char debug char_signed (s ++ r) = Ok (c, r).
Proof.
  exact (fun d sg c s r H U =>
    decode_shape d sg s c r
      (match H with
       | or_introl h => or_introl h
       | or_intror (or_introl h) => or_intror (or_introl h)
       | or_intror (or_intror h) => or_intror (or_intror (utf8_short c s U h))
       end) (utf8_is_shape c s U)).
Qed.

(** C06 is false in debug builds with signed [char] (the usual x86 ABI):
    decoding any four byte character fails an assert. *)
Theorem C06_decode_refuted :
  forall c s r, utf8 c s -> 65536 <= c -> decode_char true true (s ++ r) = Abort.
Proof. exact decode_four_aborts_utf8. Qed.

Example C06_case :
  utf8 8364 [226; 130; 172] /\ utf8 128512 [240; 159; 152; 128] /\
  firstn 3 (utf8_chars 8364) = [226; 130; 172] /\
  decode_char true true [226; 130; 172; 65] = Ok (8364, [65]) /\
  decode_char false true [240; 159; 152; 128] = Ok (128512, []) /\
  decode_char true true [240; 159; 152; 128] = Abort.
Proof.
  split; [apply (utf8_3 2 2 44); lia|]. split; [apply (utf8_4 0 31 24 0); lia|].
  repeat split; vm_compute; reflexivity.
Qed.

(** C07, what [is_utf8_char] accepts, exactly: the encodings of scalar values,
    and three kinds of ill-formed strings. *)
Theorem C07_validator_partial :
  forall s, bytes s ->
    (is_utf8_char s = Ok true <->
     exists c, utf8_shape s c /\
       ((scalar_value c /\ utf8 c s) \/ overlong s c \/
        (surrogate c /\ utf8 c s) \/ (1114111 < c /\ utf8 c s))).
Proof. exact validator_characterised. Qed.

(** C07, the half that holds: every scalar value is accepted. *)
Theorem C07_validator_complete : forall c s, utf8 c s -> is_utf8_char s = Ok true.
Proof. exact validator_complete. Qed.

(** C07 is false: an overlong form, a surrogate and a number above U+10FFFF are
    accepted, and the empty string has undefined behaviour. *)
Theorem C07_validator_refuted :
  is_utf8_char [192; 128] = Ok true /\ is_utf8_char [237; 160; 128] = Ok true /\
  is_utf8_char [247; 191; 191; 191] = Ok true /\ is_utf8_char [] = UB /\
  (forall c, scalar_value c -> ~ utf8 c [192; 128]) /\
  (forall c, scalar_value c -> ~ utf8 c [237; 160; 128]) /\
  (forall c, scalar_value c -> ~ utf8 c [247; 191; 191; 191]).
Proof. exact validator_refuted_lemma. Qed.

(** C07 for whole strings: [is_utf8_string] always answers, and accepts exactly
    the concatenations of strings accepted by [is_utf8_char]. *)
Theorem C07_string :
  forall s, bytes s ->
    exists b, is_utf8_string s = Ok b /\
      (b = true <-> exists ps, s = concat ps /\ Forall (fun p => is_utf8_char p = Ok true) ps).
Proof. exact is_utf8_string_spec. Qed.

Example C07_case :
  bytes [226; 130; 172; 65] /\ is_utf8_string [226; 130; 172; 65] = Ok true /\
  is_utf8_string [226; 130; 65] = Ok false /\ is_utf8_string [] = Ok true.
Proof. split; [repeat constructor; lia|]. repeat split; vm_compute; reflexivity. Qed.

(** C08. Decoding the concatenation of encodings gives the code points back. *)
Theorem C08_decode_all_partial :
  forall debug char_signed cs ss fuel,
    (debug = false \/ char_signed = false \/ Forall (fun c => c < 65536) cs) ->
    Forall2 utf8 cs ss -> (length (concat ss) <= fuel)%nat ->
    decode_all debug char_signed fuel (concat ss) = Ok cs.
Proof. exact decode_all_utf8. Qed.

(** C08, progress: a character read consumes at least one byte, except that a
    byte that starts no character returns 0 and consumes nothing. *)
Theorem C08_progress :
  forall char_signed s c r, decode_char false char_signed s = Ok (c, r) ->
    (length r < length s)%nat \/ (r = s /\ c = 0).
Proof. exact decode_progress. Qed.

(** The second case happens, so a loop over ill-formed text need not end. *)
Theorem C08_progress_refuted :
  forall char_signed fuel r, decode_all false char_signed fuel (128 :: r) = Fuel.
Proof. exact decode_all_stuck. Qed.

Example C08_case :
  Forall2 utf8 [72; 233; 8364] [[72]; [195; 169]; [226; 130; 172]] /\
  decode_all true true 6 [72; 195; 169; 226; 130; 172] = Ok [72; 233; 8364].
Proof.
  split; [|vm_compute; reflexivity].
  apply Forall2_cons; [apply utf8_1; lia|]. apply Forall2_cons; [apply (utf8_2 3 41); lia|].
  apply Forall2_cons; [apply (utf8_3 2 2 44); lia|]. apply Forall2_nil.
Qed.

Print Assumptions C06_encode.
Print Assumptions C06_unique.
Print Assumptions C06_decode_partial.
Print Assumptions C06_decode_refuted.
Print Assumptions C07_validator_partial.
Print Assumptions C07_validator_complete.
Print Assumptions C07_validator_refuted.
Print Assumptions C07_string.
Print Assumptions C08_decode_all_partial.
Print Assumptions C08_progress.
Print Assumptions C08_progress_refuted.
