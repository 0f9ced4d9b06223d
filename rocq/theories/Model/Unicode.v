(** Model of include/tex/unicode.h. Bytes are numbers 0..255. *)
From Coq Require Import List ZArith Bool.
From Verif.Base Require Import Result.
Import ListNotations.
Local Open Scope Z_scope.

(** include/tex/unicode.h:21-24 and 76-79: the lambda [shifted], a shift of the
    [unsigned char] value *)
Definition shifted (b n : Z) : Z := Z.shiftr b n.

(** include/tex/unicode.h:19-72 [read_utf8_char(begin, end, output)]: the text
    between [begin] and [end]; [Ok (Some r)] is [true] with [output] pointing at
    [r]; reading [*begin] of an empty range is undefined. *)
Definition validate_char (s : list Z) : result (option (list Z)) :=
  match s with
  | [] => UB
  | b0 :: r =>
      if shifted b0 7 =? 0 then Ok (Some r)
      else if shifted b0 5 =? 6 then
        match r with
        | b1 :: r1 => Ok (if shifted b1 6 =? 2 then Some r1 else None)
        | _ => Ok None
        end
      else if shifted b0 4 =? 14 then
        match r with
        | b1 :: b2 :: r2 =>
            Ok (if (shifted b1 6 =? 2) && (shifted b2 6 =? 2) then Some r2 else None)
        | _ => Ok None
        end
      else if shifted b0 3 =? 30 then
        match r with
        | b1 :: b2 :: b3 :: r3 =>
            Ok (if (shifted b1 6 =? 2) && (shifted b2 6 =? 2) && (shifted b3 6 =? 2)
                then Some r3 else None)
        | _ => Ok None
        end
      else Ok None
  end.

(** include/tex/unicode.h:119-123 [is_utf8_char] *)
Definition is_utf8_char (s : list Z) : result bool :=
  do o <- validate_char s ;
  Ok (match o with Some [] => true | _ => false end).

(** include/tex/unicode.h:125-138 [is_utf8_string]; the loop is run with fuel. *)
Fixpoint is_utf8_string_loop (fuel : nat) (s : list Z) : result bool :=
  match s with
  | [] => Ok true
  | _ =>
      match fuel with
      | O => Fuel
      | S n =>
          do o <- validate_char s ;
          match o with
          | Some r => is_utf8_string_loop n r
          | None => Ok false
          end
      end
  end.
Definition is_utf8_string (s : list Z) : result bool := is_utf8_string_loop (length s) s.

Section Decoder.
  (** Build parameters: are [assert]s compiled in, is plain [char] signed. *)
  Variables debug char_signed : bool.

  (** The value of a plain [char] holding byte [b]. *)
  Definition char_value (b : Z) : Z := if char_signed && (128 <=? b) then b - 256 else b.

  (** [assert(...)]: aborts in debug builds when false. *)
  Definition assert_ (b : bool) : result unit := if debug && negb b then Abort else Ok tt.

  (** One continuation byte: unicode.h:88-89, 95-98 ([assert(shifted(begin, 6) == 0x2)]). *)
  Definition cont (ret : Z) (s : list Z) : result (Z * list Z) :=
    match s with
    | [] => UB
    | b :: r =>
        do _ <- assert_ (shifted b 6 =? 2) ;
        Ok (Z.lor (Z.shiftl ret 6) (Z.land (char_value b) 63), r)
    end.

  (** One continuation byte in the four byte branch: unicode.h:104-109
      ([assert(( *begin >> 6) == 0x2)] on a plain [char]). *)
  Definition cont4 (ret : Z) (s : list Z) : result (Z * list Z) :=
    match s with
    | [] => UB
    | b :: r =>
        do _ <- assert_ (Z.shiftr (char_value b) 6 =? 2) ;
        Ok (Z.lor (Z.shiftl ret 6) (Z.land (char_value b) 63), r)
    end.

  (** include/tex/unicode.h:74-117 [read_utf8_char(begin)]: the character and
      the text after it. *)
  Definition decode_char (s : list Z) : result (Z * list Z) :=
    match s with
    | [] => UB
    | b0 :: r =>
        if shifted b0 7 =? 0 then Ok (char_value b0, r)
        else if shifted b0 5 =? 6 then cont (Z.land (char_value b0) 31) r
        else if shifted b0 4 =? 14 then
          do p1 <- cont (Z.land (char_value b0) 15) r ;
          cont (fst p1) (snd p1)
        else if shifted b0 3 =? 30 then
          do p1 <- cont4 (Z.land (char_value b0) 7) r ;
          do p2 <- cont4 (fst p1) (snd p1) ;
          cont4 (fst p2) (snd p2)
        else
          do _ <- assert_ false ; Ok (0, s)
    end.

  (** A client loop [while (it != end) out.push_back(read_utf8_char(it));], as in
      the tests and apps/page-editor; fuel bounds the number of iterations. *)
  Fixpoint decode_all (fuel : nat) (s : list Z) : result (list Z) :=
    match s with
    | [] => Ok []
    | _ =>
        match fuel with
        | O => Fuel
        | S n =>
            do p <- decode_char s ;
            do rest <- decode_all n (snd p) ;
            Ok (fst p :: rest)
        end
    end.
End Decoder.

(** Conversion of an [int] to [char], kept as the byte stored. *)
Definition to_byte (x : Z) : Z := Z.modulo x 256.

(** include/tex/unicode.h:140-184 [Utf8Char]: the five bytes of [m_chars]. *)
Definition utf8_chars (c : Z) : list Z :=
  if c <=? 127 then [to_byte c; 0; 0; 0; 3]
  else if c <=? 2047 then
    [to_byte (Z.lor (Z.shiftl 3 6) (Z.land (Z.shiftr c 6) 63));
     to_byte (Z.lor (Z.shiftl 1 7) (Z.land c 63)); 0; 0; 2]
  else if c <=? 65535 then
    [to_byte (Z.lor (Z.shiftl 7 5) (Z.land (Z.shiftr c 12) 63));
     to_byte (Z.lor (Z.shiftl 1 7) (Z.land (Z.shiftr c 6) 63));
     to_byte (Z.lor (Z.shiftl 1 7) (Z.land c 63)); 0; 1]
  else
    [to_byte (Z.lor (Z.shiftl 15 4) (Z.land (Z.shiftr c 18) 63));
     to_byte (Z.lor (Z.shiftl 1 7) (Z.land (Z.shiftr c 12) 63));
     to_byte (Z.lor (Z.shiftl 1 7) (Z.land (Z.shiftr c 6) 63));
     to_byte (Z.lor (Z.shiftl 1 7) (Z.land c 63)); 0].

(** unicode.h:183 [size()] *)
Definition utf8_size (m : list Z) : Z := 4 - nth 4 m 0.

(** [std::string(data())]: the bytes before the first NUL. *)
Fixpoint cstring (m : list Z) : list Z :=
  match m with
  | [] => []
  | b :: r => if b =? 0 then [] else b :: cstring r
  end.
