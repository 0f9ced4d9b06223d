(** Model of include/tex/token.h (values only; lifetimes are in TokenUnion.v). *)
From Coq Require Import List Ascii String ZArith Bool.
Import ListNotations.

(** include/tex/token.h:20-37 [enum class CharCategory] *)
Inductive cat : Set :=
| Escape | GroupBegin | GroupEnd | MathShift | AlignmentTab | EndOfLine
| ParamChar | Superscript | Subscript | Ignored | Space | Letter | Other
| Active | Comment | Invalid.

(** include/tex/token.h:20-37: the numeric values of the enumerators *)
Definition cat_id (c : cat) : nat :=
  match c with
  | Escape => 0 | GroupBegin => 1 | GroupEnd => 2 | MathShift => 3
  | AlignmentTab => 4 | EndOfLine => 5 | ParamChar => 6 | Superscript => 7
  | Subscript => 8 | Ignored => 9 | Space => 10 | Letter => 11 | Other => 12
  | Active => 13 | Comment => 14 | Invalid => 15
  end.

(** enum comparison, used throughout *)
Definition cat_eqb (a b : cat) : bool := Nat.eqb (cat_id a) (cat_id b).

(** A control sequence name is a [std::string], i.e. a list of [char]s. *)
Definition name := list ascii.

(** include/tex/token.h:61-108 [class Token]: one of a character token
    (token.h:45-49), a control sequence, a parameter number ([int], as [Z]). *)
Inductive token : Set :=
| TChar (c : ascii) (k : cat)
| TCs (n : name)
| TParam (n : Z).

(** [std::string] equality *)
Fixpoint name_eqb (a b : name) : bool :=
  match a, b with
  | [], [] => true
  | x :: a', y :: b' => Ascii.eqb x y && name_eqb a' b'
  | _, _ => false
  end.

(** include/tex/token.h:51-54, 347-353 [operator==] *)
Definition token_eqb (a b : token) : bool :=
  match a, b with
  | TChar c k, TChar c' k' => Ascii.eqb c c' && cat_eqb k k'
  | TCs n, TCs n' => name_eqb n n'
  | TParam n, TParam n' => Z.eqb n n'
  | _, _ => false
  end.

(** include/tex/token.h:94-97 *)
Definition isCharacterToken (t : token) : bool :=
  match t with TChar _ _ => true | _ => false end.
Definition isControlSequence (t : token) : bool :=
  match t with TCs _ => true | _ => false end.
Definition isParameterToken (t : token) : bool :=
  match t with TParam _ => true | _ => false end.

(** include/tex/token.h:337-340 [Token::operator==(CharCategory)] *)
Definition token_is (t : token) (k : cat) : bool :=
  match t with TChar _ k' => cat_eqb k' k | _ => false end.

(** string literals of the C++ source *)
Definition str (s : string) : name := list_ascii_of_string s.
