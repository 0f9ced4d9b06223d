(** What an editor session should leave behind, and plain TeX's category codes. *)
From Coq Require Import List Ascii ZArith Bool Arith.
From Verif.Base Require Import Result Num.
From Verif.Model Require Import Token Glue Box.
Import ListNotations.

(** The list after a session: the last one put in *)
Definition hlist_after {N : Num} (l : list (node N)) (es : list (edit N)) : list (node N) :=
  fold_left (fun l e => match e with EList l' => l' | _ => l end) es l.
Definition vlist_after {N : Num} (l : list (node N)) (es : list (vedit_op N)) : list (node N) :=
  fold_left (fun l e => match e with VEList l' => l' | _ => l end) es l.

Definition only_lists {N : Num} (e : edit N) : Prop := match e with EList _ => True | _ => False end.
Definition vonly_lists {N : Num} (e : vedit_op N) : Prop := match e with VEList _ => True | _ => False end.
(** neither a rebox nor [done] *)
Definition no_request {N : Num} (e : vedit_op N) : Prop :=
  match e with VEList _ | VEHeight _ => True | _ => False end.
(** no rebox *)
Definition no_rebox {N : Num} (e : vedit_op N) : Prop :=
  match e with VEList _ | VEHeight _ | VEDone => True | _ => False end.
(** the last height asked for *)
Definition height_after {N : Num} (h : N) (es : list (vedit_op N)) : N :=
  fold_left (fun h e => match e with VEHeight h' => h' | _ => h end) es h.

(** the box a rebox asks for *)
Definition requested {N : Num} (e : vedit_op N) (l : list (node N)) : result (lbox N) :=
  match e with
  | VERebox => Ok (vbox l) | VEReboxTo h => Ok (vbox_to l h)
  | VEVtop => vtop l | VEVtopTo h => vtop_to l h
  | _ => Throw
  end.

(** The category codes of plain TeX for the printable characters, the tab and
    the line ends, by character *)
Definition letter (c : ascii) : Prop :=
  (65 <= nat_of_ascii c <= 90)%nat \/ (97 <= nat_of_ascii c <= 122)%nat.
Definition special : list (ascii * cat) :=
  [ ("\"%char, Escape); ("{"%char, GroupBegin); ("}"%char, GroupEnd); ("$"%char, MathShift);
    ("&"%char, AlignmentTab); (ascii_of_nat 13, EndOfLine); (ascii_of_nat 10, EndOfLine);
    ("#"%char, ParamChar); ("^"%char, Superscript); ("_"%char, Subscript);
    (" "%char, Space); (ascii_of_nat 9, Space); ("~"%char, Active); (ascii_of_nat 12, Active);
    ("%"%char, Comment) ].
