(** What the main window of the equation editor shows. *)
From Coq Require Import List Ascii String Bool.
From Verif.Base Require Import Result Num.
From Verif.Model Require Import Box EquationWindow.
Import ListNotations.

(** the offers when there is no text, and when there is some *)
Definition templates : list string :=
  ["ax^2+bx+c"; "\sqrt{2} + \sqrt{\frac{1}{2}}"; "A + \left( \matrix{a & b \cr c & d} \right)"]%string.
Definition operators : list string := ["\times "; "\cap "]%string.
Definition offers (text : list ascii) : list (list ascii) :=
  map list_ascii_of_string (match text with [] => templates | _ :: _ => operators end).

(** the last of the formulas that a function finds in a list of texts *)
Section Latest.
  Context {A : Type}.
  Variable f : list ascii -> result A.
  Fixpoint latest (texts : list (list ascii)) (d : option A) : option A :=
    match texts with
    | [] => d
    | t :: r => latest r (match f t with Ok x => Some x | _ => d end)
    end.
  (** each text has a formula, or an error is reported *)
  Definition handled (texts : list (list ascii)) : Prop :=
    Forall (fun t => match f t with Ok _ | Throw => True | _ => False end) texts.
  (** the first text that is neither ends it all, in its own way *)
  Definition dies {A} (r : result A) (texts : list (list ascii)) : Prop :=
    exists a t b, texts = a ++ t :: b /\ handled a /\
      match r with UB => f t = UB | Abort => f t = Abort | Fuel => f t = Fuel | _ => False end.
End Latest.

(** the texts of a session that starts with [text]: those typed, and those made by a
    button that puts its offer in the place of the selection *)
Fixpoint session (text : list ascii) (es : list event) : list (list ascii) :=
  match es with
  | [] => []
  | e :: r =>
      let ts := match e with
                | Edit texts => texts
                | Click i a b =>
                    match nth_error (offers text) i with
                    | None => []
                    | Some s => [firstn a text ++ s ++ skipn b text]
                    end
                end in
      ts ++ session (last ts text) r
  end.
(** the texts while one is typed from left to right *)
Fixpoint keystrokes (text : list ascii) : list (list ascii) :=
  match text with [] => [] | c :: r => [c] :: map (cons c) (keystrokes r) end.
