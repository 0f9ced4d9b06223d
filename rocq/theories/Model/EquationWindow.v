(** Model of the main window of the equation editor: the text, the buttons above
    it and the formula shown (apps/equation-editor/mainwindow.cpp:50-109, 166-188
    and 221-294, suggestionbar.cpp). Not modelled: the report of the times, and
    the table of font parameters, which is in Model/FontUsage.v. *)
From Coq Require Import List Ascii String Bool Arith.
From Verif.Base Require Import Result Num.
From Verif.Model Require Import Token Lexer Box MathList MathParser MathTypeset MathFrontend.
Import ListNotations.

(** A button of the bar: the text it inserts, and whether it is to be deleted
    ([deleteLater]) when the handling of the event is over. The title of the
    button is not modelled. *)
Record button := mkButton { b_content : list ascii; b_dying : bool }.
Record window (N : Num) := mkWindow {
  w_text : list ascii;             (* m_textedit->toPlainText().toStdString() *)
  w_bar : list button;             (* the widgets of the layout of m_suggestionbar *)
  w_empty : bool;                  (* its property "empty_suggestions" *)
  w_shown : option (lbox N) }.     (* the box of m_renderwidget *)
Arguments mkWindow {N}. Arguments w_text {N}. Arguments w_bar {N}. Arguments w_empty {N}. Arguments w_shown {N}.

(** suggestionbar.cpp:20-30 [addSuggestion]: the button is put before the
    stretch, which is the last item of the layout *)
Definition addSuggestion (s : string) (l : list button) : list button :=
  l ++ [mkButton (list_ascii_of_string s) false].
(** suggestionbar.cpp:37-46 [clear] *)
Definition clear_bar (l : list button) : list button := map (fun b => mkButton (b_content b) true) l.
(** what happens to the buttons when the handling of an event is over *)
Definition settle (l : list button) : list button := filter (fun b => negb (b_dying b)) l.

Definition is_nil {A} (l : list A) : bool := match l with [] => true | _ => false end.

Section Window.
  Context {N : Num}.
  Variable char_signed : bool.
  Variable E : engine N.
  Variable fuel : nat.

  (** mainwindow.cpp:86-109 [fillSuggestionBar] *)
  Definition fillSuggestionBar (w : window N) : window N :=
    let text_empty := is_nil (w_text w) in
    if Bool.eqb text_empty (w_empty w) then w
    else
      let bar := clear_bar (w_bar w) in
      let bar :=
        if text_empty then
          addSuggestion "A + \left( \matrix{a & b \cr c & d} \right)"
            (addSuggestion "\sqrt{2} + \sqrt{\frac{1}{2}}" (addSuggestion "ax^2+bx+c" bar))
        else addSuggestion "\cap " (addSuggestion "\times " bar) in
      mkWindow (w_text w) bar text_empty (w_shown w).
  (** mainwindow.cpp:50-79: a property that was never set is false *)
  Definition window_init : window N := fillSuggestionBar (mkWindow [] [] false None).

  (** mainwindow.cpp:176-188 [onTextChanged], when the text has become [text]:
      the exceptions of the lexer and of the parser are [std::runtime_error]s;
      [setBox] comes after all that may fail in [processText] *)
  Definition onTextChanged (w : window N) (text : list ascii) : result (window N) :=
    let w := fillSuggestionBar (mkWindow text (w_bar w) (w_empty w) (w_shown w)) in
    match equation char_signed E fuel text with
    | Ok b => Ok (mkWindow (w_text w) (w_bar w) (w_empty w) (Some b))
    | Throw => Ok w
    | UB => UB | Abort => Abort | Fuel => Fuel
    end.

  (** What the user does: one or more changes of the text, and then the return
      to the event loop. [Click i a b]: the button [i] when the characters from
      [a] to [b] are selected (mainwindow.cpp:171-174; [a = b]: the place of the
      cursor). Positions are those of bytes: for a text in ASCII they are Qt's. *)
  Inductive event := Edit (texts : list (list ascii)) | Click (i a b : nat).
  Definition after (r : result (window N)) : result (window N) :=
    do w <- r; Ok (mkWindow (w_text w) (settle (w_bar w)) (w_empty w) (w_shown w)).
  Definition handle (w : window N) (e : event) : result (window N) :=
    match e with
    | Edit texts => after (foldM onTextChanged texts w)
    | Click i a b =>
        match nth_error (w_bar w) i with
        | None => Ok w
        | Some s => after (onTextChanged w (firstn a (w_text w) ++ b_content s ++ skipn b (w_text w)))
        end
    end.
End Window.
