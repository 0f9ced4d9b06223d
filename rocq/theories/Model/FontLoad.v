(** Model of [TypesetEngine::loadFont] (apps/common/qt-typeset-engine.cpp), which
    makes a font of a specification such as [Times,bold,12]. The text is one of
    bytes: the comma is not part of any other character of UTF-8. *)
From Coq Require Import List ZArith Bool QArith Ascii String.
From Verif.Base Require Import Result Num.
From Verif.Model Require Import Token Box Tfm.
Import ListNotations.

(** [QString::split(",", QString::SkipEmptyParts)] *)
Fixpoint split_commas (cur : name) (t : name) : list name :=
  let out := match cur with [] => [] | _ => [rev cur] end in
  match t with
  | [] => out
  | c :: r => if Ascii.eqb c ","%char then out ++ split_commas [] r else split_commas (c :: cur) r
  end.

(** What is set in a [QFont]; a new one has the size of the application *)
Inductive qstyle : Set := StyleNormal | StyleItalic | StyleOblique.
Inductive qsize : Set := DefaultSize | Pixels (z : Z).
Record qfont := mkQFont { q_family : name; q_bold : bool; q_style : qstyle; q_size : qsize }.
(** [QFont::setPixelSize] refuses what is not positive *)
Definition setPixelSize (f : qfont) (z : Z) : qfont :=
  if (z <=? 0)%Z then f else mkQFont (q_family f) (q_bold f) (q_style f) (Pixels z).

Section FontLoad.
  Context {N : Num}.
  (** [QString::toFloat]; [None] if the text is no number *)
  Variable to_float : name -> option N.
  (** [int] of a [float]; [None] if it is out of range, which is undefined *)
  Variable to_int : N -> option Z.
  (** [QFontMetrics::height] *)
  Variable line_height : qfont -> N.
  (** [m_mag] *)
  Variable mag : N.

  (** qt-typeset-engine.cpp:150-166: the body of the loop *)
  Definition font_option (f : qfont) (o : name) : result qfont :=
    if name_eqb o (str "bold") then Ok (mkQFont (q_family f) true (q_style f) (q_size f))
    else if name_eqb o (str "italic") then Ok (mkQFont (q_family f) (q_bold f) StyleItalic (q_size f))
    else if name_eqb o (str "slanted") then Ok (mkQFont (q_family f) (q_bold f) StyleOblique (q_size f))
    else
      match to_float o with
      | None => Ok f
      | Some x => match to_int (nmul x mag) with Some z => Ok (setPixelSize f z) | None => UB end
      end.
  (** qt-typeset-engine.cpp:146-166; [front] of an empty list is undefined *)
  Definition font_of (spec : name) : result qfont :=
    match split_commas [] spec with
    | [] => UB
    | fam :: opts => foldM font_option opts (mkQFont fam false StyleNormal DefaultSize)
    end.

  (** qt-typeset-engine.h: an entry of the table of fonts *)
  Record entry := mkEntry { f_name : name; f_font : qfont; f_dimen : fontdimen N }.
  (** qt-typeset-engine.cpp:144-170 [loadFont] with :274-289 [initFont]: the
      table and the id; [any] as for [zerofontdimen] *)
  Definition loadFont (any : fontdimen N) (fonts : list entry) (n spec : name) : result (list entry * Z) :=
    do f <- font_of spec;
    Ok (fonts ++ [mkEntry n f (t_dimen (to_absolute (mkTfm (line_height f) (t_dimen (cmr10_tfm any)))))],
        Z.of_nat (List.length fonts)).
End FontLoad.
Arguments entry N : clear implicits.
