(** Model of the engine of the page editor as the machine sees it: the table of
    fonts, which grows with each [loadFont] (apps/common/qt-typeset-engine.cpp:76-104,
    144-170, 266-289; apps/page-editor/typesetting-machine.cpp:83-91). How a
    letter of an entry of the table looks is a parameter, and so are the own fonts
    of the engine (117-141); the metrics of an entry that is not there are those of
    any other. *)
From Coq Require Import List ZArith Bool.
From Verif.Base Require Import Result Num.
From Verif.Model Require Import Token Box ListBuilders Tfm FontLoad PageEditor.
Import ListNotations.

Section Engine.
  Context {N : Num}.
  Variables (to_float : name -> option N) (to_int : N -> option Z) (line_height : qfont -> N) (mag : N) (any : fontdimen N).
  (** what an entry gives *)
  Record looks := mkLooks { lk_font : entry N -> hmetrics N; lk_paren : entry N -> metrics N;
                            lk_quad : entry N -> N; lk_xheight : entry N -> N }.
  Variables (Q : looks) (first : entry N) (own : list (entry N)) (W : host N).
  (** [m_fonts] after the fonts [l]; a font that cannot be loaded is not there *)
  Definition engine_table (l : list (name * name)) : list (entry N) :=
    fold_left (fun t p => match loadFont to_float to_int line_height mag any t (fst p) (snd p) with Ok x => fst x | _ => t end)
      l (first :: own).
  Definition font_at (tbl : list (name * name)) (x : Z) : entry N := nth (Z.to_nat x) (engine_table tbl) first.
  (** the engine when [tbl] are all the fonts that it ever loads *)
  Definition engine_host (tbl : list (name * name)) : host N :=
    mkHost (fun x => lk_font Q (font_at tbl x)) (fun x => lk_paren Q (font_at tbl x)) (fun x => lk_quad Q (font_at tbl x))
      (fun x => lk_xheight Q (font_at tbl x)) (k_math W)
      (fun l n sp => rmap snd (loadFont to_float to_int line_height mag any (engine_table l) n sp))
      (k_pows W) (k_range W) (k_debug W) (k_signed W) (k_fuel W).
End Engine.
Arguments looks N : clear implicits.
