(** Model of [VListBuilder] (include/tex/vbox.h:14-30, src/vbox.cpp:14-53) and
    [HListBuilder] (include/tex/hlist.h, src/hlist.cpp). *)
From Coq Require Import List ZArith Bool QArith.
From Verif.Base Require Import Num.
From Verif.Model Require Import Glue Box.
Import ListNotations.
Local Open Scope Z_scope.

Section Builders.
  Context {N : Num}.

  (** include/tex/vbox.h:14-23: the data members *)
  Record vbuilder := mkVB {
    vb_result : list (node N); vb_baselineskip : glue N; vb_lineskip : glue N;
    vb_lineskiplimit : N; vb_prevdepth : N }.

  (** src/vbox.cpp:14-19, vbox.h:20-21 *)
  Definition vbuilder_new (bs ls : glue N) : vbuilder := mkVB [] bs ls n0 (nz (-10000)).

  (** src/vbox.cpp:21-45 [VListBuilder::push_back]; [m] are the metrics of the
      box [box]. [lineskiplimit] is passed but not used by the code. *)
  Definition vb_push_box (b : vbuilder) (box : node N) (m : metrics N) : vbuilder :=
    let items :=
      if nleb (vb_prevdepth b) (nz (-10000)) then [box]
      else
        let bs := vb_baselineskip b in
        let g := nsub (nsub (g_space bs) (vb_prevdepth b)) (m_height m) in
        if nleb n0 g then
          [NGlue (glue_make g (g_shrink bs) (g_shrinkOrder bs) (g_stretch bs) (g_stretchOrder bs)); box]
        else [NGlue (vb_lineskip b); box] in
    mkVB (vb_result b ++ items) (vb_baselineskip b) (vb_lineskip b) (vb_lineskiplimit b) (m_depth m).

  (** src/vbox.cpp:47-53 [VListBuilder::push_back_node] *)
  Definition vb_push (b : vbuilder) (n : node N) : vbuilder :=
    match box_metrics n with
    | Some m => vb_push_box b n m
    | None =>
        mkVB (vb_result b ++ [n]) (vb_baselineskip b) (vb_lineskip b) (vb_lineskiplimit b) (vb_prevdepth b)
    end.

  (** The font metrics used by [HListBuilder] (hlist.cpp:28, 40-45) *)
  Record hmetrics := mkHM {
    hm_char : Z -> metrics N; hm_sfcode : Z -> Z;
    hm_space : N; hm_stretch : N; hm_shrink : N; hm_extra : N }.

  Record hbuilder := mkHB { hb_result : list (node N); hb_sf : Z }.

  (** include/tex/hlist.h:22-28 *)
  Definition hbuilder_new : hbuilder := mkHB [] 1000.

  (** src/hlist.cpp:24-37 [HListBuilder::push_back(Character)] *)
  Definition hb_push_char (fm : hmetrics) (b : hbuilder) (c : Z) : hbuilder :=
    let g := hm_sfcode fm c in
    let sf :=
      if negb (g =? 0) then
        let sf := if (hb_sf b <? 1000) && (1000 <? g) then 1000 else hb_sf b in
        let sf := g in
        sf
      else hb_sf b in
    mkHB (hb_result b ++ [NChar c (hm_char fm c)]) sf.

  (** src/hlist.cpp:58-66: [push_back(Glue)], [push_back(Kern)] *)
  Definition hb_push_glue (b : hbuilder) (g : glue N) : hbuilder :=
    mkHB (hb_result b ++ [NGlue g]) (hb_sf b).
  Definition hb_push_kern (b : hbuilder) (k : N) : hbuilder :=
    mkHB (hb_result b ++ [NKern k]) (hb_sf b).

  (** src/hlist.cpp:39-51 [push_back_interword_glue] *)
  Definition hb_push_space (fm : hmetrics) (b : hbuilder) : hbuilder :=
    let space := if (2000 <=? hb_sf b) then nadd (hm_space fm) (hm_extra fm) else hm_space fm in
    let stretch := nmul (hm_stretch fm) (ndiv (nz (hb_sf b)) (nz 1000)) in
    let shrink := nmul (hm_shrink fm) (ndiv (nz 1000) (nz (hb_sf b))) in
    hb_push_glue b (glue_make space shrink Normal stretch Normal).

  (** src/hlist.cpp:53-57 [push_back(Box)] *)
  Definition hb_push_box (b : hbuilder) (n : node N) : hbuilder :=
    mkHB (hb_result b ++ [n]) 1000.

  (** The public operations of [HListBuilder] *)
  Inductive hop : Type :=
  | HChar (c : Z) | HSpace | HBoxOp (m : metrics N) | HGlue (g : glue N) | HKern (k : N).

  Definition hb_op (fm : hmetrics) (b : hbuilder) (o : hop) : hbuilder :=
    match o with
    | HChar c => hb_push_char fm b c
    | HSpace => hb_push_space fm b
    | HBoxOp m => hb_push_box b (NBox m)
    | HGlue g => hb_push_glue b g
    | HKern k => hb_push_kern b k
    end.
End Builders.
Arguments vbuilder N : clear implicits.
Arguments hbuilder N : clear implicits.
Arguments hmetrics N : clear implicits.
Arguments hop N : clear implicits.
