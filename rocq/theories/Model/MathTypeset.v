(** Model of class MathTypesetter: include/tex/math/math-typeset.h and
    src/math/math-typeset.cpp. *)
From Coq Require Import List ZArith Bool Arith QArith.
From Verif.Base Require Import Result Num.
From Verif.Model Require Import Glue Box ListBuilders MathList.
Import ListNotations.
Local Open Scope nat_scope.

(** include/tex/math/atom.h:39-44 *)
Inductive limits : Set := NoLimits | Limits | DisplayLimits.
(** include/tex/glue.h:23-28 *)
Inductive gorigin : Set := OrNormal | OrMskip | OrNonscript.
(** The three fonts of a family: math-typeset.h:26-31 [MathFont] *)
Inductive fsize : Set := TextFont | ScriptFont | SSFont.

(** include/tex/math/atom.h:21-95 [Atom]; an accent that is not a [MathSymbol]
    counts as none (math-typeset.cpp:666 casts it) *)
Record atom (F : Type) := mkAtom {
  a_ty : Z; a_nuc : option F; a_sub : option F; a_sup : option F;
  a_acc : option sym; a_lim : limits }.
Arguments mkAtom {F}. Arguments a_ty {F}. Arguments a_nuc {F}. Arguments a_sub {F}.
Arguments a_sup {F}. Arguments a_acc {F}. Arguments a_lim {F}.

Section Typeset.
  Context {N : Num}.

  (** The nodes of a math list, and the fields of atoms. [MNode] is any other
      node; [FOther] any node that [boxit] refuses. As in Model/Box.v nodes are
      values: an atom, list or box is held by one owner only. What the code
      changes inside the list it is given (atoms are shared with the caller) is
      returned as a second result. *)
  Inductive mnode : Type :=
  | MAtom (a : atom mfield)
  | MBoundary (s : option sym)
  | MFrac (n d : list mnode)
  | MRoot (deg rad : list mnode)
  | MMatrix (cells : list (list mnode)) (cols : nat)
  | MStyle (s : style)
  | MGlue (o : gorigin) (g : glue N)
  | MNode (n : node N)
  with mfield : Type :=
  | FSym (s : sym)
  | FBox (n : node N)
  | FList (l : list mnode)
  | FOther.

  Definition natom : Type := atom mfield.
  (** atom.cpp:29-46 *)
  Definition changeType (t : Z) (a : natom) : natom :=
    mkAtom t (a_nuc a) (a_sub a) (a_sup a) (a_acc a) (a_lim a).
  Definition changeNucleus (n : node N) (a : natom) : natom :=
    mkAtom (a_ty a) (Some (FBox n)) (a_sub a) (a_sup a) (a_acc a) (a_lim a).
  Definition setSubSup (sb sp : option mfield) (a : natom) : natom :=
    mkAtom (a_ty a) (a_nuc a) sb sp (a_acc a) (a_lim a).
  (** atom.h:56-72 [Atom::create] with a nucleus only *)
  Definition create (t : Z) (n : node N) : natom := mkAtom t (Some (FBox n)) None None None NoLimits.

  (** include/tex/fontmetrics.h: the font dimensions that are used *)
  Record fparams := mkFP {
    f_xHeight : N; f_quad : N; f_num1 : N; f_num2 : N; f_denom1 : N; f_denom2 : N;
    f_sup1 : N; f_sup2 : N; f_sup3 : N; f_sub1 : N; f_sub2 : N; f_supDrop : N; f_subDrop : N;
    f_axis : N; f_rule : N; f_big1 : N; f_big2 : N; f_big3 : N; f_big4 : N; f_big5 : N }.

  (** include/tex/typeset.h:20-36 [TypesetEngine] and its metrics, for the
      fonts given to [setFonts]: a font is a family and a size. The boxes are
      new ones at each call. *)
  Record engine := mkEngine {
    e_params : Z -> fsize -> fparams;
    e_metrics : sym -> Z -> fsize -> metrics N;
    e_italic : sym -> Z -> fsize -> N;
    e_typeset : sym -> Z -> fsize -> node N;
    e_delimiter : sym -> N -> node N;
    e_radical : N -> node N;
    e_largeop : sym -> node N }.
  Variable E : engine.

  (** math-typeset.h:38-40 *)
  Record penalties := mkPen { pen_rel : Z; pen_bin : Z; pen_on : bool }.
  Definition default_penalties : penalties := mkPen 500 700 true.

  (** The dimensions of a box ([Box::metrics]); zero for other nodes, which do
      not occur where it is used *)
  Definition bm (n : node N) : metrics N :=
    match box_metrics n with Some m => m | None => mkMetrics n0 n0 n0 end.
  Definition nw (n : node N) : N := m_width (bm n).
  Definition nh (n : node N) : N := m_height (bm n).
  Definition nd (n : node N) : N := m_depth (bm n).
  Definition nt (n : node N) : N := totalHeight (bm n).
  Definition hnode (b : lbox N) : node N := node_of Horizontal b.
  Definition vnode (b : lbox N) : node N := node_of Vertical b.
  Definition nhalf : N := nlit (1 # 2).
  (** [std::abs] *)
  Definition nabs (x : N) : N := if nltb x n0 then nopp x else x.
  (** [std::max({a, b, c})] *)
  Definition nmax3 (a b c : N) : N := nmax (nmax a b) c.

  (** math-typeset.cpp:208-222 [getFont]: [m_fonts] has 16 elements *)
  Definition fsize_of (s : style) : fsize :=
    if style_leb s SS then SSFont else if style_leb s MathList.S then ScriptFont else TextFont.
  Definition family_ok (fam : Z) : bool := ((0 <=? fam) && (fam <? 16))%Z.
  (** getMetrics(SigmaFamily, style), getMetrics(XiFamily, style) *)
  Definition sg (s : style) : fparams := e_params E 2 (fsize_of s).
  Definition xi (s : style) : fparams := e_params E 3 (fsize_of s).

  (** math-typeset.cpp:234-238: one empty hbox *)
  Definition nullbox : node N := hnode (hbox []).
  (** math-typeset.cpp:240-243 *)
  Definition typeset (s : style) (y : sym) : result (node N) :=
    if family_ok (s_fam y) then Ok (e_typeset E y (s_fam y) (fsize_of s)) else UB.
  (** math-typeset.cpp:245-251 *)
  Definition typesetDelimiter (y : option sym) (h : N) : node N :=
    match y with None => nullbox | Some y => e_delimiter E y h end.
  (** math-typeset.cpp:253-271 *)
  Definition radicalSignBox (s : style) (h : N) : lbox N :=
    let ret := vbox [e_radical E h] in
    let theta := f_rule (xi s) in
    if neqb (m_height (b_metrics ret)) theta then ret else changeHeight ret theta.
  (** math-typeset.cpp:328-336: a [VBox] built from metrics has an empty list *)
  Definition leftpar : sym := mkSym 40 Open 3.
  Definition mathstrut : node N :=
    let m := e_metrics E leftpar 3 TextFont in
    NList Vertical (mkMetrics (m_height m) (m_depth m) n0) n0 n0 Normal [].
  (** math-typeset.cpp:338-341 *)
  Definition quad : N := f_quad (e_params E 0 TextFont).
  (** math-typeset.cpp:118-126 [setFonts] *)
  Definition baselineskip : glue N := glue_space (nmul (nlit (12 # 10)) (nt mathstrut)).
  Definition lineskip : glue N := glue_space (nmul (nlit (1 # 10)) (nt mathstrut)).
  Definition hfil : node N := NGlue (glue_stretch n0 n1 Fil).

  (** listbox.h:33 through [cast<ListBox>] and [cast<HBox>]: a cast to the wrong
      class is undefined *)
  Definition shift_list (n : node N) (x : N) : result (node N) :=
    match n with NList k m s r o l => Ok (NList k m (nadd s x) r o l) | _ => UB end.
  Definition shift_hbox (n : node N) (x : N) : result (node N) :=
    match n with NList Horizontal m s r o l => Ok (NList Horizontal m (nadd s x) r o l) | _ => UB end.
  (** listbox.cpp:115-118 [ListBoxEditor::enlarge] *)
  Definition enlarge (n : node N) (x : N) : result (node N) :=
    match n with
    | NList k m s r o l => Ok (NList k (mkMetrics (m_height m) (m_depth m) (nadd (m_width m) x)) s r o l)
    | _ => UB
    end.
  (** listbox.cpp:120-133 *)
  Definition set_height_depth (h d : N) (b : lbox N) : lbox N :=
    set_metrics b (mkMetrics h d (m_width (b_metrics b))).

  (** math-typeset.cpp:710-741 [isCharacterBox]; the callers want the answer only *)
  Definition isCharacterBox (n : node N) : bool :=
    match n with
    | NList Vertical _ _ _ _ _ => false
    | NList Horizontal _ _ _ _ l => Nat.eqb (length l) 2
    | _ => match box_metrics n with Some _ => true | None => false end
    end.
  Definition isListBox (n : node N) : bool :=
    match n with NList _ _ _ _ _ _ => true | _ => false end.
  Definition isVBox (n : node N) : bool :=
    match n with NList Vertical _ _ _ _ _ => true | _ => false end.

  Section Rules.
    (** [mlist2hlist] of another typesetter: lines 289-293 and 313-317 *)
    Variable rec : style -> list mnode -> result (list (node N) * list mnode).

    (** math-typeset.cpp:273-304 [boxit(node)] and [boxit(node, style)] *)
    Definition boxit (s : style) (f : option mfield) : result (node N * option mfield) :=
      match f with
      | None => Ok (nullbox, None)
      | Some (FSym y) => do n <- typeset s y; Ok (n, f)
      | Some (FBox n) => Ok (n, f)
      | Some (FList l) => do r <- rec s l; Ok (hnode (hbox (fst r)), Some (FList (snd r)))
      | Some FOther => Throw
      end.
    (** math-typeset.cpp:306-318 [boxit(mlist, style)] *)
    Definition boxit_list (s : style) (l : list mnode) : result (lbox N * list mnode) :=
      do r <- rec s l; Ok (hbox (fst r), snd r).

    (** The script is a list box of the caller: [boxit] returns that very box
        and the changes made to it last *)
    Definition own_box (f : option mfield) : bool :=
      match f with Some (FBox n) => isListBox n && negb (isCharacterBox n) | _ => false end.

    (** math-typeset.cpp:768-776, 785-793, 806-814 *)
    Definition add_space (sp : N) (x : node N) : result (node N) :=
      if isCharacterBox x then Ok (hnode (hbox [x; NKern sp])) else enlarge x sp.

    (** math-typeset.cpp:744-843 [attachSubSup]; the nucleus is the box [nuc] *)
    Definition attachSubSup (s : style) (nuc : node N) (a : natom) : result natom :=
      match a_sub a, a_sup a with
      | None, None => Ok a
      | sb, sp =>
          let xh := f_xHeight (sg s) in
          let (u, v) :=
            if isCharacterBox nuc then (n0, n0)
            else (nsub (nh nuc) (f_supDrop (sg (sup s))), nadd (nd nuc) (f_subDrop (sg (sub s)))) in
          let theta := f_rule (xi s) in
          let scriptspace := nmul nhalf theta in
          match sp with
          | None =>
              do r <- boxit (sub s) sb;
              do x <- add_space scriptspace (fst r);
              let sh := nmax3 v (f_sub1 (sg s))
                          (nsub (nh x) (nmul (ndiv (nz 4) (nz 5)) (nabs xh))) in
              do x <- shift_hbox x sh;
              Ok (changeNucleus (hnode (hbox [nuc; x]))
                    (setSubSup (if own_box sb then Some (FBox x) else snd r) sp a))
          | Some _ =>
              do r <- boxit (sup s) sp;
              do x <- add_space scriptspace (fst r);
              let p := if style_eqb s D then f_sup1 (sg s)
                       else if style_eqb s (cramp s) then f_sup3 (sg s) else f_sup2 (sg s) in
              let u := nmax3 u p (nadd (nd x) (nmul (ndiv (nz 4) (nz 5)) (nabs xh))) in
              match sb with
              | None =>
                  do x <- shift_hbox x (nopp u);
                  Ok (changeNucleus (hnode (hbox [nuc; x]))
                        (setSubSup sb (if own_box sp then Some (FBox x) else snd r) a))
              | Some _ =>
                  (* line 805: the superscript again *)
                  do q <- (if own_box sp then Ok (x, Some (FBox x)) else boxit (sub s) (snd r));
                  do y <- add_space scriptspace (fst q);
                  let x := if own_box sp then y else x in
                  let v := nmax v (f_sub2 (sg s)) in
                  let (u, v) :=
                    if nltb (nsub (nsub u (nd x)) (nsub (nh y) v)) (nmul (nz 4) theta) then
                      let v := nadd (nsub (nmul (nz 4) theta) (nsub u (nd x))) (nh y) in
                      let psi := nsub (nmul (ndiv (nz 4) (nz 5)) xh) (nsub u (nd x)) in
                      if nltb n0 psi then (nadd u psi, nsub v psi) else (u, v)
                    else (u, v) in
                  do x <- shift_list x n0;
                  let y := if own_box sp then x else y in
                  let total := nadd (nadd (nadd (nt x) u) v) (nt y) in
                  let b := vbox [x; NKern (nsub total (nadd (nt x) (nt y))); y] in
                  let b := set_height_depth (nadd (nh x) u) (nadd (nd y) v) b in
                  Ok (changeNucleus (hnode (hbox [nuc; vnode b]))
                        (setSubSup sb (if own_box sp then Some (FBox x) else snd q) a))
              end
          end
      end.

    (** math-typeset.cpp:699-708 [rule17_processatom] *)
    Definition rule17 (s : style) (a : natom) : result natom :=
      do r <- boxit s (a_nuc a);
      attachSubSup s (fst r) (changeNucleus (fst r) a).
    (** math-typeset.cpp:686-691 *)
    Definition rule16 (s : style) (a : natom) : result natom := rule17 s (changeType Ord a).

    (** math-typeset.cpp:489-501 *)
    Definition bin_filter (t : Z) : bool :=
      (t =? Bin)%Z || (t =? Op)%Z || (t =? Rel)%Z || (t =? Open)%Z || (t =? Punct)%Z.
    (** math-typeset.cpp:485-512; [first]: the iterator is at the beginning;
        [recent]: the type of the most recent atom *)
    Definition rule5 (s : style) (first : bool) (recent : option Z) (a : natom) : result natom :=
      if first && match recent with Some t => bin_filter t | None => false end
      then rule17 s (changeType Ord a)
      else rule17 s a.

    (** math-typeset.cpp:514-532 *)
    Definition rule8 (s : style) (a : natom) : result natom :=
      do r <- boxit s (a_nuc a);
      let x := match fst r with
               | NList Vertical m sh ra o l => mkLBox m sh ra o l
               | n => vbox [n]
               end in
      let v := totalHeight (b_metrics x) in
      let ax := f_axis (sg s) in
      let x := set_height_depth (nadd (nmul nhalf v) ax) (nsub (nmul nhalf v) ax) x in
      rule17 s (changeType Ord (changeNucleus (vnode x) a)).

    (** rule.cpp:16-19 *)
    Definition hrule (w h : N) : node N := NRule (mkMetrics h n0 w).

    (** math-typeset.cpp:534-543 *)
    Definition rule9 (s : style) (a : natom) : result natom :=
      do r <- boxit (cramp s) (a_nuc a);
      let x := fst r in
      let theta := f_rule (xi s) in
      rule16 s (changeNucleus (vnode (vbox [NKern theta; hrule (nw x) theta; NKern (nmul (nz 3) theta); x])) a).

    (** math-typeset.cpp:545-558 *)
    Definition rule10 (s : style) (a : natom) : result natom :=
      do r <- boxit (cramp s) (a_nuc a);
      let x := fst r in
      let theta := f_rule (xi s) in
      do b <- vtop [x; NKern (nmul (nz 3) theta); hrule (nw x) theta];
      let b := set_height_depth (m_height (b_metrics b)) (nadd (m_depth (b_metrics b)) theta) b in
      rule16 s (changeNucleus (vnode b) a).

    (** math-typeset.cpp:594-600: the box and whether it was put into a new one *)
    Definition widen (w : N) (x : node N) : node N * bool :=
      if nltb (nw x) w then (hnode (hbox_to [hfil; x; hfil] w), true) else (x, false).

    (** math-typeset.cpp:560-628 *)
    Definition rule13 (s : style) (a : natom) : result natom :=
      let hasLimits :=
        match a_lim a with
        | Limits => true | DisplayLimits => style_gtb s T | NoLimits => false end in
      do p <- (match a_nuc a with
               | None => UB
               | Some (FSym y) =>
                   if style_gtb s T then
                     if family_ok (s_fam y) then
                       Ok (changeNucleus (hnode (hbox [e_largeop E y])) a, e_italic E y (s_fam y) (fsize_of s))
                     else UB
                   else Ok (a, n0)
               | _ => Ok (a, n0)
               end);
      let (a, delta) := p in
      if negb hasLimits then rule17 s a
      else
        do rx <- boxit (sup s) (a_sup a);
        do ry <- boxit s (a_nuc a);
        do rz <- boxit (sub s) (a_sub a);
        let w := nmax3 (nw (fst rx)) (nw (fst ry)) (nw (fst rz)) in
        let (x, xnew) := widen w (fst rx) in
        let (y, ynew) := widen w (fst ry) in
        let (z, znew) := widen w (fst rz) in
        do r <- (match a_sup a with
                 | None => Ok ([], None)
                 | Some _ =>
                     do x <- shift_list x (nmul nhalf delta);
                     Ok ([NKern (f_big5 (xi s)); x; NKern (nmax (f_big1 (xi s)) (nsub (f_big3 (xi s)) (nd x)))],
                         if own_box (a_sup a) && negb xnew then Some (FBox x) else snd rx)
                 end);
        let b := vbox (fst r ++ [y]) in
        let h := nsub (totalHeight (b_metrics b)) (nd y) in
        do q <- (match a_sub a with
                 | None => Ok (b, None)
                 | Some _ =>
                     do z' <- shift_list z (nmul (nopp nhalf) delta);
                     let l := b_list b ++
                       [NKern (nmax (f_big2 (xi s)) (nsub (f_big4 (xi s)) (nh z))); z'; NKern (f_big5 (xi s))] in
                     Ok (changeHeight (vbox_rebox (set_list b l)) h,
                         if own_box (a_sub a) && negb znew then Some (FBox z') else snd rz)
                 end);
        Ok (changeNucleus (vnode (fst q)) (setSubSup (snd q) (snd r) a)).

    (** math-typeset.cpp:636-644 and 922-931: the box [x] under a radical sign *)
    Definition radical (s : style) (x : node N) : lbox N * lbox N :=
      let theta := f_rule (xi s) in
      let phi := if style_gtb s T then f_xHeight (sg s) else theta in
      let psi := nadd theta (nmul (nlit (1 # 4)) (nabs phi)) in
      let y := radicalSignBox s (nadd (nadd psi theta) (nt x)) in
      let ym := b_metrics y in
      let theta := m_height ym in
      let psi :=
        if nltb (nadd psi (totalHeight ym)) (m_depth ym)
        then nmul nhalf (nsub (nadd psi (m_depth ym)) (nt x)) else psi in
      let b := vbox [NKern theta; hrule (nw x) theta; NKern psi; x] in
      (setShiftAmount y (nsub (b_shift y) (nadd psi (nh x))), b).

    (** math-typeset.cpp:630-647 *)
    Definition rule11 (s : style) (a : natom) : result natom :=
      do r <- boxit (cramp s) (a_nuc a);
      let (y, b) := radical s (fst r) in
      rule16 s (changeNucleus (hnode (hbox [vnode y; vnode b])) a).

    (** math-typeset.cpp:649-684 *)
    Definition rule12 (s : style) (a : natom) : result natom :=
      do r <- boxit (cramp s) (a_nuc a);
      let x := fst r in
      let u := nw x in
      let delta := nmin (nh x) (f_xHeight (sg s)) in
      do p <- (match a_nuc a with
               | Some (FSym _) =>
                   do a' <- rule17 s a;
                   match a_nuc a' with
                   | Some (FBox n) => Ok (setSubSup None None a', n, nadd delta (nsub (nh x) (nh n)))
                   | _ => UB
                   end
               | _ => Ok (a, x, delta)
               end);
      let '(a, x, delta) := p in
      match a_acc a with
      | None => UB
      | Some y =>
          do y <- typeset s y;
          let b := hbox [y] in
          let b := setShiftAmount b (nadd (b_shift b) (nmul nhalf (nsub u (m_width (b_metrics b))))) in
          let z := vbox [hnode b; NKern (nopp delta); x] in
          let z := if nltb (m_height (b_metrics z)) (nh x)
                   then vbox_rebox (set_list z (NKern (nsub (nh x) (m_height (b_metrics z))) :: b_list z))
                   else z in
          rule16 s (changeNucleus (vnode z) a)
      end.

    (** math-typeset.cpp:380-428: the rules by type of atom *)
    Definition process_atom (s : style) (first : bool) (recent : option Z) (a : natom) : result natom :=
      let t := a_ty a in
      if (t =? Bin)%Z then rule5 s first recent a
      else if ((t =? Rel) || (t =? Close) || (t =? Punct))%Z then rule17 s a
      else if ((t =? Open) || (t =? Inner))%Z then rule17 s a
      else if (t =? Vcent)%Z then rule8 s a
      else if (t =? Over)%Z then rule9 s a
      else if (t =? Under)%Z then rule10 s a
      else if (t =? Rad)%Z then rule11 s a
      else if (t =? Acc)%Z then rule12 s a
      else if (t =? Op)%Z then rule13 s a
      else if (t =? Ord)%Z then rule17 s a
      else Abort.

    (** math-typeset.cpp:846-913; returns the new node and the lists after the
        changes in them *)
    Definition rule15 (s : style) (num den : list mnode) : result (natom * mnode) :=
      let theta := f_rule (xi s) in
      do rx <- boxit_list (fracNum s) num;
      do rz <- boxit_list (fracDen s) den;
      let x := hnode (fst rx) in
      let z := hnode (fst rz) in
      let x' := if nltb (nw x) (nw z) then hnode (hbox_to [hfil; x; hfil] (nw z)) else x in
      let z' := if nltb (nw x) (nw z) then z
                else if nltb (nw z) (nw x) then hnode (hbox_to [hfil; z; hfil] (nw x)) else z in
      let x := x' in
      let z := z' in
      let w := nw z in
      let u := if style_gtb s T then f_num1 (sg s) else f_num2 (sg s) in
      let v := if style_gtb s T then f_denom1 (sg s) else f_denom2 (sg s) in
      let phi := if style_gtb s T then nmul (nz 3) theta else theta in
      let a := f_axis (sg s) in
      let ht := nmul nhalf theta in
      let gap := nsub (nsub u (nd x)) (nadd a ht) in
      let u := if nltb gap phi then nadd u (nsub phi gap) else u in
      let gap := nsub (nsub a ht) (nsub (nh z) v) in
      let v := if nltb gap phi then nadd v (nsub phi gap) else v in
      let h := nadd (nh x) u in
      let b := vbox [x; NKern (nsub (nsub (nsub u (nd x)) a) ht); hrule w theta;
                     NKern (nsub (nadd (nsub a ht) v) (nh z)); z] in
      let b := changeHeight b h in
      if neqb (m_height (b_metrics b)) h
      then Ok (create Inner (vnode b), MFrac (snd rx) (snd rz))
      else Abort.

    (** math-typeset.cpp:915-947 *)
    Definition processRoot (s : style) (deg rad : list mnode) : result (natom * mnode) :=
      do rx <- boxit_list (cramp s) rad;
      let (y, b) := radical s (hnode (fst rx)) in
      do ri <- boxit_list SS deg;
      let ym := b_metrics y in
      let bmm := b_metrics b in
      let h := nmax (nsub (m_height ym) (b_shift y)) (m_height bmm) in
      let d := nmax (nadd (m_depth ym) (b_shift y)) (m_depth bmm) in
      let amount := nmul (nlit (6 # 10)) (nsub h d) in
      let index := setShiftAmount (fst ri) (nadd (b_shift (fst ri)) (nopp amount)) in
      do a <- rule16 s (create Rad (hnode (hbox [hnode index; NKern (nopp (m_width ym)); vnode y; vnode b])));
      Ok (a, MRoot (snd ri) (snd rx)).

    (** math-typeset.cpp:968-971 *)
    Fixpoint boxit_lists (s : style) (ls : list (list mnode)) : result (list (lbox N) * list (list mnode)) :=
      match ls with
      | [] => Ok ([], [])
      | l :: r => do x <- boxit_list s l; do y <- boxit_lists s r; Ok (fst x :: fst y, snd x :: snd y)
      end.
    (** math-typeset.cpp:973-979: the largest width in a column *)
    Definition col_size (cols : nat) (bs : list (lbox N)) (j : nat) : N :=
      fold_left (fun w p => if Nat.eqb (fst p mod cols) j then nmax w (m_width (b_metrics (snd p))) else w)
        (combine (seq 0 (length bs)) bs) n0.
    (** math-typeset.cpp:991-999 *)
    Definition cell (w : N) (j : nat) (b : lbox N) : lbox N :=
      let l := hfil :: (if Nat.eqb j 0 then [] else [NKern quad]) ++ b_list b ++ [hfil] in
      fst (hbox_rebox_to (set_list b l) w).
    (** math-typeset.cpp:983-1006 *)
    Definition matrix_row (cols : nat) (bs : list (lbox N)) (i : nat) : node N :=
      hnode (hbox (map (fun j => hnode (cell (col_size cols bs j) j (nth (i * cols + j) bs (listbox_new []))))
                       (seq 0 cols))).
    Definition push_node (b : vbuilder N) (n : node N) : vbuilder N :=
      mkVB (vb_result b ++ [n]) (vb_baselineskip b) (vb_lineskip b) (vb_lineskiplimit b) (vb_prevdepth b).
    Definition matrix_box (cols : nat) (bs : list (lbox N)) : node N :=
      let neg := NKern (nopp (g_space baselineskip)) in
      let rows := map (matrix_row cols bs) (seq 0 (length bs / cols)) in
      let v := vb_push_box (vbuilder_new baselineskip lineskip) mathstrut (bm mathstrut) in
      let v := push_node v neg in
      let v := fold_left (fun v r => vb_push_box v r (bm r)) rows v in
      let v := push_node (vb_push_box v mathstrut (bm mathstrut)) neg in
      vnode (vbox (vb_result v)).
    (** math-typeset.cpp:949-1026; [cols = 0]: division by zero *)
    Definition processMatrix (s : style) (cells : list (list mnode)) (cols : nat) : result (natom * mnode) :=
      do r <- boxit_lists s cells;
      if Nat.eqb cols 0 then UB
      else
        do a <- rule8 s (create Vcent (matrix_box cols (fst r)));
        Ok (a, MMatrix (snd r) cols).

    (** * preprocess *)
    (** A node passed by the iterator: the node of the caller's list after the
        changes in it, and the node in the copied list unless it was erased *)
    Record item := mkItem { it_orig : mnode; it_cur : option mnode }.
    Record pstate := mkP {
      p_done : list item; p_rest : list mnode; p_style : style; p_recent : option nat }.

    Definition advance (st : pstate) (o c : mnode) (r : list mnode) : pstate :=
      mkP (p_done st ++ [mkItem o (Some c)]) r (p_style st) (p_recent st).
    (** also sets [m_most_recent_atom] *)
    Definition advance_atom (st : pstate) (o c : mnode) (r : list mnode) : pstate :=
      mkP (p_done st ++ [mkItem o (Some c)]) r (p_style st) (Some (length (p_done st))).
    Definition atom_of (i : item) : option natom :=
      match it_cur i with Some (MAtom a) => Some a | _ => None end.
    Definition recent_atom (st : pstate) : option natom :=
      match p_recent st with
      | Some k => match nth_error (p_done st) k with Some i => atom_of i | None => None end
      | None => None
      end.
    Definition recent_type (st : pstate) : option Z := option_map a_ty (recent_atom st).
    Definition at_begin (st : pstate) : bool :=
      forallb (fun i => match it_cur i with Some _ => false | None => true end) (p_done st).

    Definition retype (t : Z) (n : mnode) : mnode :=
      match n with MAtom a => MAtom (changeType t a) | _ => n end.
    Fixpoint update {A} (k : nat) (f : A -> A) (l : list A) : list A :=
      match k, l with
      | _, [] => []
      | O, x :: r => f x :: r
      | Datatypes.S k, x :: r => x :: update k f r
      end.
    (** math-typeset.cpp:384-388: Rule 6, on the most recent atom *)
    Definition rule6 (st : pstate) (a : natom) : pstate :=
      let t := a_ty a in
      if ((t =? Rel) || (t =? Close) || (t =? Punct))%Z then
        match p_recent st, recent_type st with
        | Some k, Some t' =>
            if (t' =? Bin)%Z then
              mkP (update k (fun i => mkItem (retype Ord (it_orig i)) (option_map (retype Ord) (it_cur i))) (p_done st))
                  (p_rest st) (p_style st) (p_recent st)
            else st
        | _, _ => st
        end
      else st.

    (** math-typeset.cpp:456-483 [rule2_translateglue] *)
    Definition isGlueOrKern (n : mnode) : bool :=
      match n with MGlue _ _ | MNode (NGlue _) | MNode (NKern _) => true | _ => false end.
    Definition scale_glue (s : style) (g : glue N) : glue N :=
      let factor := ndiv (f_quad (sg s)) (nz 18) in
      mkGlue (nmul (g_space g) factor)
             (match g_shrinkOrder g with Normal => nmul (g_shrink g) factor | _ => g_shrink g end)
             (match g_stretchOrder g with Normal => nmul (g_stretch g) factor | _ => g_stretch g end)
             (g_shrinkOrder g) (g_stretchOrder g).
    Definition rule2 (st : pstate) (o : gorigin) (g : glue N) (r : list mnode) : pstate :=
      match o with
      | OrNormal => advance st (MGlue o g) (MGlue o g) r
      | OrMskip =>
          let n := MGlue o (scale_glue (p_style st) g) in advance st n n r
      | OrNonscript =>
          let st' := advance st (MGlue o g) (MGlue o g) r in
          match r with
          | n :: r' =>
              if isGlueOrKern n && style_leb (p_style st) MathList.S
              then mkP (p_done st' ++ [mkItem n None]) r' (p_style st) (p_recent st)
              else st'
          | [] => st'
          end
      end.

    (** math-typeset.cpp:349-451: one iteration. A node of another kind leaves
        everything as it is: the iterator does not move. *)
    Definition step (st : pstate) : result pstate :=
      match p_rest st with
      | [] => Ok st
      | e :: r =>
          match e with
          | MNode (NPenalty _) | MNode (NRule _) | MNode (NKern _) | MBoundary _ => Ok (advance st e e r)
          | MNode (NGlue g) => Ok (advance st e e r)
          | MGlue o g => Ok (rule2 st o g r)
          | MStyle s => Ok (mkP (p_done st ++ [mkItem e None]) r s (p_recent st))
          | MAtom a =>
              let st := rule6 st a in
              do a' <- process_atom (p_style st) (at_begin st) (recent_type st) a;
              Ok (advance_atom st (MAtom a') (MAtom a') r)
          | MFrac n d =>
              do x <- rule15 (p_style st) n d; Ok (advance st (snd x) (MAtom (fst x)) r)
          | MRoot n d =>
              do x <- processRoot (p_style st) n d; Ok (advance_atom st (snd x) (MAtom (fst x)) r)
          | MMatrix c k =>
              do x <- processMatrix (p_style st) c k; Ok (advance_atom st (snd x) (MAtom (fst x)) r)
          | MNode _ => Ok st
          end
      end.

    Fixpoint loop (n : nat) (st : pstate) : result pstate :=
      match p_rest st, n with
      | [], _ => Ok st
      | _ :: _, O => Fuel
      | _ :: _, Datatypes.S n => do st <- step st; loop n st
      end.

    Definition currents (l : list item) : list mnode :=
      flat_map (fun i => match it_cur i with Some n => [n] | None => [] end) l.

    (** math-typeset.cpp:1043-1061. [node->is<ListBox>()] compares the dynamic
        type with [ListBox] itself and is never true *)
    Definition tally (p : N * N) (n : mnode) : N * N :=
      let b := match n with
               | MAtom a => match a_nuc a with Some (FBox x) => box_metrics x | _ => None end
               | MNode x => box_metrics x
               | _ => None
               end in
      match b with
      | Some m => (nadd (fst p) (m_height m), nadd (snd p) (m_depth m))
      | None => p
      end.
    Definition delimiter_size (s : style) (l : list mnode) : N :=
      let a := f_axis (sg s) in
      let (h, d) := fold_left tally l (n0, n0) in
      let delta := nmax (nsub h a) (nadd d a) in
      nmax (ndiv (nmul (nz 901) delta) (nz 500)) (nsub (nmul (nz 2) delta) nhalf).
    Definition delimiter_box (s : style) (y : option sym) (h : N) : node N :=
      let b := hbox [typesetDelimiter y h] in
      let m := b_metrics b in
      hnode (setShiftAmount b (nsub (nmul nhalf (nsub (m_height m) (m_depth m))) (f_axis (sg s)))).
    (** the last element replaced *)
    Fixpoint set_last {A} (x : A) (l : list A) : list A :=
      match l with [] => [] | [_] => [x] | y :: r => y :: set_last x r end.
    (** math-typeset.cpp:1028-1073 [processBoundary]; [front()] of an empty list *)
    Definition processBoundary (s : style) (l : list mnode) : result (list mnode) :=
      match l with
      | [] => UB
      | MBoundary y :: r =>
          match last l (MStyle s) with
          | MBoundary z =>
              let tth := delimiter_size s l in
              Ok (set_last (MAtom (create Close (delimiter_box s z tth)))
                    (MAtom (create Open (delimiter_box s y tth)) :: r))
          | _ => Abort
          end
      | _ => Ok l
      end.
  End Rules.

  (** * mlist2hlist *)
  (** math-typeset.cpp:37-57 *)
  Definition spacing : list (list Z) := [
    [0; 1; 2; 3; 0; 0; 0; 1];
    [1; 1; -1; 3; 0; 0; 0; 1];
    [2; 2; -1; -1; 2; -1; -1; 2];
    [3; 3; -1; 0; 3; 0; 0; 3];
    [0; 0; -1; 0; 0; 0; 0; 0];
    [0; 1; 2; 3; 0; 0; 0; 1];
    [1; 1; -1; 1; 1; 1; 1; 1];
    [1; 1; 2; 3; 1; 0; 1; 1] ]%Z.
  Definition spacingNonScript : list (list bool) := [
    [false; false; true; true; false; false; false; true];
    [false; false; false; true; false; false; false; true];
    [true; true; false; false; true; false; false; true];
    [true; true; false; false; true; false; false; true];
    [false; false; false; false; false; false; false; false];
    [false; false; true; true; false; false; false; true];
    [true; true; false; true; true; true; true; true];
    [true; false; true; true; true; false; true; true] ].
  Definition look2 {A} (t : list (list A)) (i j : Z) : result A :=
    if ((i <? 0) || (j <? 0))%Z then UB
    else match nth_error t (Z.to_nat i) with
         | Some row => match nth_error row (Z.to_nat j) with Some x => Ok x | None => UB end
         | None => UB
         end.

  (** math-typeset.cpp:1093-1109 *)
  Definition mu (s : style) : N := ndiv (f_quad (sg s)) (nz 18).
  Definition thinmuskip (s : style) : node N := NGlue (glue_space (nmul (nz 3) (mu s))).
  Definition medmuskip (s : style) : node N :=
    NGlue (glue_make (nmul (nz 4) (mu s)) (nmul (nz 4) (mu s)) Normal (nmul (nz 2) (mu s)) Normal).
  Definition thickmuskip (s : style) : node N :=
    NGlue (glue_stretch (nmul (nz 5) (mu s)) (nmul (nz 5) (mu s)) Normal).

  (** math-typeset.cpp:1076-1091 [insertSpace] *)
  Definition insertSpace (s : style) (prec next : Z) : result (list (node N)) :=
    if negb (prec <=? Inner)%Z then Abort
    else if negb (next <=? Inner)%Z then Abort
    else
      do amount <- look2 spacing prec next;
      do nonScript <- look2 spacingNonScript prec next;
      Ok (if (amount =? 0)%Z || (style_leb s MathList.S && nonScript) then []
          else if (amount =? 1)%Z then [thinmuskip s]
          else if (amount =? 2)%Z then [medmuskip s]
          else if (amount =? 3)%Z then [thickmuskip s]
          else []).

  Definition is_rel (n : mnode) : bool :=
    match n with MAtom a => (a_ty a =? Rel)%Z | _ => false end.
  Definition is_pen (n : mnode) : bool :=
    match n with MNode (NPenalty _) => true | _ => false end.
  (** math-typeset.cpp:187-193; [next]: the nodes that follow *)
  Definition penalty_after (p : penalties) (t : Z) (next : list mnode) : list (node N) :=
    match next with
    | [] => []
    | n :: _ =>
        if pen_on p && negb (is_pen n) then
          if (t =? Op)%Z && negb (pen_bin p =? 0)%Z then [NPenalty (pen_bin p)]
          else if (t =? Rel)%Z && negb (pen_rel p =? 0)%Z && negb (is_rel n) then [NPenalty (pen_rel p)]
          else []
        else []
    end.
  Definition nucleus_of (a : natom) : node N :=
    match a_nuc a with Some (FBox n) => n | _ => NOther end.

  (** math-typeset.cpp:172-198; [recent]: the type of the most recent atom *)
  Fixpoint emit (p : penalties) (s : style) (recent : option Z) (l : list mnode) : result (list (node N)) :=
    match l with
    | [] => Ok []
    | MAtom a :: r =>
        do sp <- (match recent with Some t => insertSpace s t (a_ty a) | None => Ok [] end);
        do out <- emit p s (Some (a_ty a)) r;
        Ok (sp ++ nucleus_of a :: penalty_after p (a_ty a) r ++ out)
    | n :: r =>
        do out <- emit p s recent r;
        Ok (match n with
            | MNode (NGlue _) => out
            | MNode NOther => out
            | MNode x => x :: out
            | _ => out
            end)
    end.

  (** math-typeset.cpp:158-201 [mlist2hlist]. [fuel]: of the loop of
      [preprocess] and of the nested calls *)
  Fixpoint mlist2hlist (fuel : nat) (p : penalties) (s : style) (l : list mnode)
      : result (list (node N) * list mnode) :=
    match l with
    | [] => Ok ([], [])
    | _ =>
        match fuel with
        | O => Fuel
        | Datatypes.S n =>
            do st <- loop (mlist2hlist n default_penalties) n (mkP [] l s None);
            do cur <- processBoundary (p_style st) (currents (p_done st));
            do out <- emit p s None cur;
            Ok (out, map it_orig (p_done st))
        end
    end.
End Typeset.
Arguments mnode N : clear implicits.
Arguments mfield N : clear implicits.
Arguments natom N : clear implicits.
Arguments engine N : clear implicits.
Arguments fparams N : clear implicits.
Arguments item N : clear implicits.
Arguments pstate N : clear implicits.
