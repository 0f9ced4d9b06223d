(** The font parameters that the typesetter asks for: the calls of the methods
    of [FontMetrics] in src/math/math-typeset.cpp, procedure by procedure. Each
    function lists the calls of the procedure of Model/MathTypeset.v of the same
    name, whose results say which way it goes. The lists are in the order of the
    calls but for arguments of one function, which may be evaluated in any
    order. Not listed: calls of [metrics] and [italicCorrection], which are not
    about parameters (fontmetrics.cpp:162-175). *)
From Coq Require Import List Ascii ZArith Bool Arith.
From Verif.Base Require Import Result Num.
From Verif.Model Require Import Token Lexer Glue Box ListBuilders Tfm FontUsage MathList MathParser MathTypeset MathFrontend.
Import ListNotations.
Local Open Scope nat_scope.

(** A call: the method, the family and the size of the font *)
Definition request : Set := getter * (Z * fsize).
(** apps/common/qt-typeset-engine.cpp:177-189 [mathfonts] *)
Definition font_index (f : Z * fsize) : nat :=
  3 * Z.to_nat (fst f) + match snd f with TextFont => 0 | ScriptFont => 1 | SSFont => 2 end.

(** math-typeset.h:66-82, math-typeset.cpp:64-80: a font of family 2 or 3 and
    the size of a style *)
Definition of_sigma (s : style) (g : getter) : request := (g, (2%Z, fsize_of s)).
Definition of_xi (s : style) (g : getter) : request := (g, (3%Z, fsize_of s)).

Section Asks.
  Context {N : Num}.
  Variable E : engine N.

  Definition after {A} (r : result A) (f : A -> list request) : list request :=
    match r with Ok x => f x | _ => [] end.

  Section Rules.
    (** a nested typesetter and its calls *)
    Variable rec : style -> list (mnode N) -> result (list (node N) * list (mnode N)).
    Variable qrec : style -> list (mnode N) -> list request.

    (** :273-304 *)
    Definition boxit_asks (s : style) (f : option (mfield N)) : list request :=
      match f with Some (FList l) => qrec s l | _ => [] end.

    (** :744-843; [char]: the nucleus is a character box *)
    Definition attach_asks (s : style) (char : bool) (sb sp : option (mfield N)) : list request :=
      match sb, sp with
      | None, None => []
      | _, _ =>
          (if char then [] else [of_sigma (sup s) supDrop; of_sigma (sub s) subDrop]) ++        (* 756, 757 *)
          of_xi s defaultRuleThickness ::                                                       (* 763 *)
          let space := nmul nhalf (f_rule (xi E s)) in
          match sp with
          | None =>
              boxit_asks (sub s) sb ++
              after (boxit E rec (sub s) sb) (fun r => after (add_space space (fst r)) (fun _ =>
                [of_sigma s get_sub1; of_sigma s xHeight]))                                     (* 778 *)
          | Some _ =>
              boxit_asks (sup s) sp ++
              after (boxit E rec (sup s) sp) (fun r => after (add_space space (fst r)) (fun x =>
                [of_sigma s (if style_eqb s D then get_sup1                                     (* 795 *)
                             else if style_eqb s (cramp s) then get_sup3 else get_sup2);
                 of_sigma s xHeight] ++                                                         (* 796 *)
                match sb with
                | None => []
                | Some _ =>
                    (if own_box sp then [] else boxit_asks (sub s) (snd r)) ++
                    after (if own_box sp then Ok (x, Some (FBox x)) else boxit E rec (sub s) (snd r))
                      (fun q => after (add_space space (fst q)) (fun _ =>
                      (* 816, 818; 823 may ask for the x-height once more *)
                      [of_sigma s get_sub2; of_xi s defaultRuleThickness]))
                end))
          end
      end.

    (** :699-708 *)
    Definition rule17_asks (s : style) (a : natom N) : list request :=
      boxit_asks s (a_nuc a) ++
      after (boxit E rec s (a_nuc a)) (fun r => attach_asks s (isCharacterBox (fst r)) (a_sub a) (a_sup a)).

    (** :514-532; the nucleus is a vbox then *)
    Definition rule8_asks (s : style) (a : natom N) : list request :=
      boxit_asks s (a_nuc a) ++
      after (boxit E rec s (a_nuc a)) (fun _ =>
        of_sigma s axisHeight :: attach_asks s false (a_sub a) (a_sup a)).                      (* 522 *)

    (** :534-543, :545-558; the nucleus is a vbox then *)
    Definition bar_asks (s : style) (a : natom N) : list request :=
      boxit_asks (cramp s) (a_nuc a) ++
      after (boxit E rec (cramp s) (a_nuc a)) (fun _ =>
        of_xi s defaultRuleThickness :: attach_asks s false (a_sub a) (a_sup a)).               (* 539, 550 *)

    (** :560-628 *)
    Definition rule13_asks (s : style) (a : natom N) : list request :=
      let hasLimits :=
        match a_lim a with
        | Limits => true | DisplayLimits => style_gtb s T | NoLimits => false end in
      let large := match a_nuc a with Some (FSym y) => style_gtb s T | _ => false end in
      (if large then [of_sigma s axisHeight] else []) ++                                        (* 577 *)
      match a_nuc a with
      | None => []
      | Some f =>
          (* the nucleus after 581 *)
          let f := match f with FSym y => if large then FBox (hnode (hbox [e_largeop E y])) else f | _ => f end in
          if negb hasLimits then
            boxit_asks s (Some f) ++
            after (boxit E rec s (Some f)) (fun r => attach_asks s (isCharacterBox (fst r)) (a_sub a) (a_sup a))
          else
            boxit_asks (sup s) (a_sup a) ++
            after (boxit E rec (sup s) (a_sup a)) (fun _ =>
            boxit_asks s (Some f) ++
            after (boxit E rec s (Some f)) (fun _ =>
            boxit_asks (sub s) (a_sub a) ++
            after (boxit E rec (sub s) (a_sub a)) (fun _ =>
            match a_sup a with
            | None => []
            | Some _ => [of_xi s bigOpSpacing5; of_xi s bigOpSpacing1; of_xi s bigOpSpacing3]   (* 605, 608 *)
            end ++
            match a_sub a with
            | None => []
            | Some _ => [of_xi s bigOpSpacing2; of_xi s bigOpSpacing4; of_xi s bigOpSpacing5]   (* 618, 621 *)
            end)))
      end.

    (** :636-639, :922-925 with :253-271 *)
    Definition radical_asks (s : style) : list request :=
      of_xi s defaultRuleThickness :: (if style_gtb s T then [of_sigma s xHeight] else [])
      ++ [of_xi s defaultRuleThickness].
    (** :630-647 *)
    Definition rule11_asks (s : style) (a : natom N) : list request :=
      boxit_asks (cramp s) (a_nuc a) ++
      after (boxit E rec (cramp s) (a_nuc a)) (fun r =>
        let (y, b) := radical E s (fst r) in
        radical_asks s ++
        attach_asks s (isCharacterBox (hnode (hbox [vnode y; vnode b]))) (a_sub a) (a_sup a)).

    (** :649-684; after [clearSubSupscripts] no script is left to attach *)
    Definition rule12_asks (s : style) (a : natom N) : list request :=
      boxit_asks (cramp s) (a_nuc a) ++
      after (boxit E rec (cramp s) (a_nuc a)) (fun _ =>
        of_sigma s xHeight ::                                                                   (* 655 *)
        match a_nuc a with
        | Some (FSym _) => rule17_asks s a
        | _ => match a_acc a with
               | None => []
               | Some y => after (typeset E s y) (fun _ => attach_asks s false (a_sub a) (a_sup a))
               end
        end).

    (** :380-428 *)
    Definition atom_asks (s : style) (a : natom N) : list request :=
      let t := a_ty a in
      if (t =? Vcent)%Z then rule8_asks s a
      else if ((t =? Over) || (t =? Under))%Z then bar_asks s a
      else if (t =? Rad)%Z then rule11_asks s a
      else if (t =? Acc)%Z then rule12_asks s a
      else if (t =? Op)%Z then rule13_asks s a
      else if ((t =? Bin) || (t =? Rel) || (t =? Close) || (t =? Punct) || (t =? Open) || (t =? Inner) || (t =? Ord))%Z
      then rule17_asks s a
      else [].

    (** :846-913 *)
    Definition rule15_asks (s : style) (num den : list (mnode N)) : list request :=
      of_xi s defaultRuleThickness ::                                                           (* 850 *)
      qrec (fracNum s) num ++
      after (rec (fracNum s) num) (fun _ =>
      qrec (fracDen s) den ++
      after (rec (fracDen s) den) (fun _ =>
      (if style_gtb s T then [of_sigma s get_num1; of_sigma s get_denom1]                       (* 870-876 *)
       else [of_sigma s get_num2; of_sigma s get_denom2]) ++ [of_sigma s axisHeight])).         (* 881 *)

    (** :915-947; the new atom has no scripts *)
    Definition root_asks (s : style) (deg rad : list (mnode N)) : list request :=
      qrec (cramp s) rad ++
      after (rec (cramp s) rad) (fun _ => radical_asks s ++ qrec SS deg).

    (** :968-971 *)
    Fixpoint lists_asks (s : style) (ls : list (list (mnode N))) : list request :=
      match ls with
      | [] => []
      | l :: r => qrec s l ++ after (rec s l) (fun _ => lists_asks s r)
      end.
    (** :949-1026 with :338-341 and [rule8_vcent] *)
    Definition matrix_asks (s : style) (cells : list (list (mnode N))) (cols : nat) : list request :=
      (get_quad, (0%Z, TextFont)) ::
      lists_asks s cells ++
      after (boxit_lists rec s cells) (fun _ =>
        if Nat.eqb cols 0 then [] else [of_sigma s axisHeight]).

    (** :349-451: one iteration *)
    Definition step_asks (st : pstate N) : list request :=
      match p_rest st with
      | [] => []
      | e :: _ =>
          match e with
          | MGlue OrMskip _ => [of_sigma (p_style st) get_quad]                                 (* 472 *)
          | MAtom a => atom_asks (p_style st) a
          | MFrac n d => rule15_asks (p_style st) n d
          | MRoot n d => root_asks (p_style st) n d
          | MMatrix c k => matrix_asks (p_style st) c k
          | _ => []
          end
      end.
    Fixpoint loop_asks (n : nat) (st : pstate N) : list request :=
      match p_rest st, n with
      | [], _ | _, O => []
      | _ :: _, Datatypes.S n => step_asks st ++ after (step E rec st) (loop_asks n)
      end.
  End Rules.

  (** :1028-1041 *)
  Definition boundary_asks (s : style) (l : list (mnode N)) : list request :=
    match l with
    | MBoundary _ :: _ => match last l (MStyle s) with MBoundary _ => [of_sigma s axisHeight] | _ => [] end
    | _ => []
    end.

  (** :1076-1109 *)
  Definition space_asks (s : style) (prec next : Z) : list request :=
    match insertSpace E s prec next with Ok (_ :: _) => [of_sigma s get_quad] | _ => [] end.
  (** :172-198 *)
  Fixpoint emit_asks (s : style) (recent : option Z) (l : list (mnode N)) : list request :=
    match l with
    | [] => []
    | MAtom a :: r =>
        match recent with
        | Some t => space_asks s t (a_ty a) ++ after (insertSpace E s t (a_ty a)) (fun _ => emit_asks s (Some (a_ty a)) r)
        | None => emit_asks s (Some (a_ty a)) r
        end
    | _ :: r => emit_asks s recent r
    end.

  (** :158-201 *)
  Fixpoint typeset_asks (fuel : nat) (s : style) (l : list (mnode N)) : list request :=
    match l with
    | [] => []
    | _ =>
        match fuel with
        | O => []
        | Datatypes.S n =>
            let rec := mlist2hlist E n default_penalties in
            loop_asks rec (typeset_asks n) n (mkP [] l s None) ++
            after (loop E rec n (mkP [] l s None)) (fun st =>
            let cur := currents (p_done st) in
            boundary_asks (p_style st) cur ++
            after (processBoundary E (p_style st) cur) (emit_asks s None))
        end
    end.

  (** apps/equation-editor/mainwindow.cpp:225-288: the calls until [setBox] *)
  Definition equation_asks (char_signed : bool) (fuel : nat) (text : list ascii) : list request :=
    match feed DefaultCatCodes lexer_init text with
    | (_, Some _) => []
    | (l, None) =>
        after (do m <- foldM (eq_token char_signed) (l_out l) mp_init; do m <- do_call m CFinish; output (N := N) fuel m)
          (typeset_asks fuel D)
    end.
  (** mainwindow.cpp:176-192, 219-297: what a change of the text is for the table *)
  Definition text_event (char_signed : bool) (fuel : nat) (text : list ascii) : tree_event :=
    TEdit (map (fun r : request => (fst r, font_index (snd r))) (equation_asks char_signed fuel text))
          (match equation char_signed E fuel text with Ok _ => false | _ => true end).
End Asks.
