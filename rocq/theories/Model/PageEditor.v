(** Model of the page editor's typesetting machine: apps/page-editor
    (inputstream, fontparser, mode, verticalmode, horizontalmode, mathmode,
    assignment-processor, typesetting-machine, pageeditor-format) and
    apps/common/charbuffer.h. Not modelled: the messages of exceptions, their
    C++ types, what they leave behind, and the members of
    TypesettingMachineMemory that are never read (catcodes, prevdepth). *)
From Coq Require Import List Ascii String ZArith Bool QArith.
From Verif.Base Require Import Result Num.
From Verif.Model Require Import Unicode Token Lexer Macro Preprocessor Dimen DimenParser Glue Box
  ListBuilders LineBreaks MathList MathParser MathTypeset MathFrontend.
Import ListNotations.
Local Open Scope Z_scope.

(** * Input stream *)
Definition CR : ascii := ascii_of_nat 13.
Definition LF : ascii := ascii_of_nat 10.

(** apps/page-editor/inputstream.cpp:7-20 [removeCRLF]: the loop; [w], [r] are
    the indices, the text is written in place *)
Fixpoint replace_nth (n : nat) (c : ascii) (l : list ascii) : list ascii :=
  match n, l with
  | O, _ :: l => c :: l
  | Datatypes.S n, x :: l => x :: replace_nth n c l
  | _, [] => []
  end.
Fixpoint crlf_loop (fuel r w : nat) (s : list ascii) : nat * list ascii :=
  match fuel with
  | O => (w, s)
  | Datatypes.S n =>
      match nth_error s r with
      | None => (w, s)
      | Some c =>
          if Ascii.eqb c CR then crlf_loop n (Datatypes.S r) w s
          else crlf_loop n (Datatypes.S r) (Datatypes.S w) (replace_nth w c s)
      end
  end.
Definition removeCRLF (s : list ascii) : list ascii :=
  let '(w, s') := crlf_loop (List.length s) 0 0 s in firstn w s'.

(** apps/page-editor/inputstream.h:14-59 *)
Record stream := mkStream { st_text : list ascii; st_pos : nat }.
Definition atEnd (s : stream) : bool := Nat.eqb (st_pos s) (List.length (st_text s)).
(** [text[pos++]]: at the end of the text a null character *)
Definition read (s : stream) : result (ascii * stream) :=
  match nth_error (st_text s) (st_pos s) with
  | Some c => Ok (c, mkStream (st_text s) (Datatypes.S (st_pos s)))
  | None =>
      if Nat.eqb (st_pos s) (List.length (st_text s))
      then Ok (ascii_of_nat 0, mkStream (st_text s) (Datatypes.S (st_pos s))) else UB
  end.
(** apps/page-editor/inputstream.cpp:22-43 [position]; [text.at] throws *)
Fixpoint position_loop (n : nat) (l : list ascii) (line col : nat) : result (nat * nat) :=
  match n with
  | O => Ok (line, col)
  | Datatypes.S n =>
      match l with
      | [] => Throw
      | c :: l => if Ascii.eqb c LF then position_loop n l (Datatypes.S line) 0 else position_loop n l line (Datatypes.S col)
      end
  end.
Definition position (s : stream) : result (nat * nat) := position_loop (st_pos s) (st_text s) 0 0.

(** * Font parser *)
(** apps/page-editor/fontparser.h:19-33 *)
Inductive fp_state : Set := ParseFontName | ParseEqualSign | ParseLeftBrace | ParseFontSpec | FFinished.
Record fparser := mkFPr { fp_st : fp_state; fp_name : name; fp_spec : name }.
Definition fp_init : fparser := mkFPr ParseFontName [] [].
(** apps/page-editor/fontparser.cpp:12-56 [write(char)] *)
Definition fp_write (p : fparser) (c : ascii) : result fparser :=
  match fp_st p with
  | ParseFontName => Throw
  | ParseEqualSign =>
      if Ascii.eqb c "="%char then Ok (mkFPr ParseFontSpec (fp_name p) (fp_spec p)) else Throw
  | ParseLeftBrace =>
      if Ascii.eqb c "{"%char then Ok (mkFPr ParseFontSpec (fp_name p) (fp_spec p)) else Throw
  | ParseFontSpec =>
      if Ascii.eqb c "}"%char then Ok (mkFPr FFinished (fp_name p) (fp_spec p))
      else Ok (mkFPr ParseFontSpec (fp_name p) (fp_spec p ++ [c]))
  | FFinished => Ok p
  end.
(** apps/page-editor/fontparser.cpp:58-71 [write(const std::string&)] *)
Definition fp_write_cs (p : fparser) (n : name) : result fparser :=
  match fp_st p with
  | ParseFontName => Ok (mkFPr ParseEqualSign n (fp_spec p))
  | _ => Throw
  end.
Definition fp_isFinished (p : fparser) : bool :=
  match fp_st p with FFinished => true | _ => false end.

(** * The machine *)
(** apps/page-editor/pageeditor-format.cpp:7-12 *)
Definition pageeditor_format : list ascii :=
  list_ascii_of_string "\def\begin#1{\csname #1\endcsname}" ++ [LF]
  ++ list_ascii_of_string "\def\end#1{\csname end#1\endcsname}".

Section Machine.
  Context {N : Num}.

  (** The world outside: fonts (a font is a number), the metrics of [(], the
      typesetting of formulas with the fonts of mathmode.cpp:30-38,
      [loadFont] (given the fonts loaded before), arithmetic and build parameters *)
  Record host := mkHost {
    k_font : Z -> hmetrics N; k_paren : Z -> metrics N; k_quad : Z -> N; k_xheight : Z -> N;
    k_math : engine N;
    k_load : list (name * name) -> name -> name -> result Z;
    k_pows : pows N; k_range : Q -> bool; k_debug : bool; k_signed : bool;
    (** of the nested lists of formulas and of their typesetting *)
    k_fuel : nat }.
  Variable K : host.

  (** apps/page-editor/typesetting-machine.h:25-35 *)
  Record memory := mkMem {
    me_font : Z; me_baselineskip : glue N; me_lineskip : glue N; me_lineskiplimit : N;
    me_hsize : N; me_parshape : list (N * N) }.
  Definition set_font (m : memory) f :=
    mkMem f (me_baselineskip m) (me_lineskip m) (me_lineskiplimit m) (me_hsize m) (me_parshape m).
  Definition set_parshape (m : memory) p :=
    mkMem (me_font m) (me_baselineskip m) (me_lineskip m) (me_lineskiplimit m) (me_hsize m) p.

  (** The states of the modes (verticalmode.h:26-31, horizontalmode.h:30-36,
      mathmode.h:33-37) with the parsers that go with them *)
  Inductive vstate : Type := VMain | VMathShift | VKern (us : unitsystem N) (k : kparser).
  Inductive hstate : Type :=
  | HMain | HMathShift | HKern (us : unitsystem N) (k : kparser) | HLower (d : dparser).
  Inductive mmstate : Set := MMain | MMathShift.
  (** The output routine of a horizontal mode: throw (horizontalmode.cpp:21-23),
      to the vertical mode, i.e. the bottom one (verticalmode.cpp:94, 138), or
      to the horizontal mode below (horizontalmode.cpp:195-197) *)
  Inductive routine : Set := RThrow | RVertical | RParent.

  (** apps/page-editor/horizontalmode.h:81-88, mode.h:76 *)
  Record hmode := mkHMode {
    h_restricted : bool; h_state : hstate; h_buffer : list Z; h_lower : N;
    h_list : hbuilder N; h_depth : Z; h_routine : routine }.
  (** A math mode writes to the mode below *)
  Inductive mode : Type :=
  | MV (s : vstate) (b : vbuilder N)
  | MH (m : hmode)
  | MM (s : mmstate) (buf : list Z) (p : mp).
  Inductive kind : Set := KVertical | KHorizontal | KMath.
  Definition mode_kind (m : mode) : kind :=
    match m with MV _ _ => KVertical | MH _ => KHorizontal | MM _ _ _ => KMath end.

  (** apps/page-editor/assignment-processor.h:26-33, 57-62 *)
  Inductive astate : Type := AMain | AParshape (us : unitsystem N) (p : pparser N) | AFont (f : fparser).
  (** apps/page-editor/typesetting-machine.h:54-62 *)
  Inductive mstate : Set := Idle | ReadChar | ReadToken | Preprocess | SendToken | DigestToken.

  (** apps/page-editor/typesetting-machine.h:103-113. The heads of [ms_mem] and
      [ms_modes] are the backs of the vectors. [ms_loads]: the fonts loaded. *)
  Record machine := mkMachine {
    ms_mem : list memory; ms_in : stream; ms_lex : lexer; ms_pre : Preprocessor.pstate;
    ms_as : astate; ms_fonts : list (name * Z); ms_loads : list (name * name);
    ms_tokens : list token; ms_modes : list mode; ms_leave : bool; ms_state : mstate }.

  Definition set_mem (s : machine) x := mkMachine x (ms_in s) (ms_lex s) (ms_pre s) (ms_as s)
    (ms_fonts s) (ms_loads s) (ms_tokens s) (ms_modes s) (ms_leave s) (ms_state s).
  Definition set_in (s : machine) x := mkMachine (ms_mem s) x (ms_lex s) (ms_pre s) (ms_as s)
    (ms_fonts s) (ms_loads s) (ms_tokens s) (ms_modes s) (ms_leave s) (ms_state s).
  Definition set_lex (s : machine) x := mkMachine (ms_mem s) (ms_in s) x (ms_pre s) (ms_as s)
    (ms_fonts s) (ms_loads s) (ms_tokens s) (ms_modes s) (ms_leave s) (ms_state s).
  Definition set_pre (s : machine) x := mkMachine (ms_mem s) (ms_in s) (ms_lex s) x (ms_as s)
    (ms_fonts s) (ms_loads s) (ms_tokens s) (ms_modes s) (ms_leave s) (ms_state s).
  Definition set_as (s : machine) x := mkMachine (ms_mem s) (ms_in s) (ms_lex s) (ms_pre s) x
    (ms_fonts s) (ms_loads s) (ms_tokens s) (ms_modes s) (ms_leave s) (ms_state s).
  Definition set_fonts (s : machine) x y := mkMachine (ms_mem s) (ms_in s) (ms_lex s) (ms_pre s) (ms_as s)
    x y (ms_tokens s) (ms_modes s) (ms_leave s) (ms_state s).
  Definition set_tokens (s : machine) x := mkMachine (ms_mem s) (ms_in s) (ms_lex s) (ms_pre s) (ms_as s)
    (ms_fonts s) (ms_loads s) x (ms_modes s) (ms_leave s) (ms_state s).
  Definition set_modes (s : machine) x := mkMachine (ms_mem s) (ms_in s) (ms_lex s) (ms_pre s) (ms_as s)
    (ms_fonts s) (ms_loads s) (ms_tokens s) x (ms_leave s) (ms_state s).
  Definition set_leave (s : machine) x := mkMachine (ms_mem s) (ms_in s) (ms_lex s) (ms_pre s) (ms_as s)
    (ms_fonts s) (ms_loads s) (ms_tokens s) (ms_modes s) x (ms_state s).
  Definition set_mstate (s : machine) x := mkMachine (ms_mem s) (ms_in s) (ms_lex s) (ms_pre s) (ms_as s)
    (ms_fonts s) (ms_loads s) (ms_tokens s) (ms_modes s) (ms_leave s) x.

  (** typesetting-machine.h:126-134 [memory]: [m_memory.back()] *)
  Definition mem (s : machine) : result memory :=
    match ms_mem s with m :: _ => Ok m | [] => UB end.
  Definition change_mem (s : machine) (f : memory -> memory) : result machine :=
    match ms_mem s with m :: r => Ok (set_mem s (f m :: r)) | [] => UB end.
  (** typesetting-machine.cpp:83-91 [unitSystem] *)
  Definition unitSystem (s : machine) : result (unitsystem N) :=
    do m <- mem s;
    let f := me_font m in
    Ok (mkUS (ndiv (nadd (m_depth (k_paren K f)) (m_height (k_paren K f))) (nz 10))
             (k_quad K f) (k_xheight K f)).
  (** typesetting-machine.cpp:93-98 [beginGroup]; [m_memory.at] throws *)
  Definition m_beginGroup (s : machine) : result machine :=
    let s := set_pre s (beginGroup (ms_pre s)) in
    match ms_mem s with m :: r => Ok (set_mem s (m :: m :: r)) | [] => Throw end.
  (** typesetting-machine.cpp:100-104 [endGroup] *)
  Definition m_endGroup (s : machine) : result machine :=
    match ms_mem s with
    | [] => UB
    | _ :: r => do p <- endGroup (ms_pre s); Ok (set_pre (set_mem s r) p)
    end.
  (** typesetting-machine.cpp:106-114 [insert], [enter] *)
  Definition insert (s : machine) (t : token) : machine := set_tokens s (t :: ms_tokens s).
  Definition m_enter (s : machine) (m : mode) : machine := set_modes s (m :: ms_modes s).
  Definition set_cur (s : machine) (m : mode) : machine := set_modes s (m :: tl (ms_modes s)).

  (** horizontalmode.cpp:15-32: the constructors; the parent is the current
      mode (mode.cpp:9-13) *)
  Definition enter_h (s : machine) (r : routine) : result machine :=
    do _ <- mem s;
    match ms_modes s with
    | [] => UB
    | p :: _ =>
        Ok (m_enter s (MH (mkHMode (match mode_kind p with KHorizontal => true | _ => false end)
                              HMain [] n0 hbuilder_new 0 r)))
    end.
  (** mathmode.cpp:26-39 *)
  Definition enter_m (s : machine) : machine := m_enter s (MM MMain [] mp_init).

  (** * Vertical mode *)
  Definition cs_is (n : name) (x : string) : bool := name_eqb n (str x).
  Definition mathshift (t : token) : bool := token_is t MathShift.
  Definition the_dollar : token := TChar "$"%char MathShift.
  Definition vb_append (b : vbuilder N) (l : list (node N)) : vbuilder N :=
    mkVB (vb_result b ++ l) (vb_baselineskip b) (vb_lineskip b) (vb_lineskiplimit b) (vb_prevdepth b).

  (** verticalmode.cpp:68-101 [write_main], 151-156 [kern_callback] *)
  Definition v_main (s : machine) (b : vbuilder N) (t : token) : result machine :=
    match t with
    | TCs n =>
        if cs_is n "par" then Ok (set_cur s (MV VMain b))
        else if cs_is n "kern" then
          do us <- unitSystem s; Ok (set_cur s (MV (VKern us kp_init) b))
        else Throw
    | _ =>
        if mathshift t then Ok (set_cur s (MV VMathShift b))
        else do s <- enter_h (set_cur s (MV VMain b)) RVertical; Ok (insert s t)
    end.
  (** verticalmode.cpp:103-122 [write_kern] *)
  Definition v_kern (s : machine) (us : unitsystem N) (k : kparser) (b : vbuilder N) (t : token)
      : result machine :=
    match t with
    | TCs _ =>
        do x <- kp_finish (k_range K) us k;
        v_main s (vb_append b [NKern x]) t
    | TChar c _ =>
        do k <- kp_write k c;
        if kp_done k then
          do x <- kp_finish (k_range K) us k;
          Ok (set_cur s (MV VMain (vb_append b [NKern x])))
        else Ok (set_cur s (MV (VKern us k) b))
    | TParam _ => UB
    end.
  (** verticalmode.cpp:124-149 [write_mathshift] *)
  Definition v_mathshift (s : machine) (b : vbuilder N) (t : token) : result machine :=
    let s := set_cur s (MV VMain b) in
    if mathshift t then Ok (enter_m s)
    else
      do s <- enter_h s RThrow;
      do s <- enter_h s RVertical;
      Ok (insert (insert s t) the_dollar).
  Definition v_write (s : machine) (st : vstate) (b : vbuilder N) (t : token) : result machine :=
    match st with
    | VMain => v_main s b t
    | VMathShift => v_mathshift s b t
    | VKern us k => v_kern s us k b t
    end.

  (** * Horizontal mode *)
  Definition with_hstate (m : hmode) x := mkHMode (h_restricted m) x (h_buffer m) (h_lower m)
    (h_list m) (h_depth m) (h_routine m).
  Definition with_buffer (m : hmode) x := mkHMode (h_restricted m) (h_state m) x (h_lower m)
    (h_list m) (h_depth m) (h_routine m).
  Definition with_lower (m : hmode) x := mkHMode (h_restricted m) (h_state m) (h_buffer m) x
    (h_list m) (h_depth m) (h_routine m).
  Definition with_hlist (m : hmode) x := mkHMode (h_restricted m) (h_state m) (h_buffer m) (h_lower m)
    x (h_depth m) (h_routine m).
  Definition with_depth (m : hmode) x := mkHMode (h_restricted m) (h_state m) (h_buffer m) (h_lower m)
    (h_list m) x (h_routine m).

  (** mode.cpp:20-28: [m_group_depth] is a [size_t] *)
  Definition size_mod : Z := 18446744073709551616.

  (** include/tex/linebreaks.h and linebreaks.cpp:175-211: the lines of a
      paragraph, with the builder whose [prevdepth] the paragraph ends with *)
  Definition para_lines (P : para N) (l : list (node N)) : result (vbuilder N) :=
    match l with
    | [] => Ok (para_builder P)
    | _ =>
        do bps <- computeBreakpoints (k_pows K) P l;
        match bps with [] => UB | _ :: r => create_loop P l 0 r (para_builder P) end
    end.
  (** horizontalmode.cpp:292-298: the paragraph *)
  Definition paragraph (m : memory) (prevdepth : N) : para N :=
    let d := para_default in
    mkPara (p_tolerance d) (p_adjdemerits d) (p_linepenalty d) (me_hsize m) (p_hangindent d)
      (p_hangafter d) (me_parshape m) (p_leftskip d) (p_rightskip d) (p_parfillskip d)
      (me_baselineskip m) (me_lineskip m) (me_lineskiplimit m) prevdepth.
  (** horizontalmode.cpp:290-304 [writeToVerticalMode] *)
  Definition add_paragraph (m : memory) (b : vbuilder N) (l : list (node N)) : result (vbuilder N) :=
    let P := paragraph m (vb_prevdepth b) in
    do r <- para_lines P (prepare P l);
    Ok (mkVB (vb_result b ++ vb_result r) (vb_baselineskip b) (vb_lineskip b) (vb_lineskiplimit b)
             (vb_prevdepth r)).

  (** the vertical mode is at the bottom of the stack *)
  Fixpoint change_bottom (f : vbuilder N -> result (vbuilder N)) (l : list mode) : result (list mode) :=
    match l with
    | [] => UB
    | [MV st b] => do b <- f b; Ok [MV st b]
    | [_] => UB
    | m :: r => do r <- change_bottom f r; Ok (m :: r)
    end.
  (** horizontalmode.cpp:251-260 [write(ListBox)] *)
  Definition h_write_box (m : hmode) (b : lbox N) : hmode :=
    let nz0 := nonzero (h_lower m) in
    let b := if nz0 then setShiftAmount b (nadd (b_shift b) (h_lower m)) else b in
    let m := if nz0 then with_lower m n0 else m in
    with_hlist m (hb_push_box (h_list m) (node_of Horizontal b)).

  (** horizontalmode.cpp:278-304 [writeOutput] of the current mode [m] *)
  Definition h_output (s : machine) (m : hmode) : result machine :=
    match h_routine m with
    | RThrow => Throw
    | RVertical =>
        do me <- mem s;
        do modes <- change_bottom (fun b => add_paragraph me b (hb_result (h_list m))) (tl (ms_modes s));
        Ok (set_leave (set_modes s (MH m :: modes)) true)
    | RParent =>
        match tl (ms_modes s) with
        | MH p :: r =>
            Ok (set_leave (set_modes s (MH m :: MH (h_write_box p (hbox (hb_result (h_list m)))) :: r)) true)
        | _ => UB
        end
    end.

  (** horizontalmode.cpp:164-177 [beginGroup], [endGroup] *)
  Definition h_beginGroup (s : machine) (m : hmode) : result machine :=
    m_beginGroup (set_cur s (MH (with_depth m ((h_depth m + 1) mod size_mod)))).
  Definition h_endGroup (s : machine) (m : hmode) : result machine :=
    let m := with_depth m ((h_depth m - 1) mod size_mod) in
    do s <- m_endGroup (set_cur s (MH m));
    if h_restricted m && Z.eqb (h_depth m) 0 then h_output s m else Ok s.

  (** charbuffer.h: the bytes of a character *)
  Definition byte (c : ascii) : Z := Z.of_N (N_of_ascii c).

  (** horizontalmode.cpp:40-102 [write_main] and its callbacks 179-204 *)
  Definition h_main (s : machine) (m : hmode) (t : token) : result machine :=
    match t with
    | TCs n =>
        if cs_is n "par" then h_output s m
        else if cs_is n "kern" then
          do us <- unitSystem s; Ok (set_cur s (MH (with_hstate m (HKern us kp_init))))
        else if cs_is n "hbox" then enter_h (set_cur s (MH m)) RParent
        else if cs_is n "lower" then Ok (set_cur s (MH (with_hstate m (HLower dp_init))))
        else Throw
    | TParam _ => UB
    | TChar c k =>
        match k with
        | MathShift => Ok (set_cur s (MH (with_hstate m HMathShift)))
        | Letter | Other =>
            let buf := h_buffer m ++ [byte c] in
            do ready <- is_utf8_char buf;
            if ready then
              do x <- decode_char (k_debug K) (k_signed K) buf;
              do me <- mem s;
              Ok (set_cur s (MH (with_hlist (with_buffer m [])
                                   (hb_push_char (k_font K (me_font me)) (h_list m) (fst x)))))
            else Ok (set_cur s (MH (with_buffer m buf)))
        | Space =>
            do me <- mem s;
            let f := k_font K (me_font me) in
            Ok (set_cur s (MH (with_hlist m (hb_push_glue (h_list m)
                  (glue_make (hm_space f) (hm_shrink f) Normal (hm_stretch f) Normal)))))
        | GroupBegin => h_beginGroup s m
        | GroupEnd => h_endGroup s m
        | _ => Ok (set_cur s (MH m))
        end
    end.
  (** horizontalmode.cpp:104-123 [write_mathshift] *)
  Definition h_mathshift (s : machine) (m : hmode) (t : token) : result machine :=
    let m := with_hstate m HMain in
    let s := set_cur s (MH m) in
    if mathshift t then do s <- h_output s m; Ok (insert (insert s t) t)
    else Ok (insert (enter_m s) t).
  (** horizontalmode.cpp:125-144 [write_kern] *)
  Definition h_kern (s : machine) (m : hmode) (us : unitsystem N) (k : kparser) (t : token)
      : result machine :=
    match t with
    | TCs _ =>
        do x <- kp_finish (k_range K) us k;
        let m := with_hstate (with_hlist m (hb_push_kern (h_list m) x)) HMain in
        h_main (set_cur s (MH m)) m t
    | TChar c _ =>
        do k <- kp_write k c;
        if kp_done k then
          do x <- kp_finish (k_range K) us k;
          Ok (set_cur s (MH (with_hstate (with_hlist m (hb_push_kern (h_list m) x)) HMain)))
        else Ok (set_cur s (MH (with_hstate m (HKern us k))))
    | TParam _ => UB
    end.
  (** horizontalmode.cpp:146-162 [write_lower] *)
  Definition h_lowering (s : machine) (m : hmode) (d : dparser) (t : token) : result machine :=
    do d <- match t with TChar c _ => dp_write d c | _ => Ok d end;
    if isControlSequence t || dp_isFinished d then
      do x <- dp_finish (N := N) (k_range K) d;
      do us <- unitSystem s;
      do v <- d_eval x us;
      let m := with_hstate (with_lower m v) HMain in
      if isControlSequence t then h_main (set_cur s (MH m)) m t else Ok (set_cur s (MH m))
    else Ok (set_cur s (MH (with_hstate m (HLower d)))).
  Definition h_write (s : machine) (m : hmode) (t : token) : result machine :=
    match h_state m with
    | HMain => h_main s m t
    | HMathShift => h_mathshift s m t
    | HKern us k => h_kern s m us k t
    | HLower d => h_lowering s m d t
    end.

  (** * Math mode *)
  (** mathmode.cpp:90-122 [writeOutput] *)
  Definition m_output (s : machine) (st : mmstate) (buf : list Z) (p : mp) : result machine :=
    match tl (ms_modes s) with
    | MH h :: r =>
        do ml <- output (k_fuel K) p;
        do x <- mlist2hlist (k_math K) (k_fuel K) default_penalties T ml;
        let h := with_hlist h (mkHB (hb_result (h_list h) ++ fst x) 1000) in
        Ok (set_leave (set_modes s (MM st buf p :: MH h :: r)) true)
    | MV vs b :: r =>
        do ml <- output (k_fuel K) p;
        do x <- mlist2hlist (k_math K) (k_fuel K) default_penalties D ml;
        do me <- mem s;
        let box := hbox_to (hfil :: fst x ++ [hfil]) (me_hsize me) in
        let b := vb_push_box b (node_of Horizontal box) (b_metrics box) in
        Ok (set_leave (set_modes s (MM st buf p :: MV vs b :: r)) true)
    | _ => UB
    end.
  (** mathmode.cpp:79-83 *)
  Definition m_finish (s : machine) (st : mmstate) (buf : list Z) (p : mp) : result machine :=
    do p <- do_call p CFinish; m_output s st buf p.

  Definition m_call (s : machine) (buf : list Z) (p : mp) (c : call) : result machine :=
    do p <- do_call p c; Ok (set_cur s (MM MMain buf p)).
  (** mathmode.cpp:124-193 [write_main] *)
  Definition m_main (s : machine) (buf : list Z) (p : mp) (t : token) : result machine :=
    match t with
    | TCs n => do p <- writeControlSequence n p; Ok (set_cur s (MM MMain buf p))
    | TParam _ => UB
    | TChar c k =>
        match k with
        | MathShift =>
            match tl (ms_modes s) with
            | [] => UB
            | q :: _ =>
                match mode_kind q with
                | KHorizontal => m_finish s MMain buf p
                | _ => Ok (set_cur s (MM MMathShift buf p))
                end
            end
        | Letter | Other =>
            let buf := buf ++ [byte c] in
            do ready <- is_utf8_char buf;
            if ready then
              do x <- decode_char (k_debug K) (k_signed K) buf;
              do p <- writeSymbol (k_signed K) (fst x) p;
              Ok (set_cur s (MM MMain [] p))
            else Ok (set_cur s (MM MMain buf p))
        | Subscript => m_call s buf p CSub
        | Superscript => m_call s buf p CSup
        | GroupBegin => do s <- m_beginGroup s; m_call s buf p CBegin
        | GroupEnd => do s <- m_call s buf p CEnd; m_endGroup s
        | _ => Ok (set_cur s (MM MMain buf p))
        end
    end.
  Definition m_write (s : machine) (st : mmstate) (buf : list Z) (p : mp) (t : token) : result machine :=
    match st with
    | MMain => m_main s buf p t
    | MMathShift => if mathshift t then m_finish s MMathShift buf p else Throw
    end.

  (** [currentMode().write(t)] and [currentMode().finish()] *)
  Definition mode_write (s : machine) (t : token) : result machine :=
    match ms_modes s with
    | [] => UB
    | MV st b :: _ => v_write s st b t
    | MH m :: _ => h_write s m t
    | MM st buf p :: _ => m_write s st buf p t
    end.
  Definition mode_finish (s : machine) : result machine :=
    match ms_modes s with
    | [] => UB
    | MV _ _ :: _ => Ok s
    | MH m :: _ => h_output s m
    | MM st buf p :: _ => m_finish s st buf p
    end.

  (** * Assignments *)
  Fixpoint find_font (n : name) (l : list (name * Z)) : option Z :=
    match l with
    | [] => None
    | (k, f) :: r => if name_eqb n k then Some f else find_font n r
    end.
  (** assignment-processor.cpp:57-117 [write_main], [handleCs], [changeFont]:
      the machine and the output *)
  Definition as_main (s : machine) (t : token) : result (machine * list token) :=
    match t with
    | TCs n =>
        if cs_is n "parshape" then do us <- unitSystem s; Ok (set_as s (AParshape us pp_init), [])
        else if cs_is n "font" then Ok (set_as s (AFont fp_init), [])
        else
          match find_font n (ms_fonts s) with
          | Some f => do s <- change_mem s (fun m => set_font m f); Ok (s, [])
          | None => Ok (s, [t])
          end
    | _ => Ok (s, [t])
    end.
  (** assignment-processor.cpp:119-136 [write_parshape] *)
  Definition as_parshape (s : machine) (us : unitsystem N) (p : pparser N) (t : token)
      : result (machine * list token) :=
    do p <- match t with TChar c _ => pp_write (k_range K) us p c | _ => Ok p end;
    if match pp_st p with PFinished => true | _ => false end || isControlSequence t then
      do ps <- pp_finish (k_range K) us p;
      do s <- change_mem s (fun m => set_parshape m ps);
      let s := set_as s AMain in
      if isControlSequence t then as_main s t else Ok (s, [])
    else Ok (set_as s (AParshape us p), []).
  (** assignment-processor.cpp:138-155 [write_font] *)
  Definition as_font (s : machine) (f : fparser) (t : token) : result (machine * list token) :=
    do f <- match t with
            | TCs n => fp_write_cs f n
            | TChar c _ => fp_write f c
            | TParam _ => UB
            end;
    if fp_isFinished f then
      do x <- k_load K (ms_loads s) (fp_name f) (fp_spec f);
      Ok (set_as (set_fonts s ((fp_name f, x) :: ms_fonts s) (ms_loads s ++ [(fp_name f, fp_spec f)])) AMain, [])
    else Ok (set_as s (AFont f), []).
  Definition as_write (s : machine) (t : token) : result (machine * list token) :=
    match ms_as s with
    | AMain => as_main s t
    | AParshape us p => as_parshape s us p t
    | AFont f => as_font s f t
    end.

  (** * The loop *)
  (** typesetting-machine.cpp:121-129 [sendToken], 15-24 [send_token] *)
  Definition sendToken (s : machine) : result machine :=
    match p_output (ms_pre s) with
    | [] => Ok s
    | t :: r =>
        do x <- as_write (set_pre s (set_output (ms_pre s) r)) t;
        Ok (set_tokens (fst x) (ms_tokens (fst x) ++ snd x))
    end.
  (** typesetting-machine.cpp:131-147 [digestToken]: also, is there more *)
  Definition digestToken (s : machine) : result (machine * bool) :=
    match ms_tokens s with
    | [] => Ok (s, false)
    | t :: r =>
        do s <- mode_write (set_tokens s r) t;
        let s := if ms_leave s then set_leave (set_modes s (tl (ms_modes s))) false else s in
        Ok (s, match ms_tokens s with [] => false | _ => true end)
    end.
  Fixpoint digest (fuel : nat) (s : machine) : result machine :=
    match fuel with
    | O => Fuel
    | Datatypes.S n => do x <- digestToken s; if snd x then digest n (fst x) else Ok (fst x)
    end.
  (** enough for the tokens that there can be: [quick_one] in Proofs/PageMachine.v *)
  Definition digest_fuel (s : machine) : nat := 3 * List.length (ms_modes s) + 6.

  (** typesetting-machine.cpp:165-176: the end of the input *)
  Fixpoint finish_modes (n : nat) (s : machine) : result machine :=
    match n with
    | O => mode_finish s
    | Datatypes.S n =>
        do s <- mode_finish s;
        finish_modes n (set_modes (set_leave s false) (tl (ms_modes s)))
    end.

  (** typesetting-machine.cpp:157-234 [advance] *)
  Definition m_advance (s : machine) : result machine :=
    match ms_state s with
    | Idle => Ok s
    | ReadChar =>
        if atEnd (ms_in s) then
          do s <- finish_modes (List.length (ms_modes s) - 1) s; Ok (set_mstate s Idle)
        else
          do x <- read (ms_in s);
          let s := set_in s (snd x) in
          match write DefaultCatCodes (ms_lex s) (fst x) with
          | (_, Some _) => Throw
          | (l, None) =>
              Ok (set_mstate (set_lex s l) (match l_out l with [] => ReadChar | _ => ReadToken end))
          end
    | ReadToken =>
        match l_out (ms_lex s) with
        | t :: r =>
            let s := set_lex s (mkLexer (l_state (ms_lex s)) (l_buf (ms_lex s)) r) in
            do p <- pwrite (ms_pre s) t;
            Ok (set_mstate (set_pre s p) SendToken)
        | [] => Ok (set_mstate s ReadChar)
        end
    | Preprocess =>
        do p <- Preprocessor.advance (ms_pre s);
        Ok (set_mstate (set_pre s p)
              (match p_output p with
               | _ :: _ => SendToken
               | [] => match p_input p with _ :: _ => Preprocess | [] => ReadChar end
               end))
    | SendToken => do s <- sendToken s; Ok (set_mstate s DigestToken)
    | DigestToken =>
        do s <- digest (digest_fuel s) s;
        Ok (set_mstate s (match p_input (ms_pre s) with _ :: _ => Preprocess | [] => ReadToken end))
    end.

  (** typesetting-machine.cpp:149-155 [resume] *)
  Fixpoint resume (fuel : nat) (s : machine) : result machine :=
    match ms_state s with
    | Idle => Ok s
    | _ =>
        match fuel with
        | O => Fuel
        | Datatypes.S n => do s <- m_advance s; resume n s
        end
    end.

  (** typesetting-machine.cpp:46-69: the constructor, and mainwindow.cpp:110-111 *)
  Definition machine_new (font : Z) (hsize : N) : result machine :=
    let m := k_paren K 0 in
    let h := nadd (m_height m) (m_depth m) in
    let bs := glue_space (nmul (nlit (12 # 10)) h) in
    let ls := glue_space (nmul (nlit (1 # 10)) h) in
    do macros <- format_parse pageeditor_format;
    do p <- foldM define macros pinit;
    Ok (mkMachine [mkMem font bs ls n0 hsize []] (mkStream [] 0) lexer_init p AMain [] [] []
          [MV VMain (vbuilder_new bs ls)] false Idle).

  (** typesetting-machine.cpp:71-81 [typeset]; the [dynamic_cast] throws *)
  Definition start (s : machine) (text : list ascii) : machine :=
    set_mstate (set_in s (mkStream text 0)) ReadChar.
  Definition typeset (fuel : nat) (s : machine) (text : list ascii) : result (lbox N) :=
    do s <- resume fuel (start s text);
    match ms_modes s with
    | MV _ b :: _ => Ok (vbox (vb_result b))
    | [] => UB
    | _ => Throw
    end.

  (** typesetting-machine.cpp:229-233: the position that goes with an exception *)
  Definition error_position (s : machine) : result (nat * nat) :=
    match ms_state s with
    | ReadChar => if atEnd (ms_in s) then position (ms_in s)
                  else do x <- read (ms_in s); position (snd x)
    | _ => position (ms_in s)
    end.
End Machine.
Arguments host N : clear implicits.
Arguments memory N : clear implicits.
Arguments mode N : clear implicits.
Arguments hmode N : clear implicits.
Arguments vstate N : clear implicits.
Arguments hstate N : clear implicits.
Arguments astate N : clear implicits.
Arguments machine N : clear implicits.
