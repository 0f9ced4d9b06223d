(** Why the page editor crashes (C106). A crash is undefined behaviour or a
    failed assertion. *)
From Coq Require Import List Ascii String Bool Arith ZArith QArith.
From Verif.Base Require Import Result Num.
From Verif.Model Require Import Unicode Token Lexer Macro Dimen DimenParser Glue Box ListBuilders LineBreaks
  MathList MathParser MathTypeset MathFrontend PageEditor Preprocessor.
From Verif.Spec Require Import MacroSpec MathSpec LineBreakSpec EscapeSpec.
Import ListNotations.
Local Open Scope Z_scope.

Definition crashes {A} (r : result A) : Prop := r = UB \/ r = Abort.

Section Crashes.
  Context {N : Num}.
  Variable K : host N.
  Notation machine := (machine N).
  Notation mode := (mode N).

  (** * dimensions *)
  (** a number without a unit, or with one of the infinite units *)
  Definition no_unit (d : dparser) : Prop :=
    (exists q, stof_q (dp_factor d) = Some q /\ k_range K (Qred q) = true) /\ str2phyunit (dp_unit d) = None /\
    forall u, str2unit (dp_unit d) = Some u -> u = UFil \/ u = UFill \/ u = UFilll.

  (** * characters: one of four bytes has been completed *)
  Definition four_bytes (buf : list Z) : Prop :=
    exists a b c d, buf = [a; b; c; d] /\ is_utf8_char buf = Ok true.
  (** the bytes of the last, unfinished character *)
  Definition unfinished (m : mode) : option (list Z) :=
    match m with
    | MH h => match h_state h with HMain => Some (h_buffer h) | _ => None end
    | MM MMain buf _ => Some buf
    | _ => None
    end.

  (** * formulas *)
  (** the formula is complete, but the typesetter crashes *)
  Definition cannot_show (y : style) (p : mp) : Prop :=
    exists p' l, do_call p CFinish = Ok p' /\ output (k_fuel K) p' = Ok l /\
      crashes (mlist2hlist (k_math K) (k_fuel K) default_penalties y l).
  (** what can be an argument *)
  Inductive argument (buf : list Z) : token -> MathParser.call -> Prop :=
  | arg_brace c : argument buf (TChar c GroupBegin) CBegin
  | arg_word n y : cs_call n = Ok (CSym y) -> argument buf (TCs n) (CSym y)
  | arg_char c k x r : k = Letter \/ k = Other -> is_utf8_char (buf ++ [byte c]) = Ok true ->
      decode_char (k_debug K) (k_signed K) (buf ++ [byte c]) = Ok (x, r) -> x < 128 ->
      argument buf (TChar c k) (CSym (char_sym (k_signed K) (ascii_of_N (Z.to_N x)))).
  (** an argument is awaited, but the last node is not what awaits it *)
  Definition lost_argument (buf : list Z) (p : mp) (t : token) : Prop :=
    waiting p = true /\ exists k, argument buf t k /\ do_call p k = UB.

  (** * paragraphs *)
  Definition bad_lines (me : memory N) (b : vbuilder N) (l : list (node N)) : Prop :=
    let P := paragraph me (vb_prevdepth b) in
    l <> [] /\
    (computeBreakpoints (k_pows K) P (prepare P l) = UB \/
     exists bps, computeBreakpoints (k_pows K) P (prepare P l) = Ok bps /\
       ~ nonempty_lines (prepare P l) (tl (map (@bp_pos N) bps))).
  (** the page is at the bottom *)
  Definition page_of (l : list mode) (b : vbuilder N) : Prop := exists st r, l = r ++ [MV st b].
  Definition par : token := TCs (str "par"%string).
  (** the token ends the list, which is [l] then *)
  Inductive ends_list (h : hmode N) : token -> list (node N) -> Prop :=
  | end_par : h_state h = HMain -> ends_list h par (hb_result (h_list h))
  | end_dollars c : h_state h = HMathShift -> ends_list h (TChar c MathShift) (hb_result (h_list h))
  | end_kern us k x : h_state h = HKern us k -> kp_finish (k_range K) us k = Ok x ->
      ends_list h par (hb_result (hb_push_kern (h_list h) x))
  | end_lower d x : h_state h = HLower d -> dp_finish (N := N) (k_range K) d = Ok x -> d_isFinite x = true ->
      ends_list h par (hb_result (h_list h)).
  (** the brace ends the box of [h] *)
  Definition closes (h : hmode N) (t : token) : Prop :=
    h_state h = HMain /\ h_restricted h = true /\ (h_depth h - 1) mod size_mod = 0 /\ exists c, t = TChar c GroupEnd.

  (** * a token of the modes *)
  Inductive digest_cause (l : list mode) (mem : list (memory N)) (t : token) : Prop :=
  | of_character m r buf c k : l = m :: r -> unfinished m = Some buf -> t = TChar c k -> k = Letter \/ k = Other ->
      four_bytes (buf ++ [byte c]) -> k_debug K = true -> k_signed K = true -> digest_cause l mem t
  | of_lower h r d d' : l = MH h :: r -> h_state h = HLower d -> completes d t d' -> no_unit d' -> digest_cause l mem t
  | of_argument buf p r : l = MM MMain buf p :: r -> lost_argument buf p t ->
      (token_is t GroupBegin = true -> mem <> []) -> digest_cause l mem t
  | of_formula buf p h r c : l = MM MMain buf p :: MH h :: r -> t = TChar c MathShift -> cannot_show T p -> digest_cause l mem t
  | of_display buf p st b c : l = [MM MMathShift buf p; MV st b] -> t = TChar c MathShift -> cannot_show D p -> digest_cause l mem t
  | of_paragraph h r me more b xs : l = MH h :: r -> h_routine h = RVertical -> mem = me :: more -> page_of r b ->
      ends_list h t xs -> bad_lines me b xs -> digest_cause l mem t
  | of_box h r m0 me more b : l = MH h :: r -> h_routine h = RVertical -> mem = m0 :: me :: more -> page_of r b ->
      closes h t -> bad_lines me b (hb_result (h_list h)) -> digest_cause l mem t.

  (** * settings: none are left when more groups have been ended than begun *)
  (** what a list needs them for *)
  Inductive list_needs (h : hmode N) : token -> Prop :=
  | need_par : h_routine h = RVertical -> list_needs h par
  | need_kern : list_needs h (TCs (str "kern"%string))
  | need_hbox : list_needs h (TCs (str "hbox"%string))
  | need_char c k : k = Letter \/ k = Other -> is_utf8_char (h_buffer h ++ [byte c]) = Ok true -> list_needs h (TChar c k)
  | need_space c : list_needs h (TChar c Space)
  | need_end c : list_needs h (TChar c GroupEnd).
  (** the formula is complete and has been typeset *)
  Definition shown (y : style) (p : mp) : Prop :=
    exists p' l x, do_call p CFinish = Ok p' /\ output (k_fuel K) p' = Ok l /\
      mlist2hlist (k_math K) (k_fuel K) default_penalties y l = Ok x.
  Inductive needs : list mode -> token -> Prop :=
  | needs_text b c k : k <> MathShift -> needs [MV VMain b] (TChar c k)
  | needs_kern b : needs [MV VMain b] (TCs (str "kern"%string))
  | needs_kerns us k b x : kp_finish (k_range K) us k = Ok x -> needs [MV (VKern us k) b] (TCs (str "kern"%string))
  | needs_dollar b t : token_is t MathShift = false -> needs [MV VMathShift b] t
  | needs_list h r t : h_state h = HMain -> list_needs h t -> needs (MH h :: r) t
  | needs_dollars h r c : h_state h = HMathShift -> h_routine h = RVertical -> needs (MH h :: r) (TChar c MathShift)
  | needs_after us k x h r n : h_state h = HKern us k -> kp_finish (k_range K) us k = Ok x -> list_needs h (TCs n) ->
      needs (MH h :: r) (TCs n)
  | needs_lower d d' x h r t : h_state h = HLower d -> completes d t d' -> dp_finish (N := N) (k_range K) d' = Ok x ->
      needs (MH h :: r) t
  | needs_end buf p p' r c : do_call p CEnd = Ok p' -> needs (MM MMain buf p :: r) (TChar c GroupEnd)
  | needs_display buf p st b c : shown D p -> needs [MM MMathShift buf p; MV st b] (TChar c MathShift).
  (** there are none, or none that the paragraph ended by [t] could have *)
  Definition unset (l : list mode) (mem : list (memory N)) (t : token) : Prop :=
    (mem = [] /\ needs l t) \/ exists h r m, l = MH h :: r /\ h_routine h = RVertical /\ closes h t /\ mem = [m].

  (** * the end of the text: the modes are left *)
  Inductive finishes : machine -> machine -> Prop :=
  | finishes_refl s : finishes s s
  | finishes_step s s1 s' : tl (ms_modes s) <> [] -> mode_finish K s = Ok s1 ->
      finishes (set_modes (set_leave s1 false) (tl (ms_modes s1))) s' -> finishes s s'.
  Inductive finish_cause (l : list mode) (mem : list (memory N)) : Prop :=
  | fin_formula st buf p h r : l = MM st buf p :: MH h :: r -> cannot_show T p -> finish_cause l mem
  | fin_display st buf p vs b : l = [MM st buf p; MV vs b] -> cannot_show D p -> finish_cause l mem
  | fin_paragraph h r me more b : l = MH h :: r -> h_routine h = RVertical -> mem = me :: more -> page_of r b ->
      bad_lines me b (hb_result (h_list h)) -> finish_cause l mem.
  Inductive finish_needs : list mode -> Prop :=
  | fin_list h r : h_routine h = RVertical -> finish_needs (MH h :: r)
  | fin_shown st buf p vs b : shown D p -> finish_needs [MM st buf p; MV vs b].

  (** * assignments *)
  Inductive send_cause (a : astate N) (loads : list (name * name)) : token -> Prop :=
  | of_count us p c k : a = AParshape us p -> pp_st p = PNum -> is_digit c = true ->
      INT_MAX < pp_num p * 10 + digit_of c -> send_cause a loads (TChar c k)
  | of_shape us p t d : a = AParshape us p -> completes (pp_dimen p) t d -> no_unit d ->
      match t with
      | TCs _ => pp_st p = PLength /\ pp_num p = pp_size p
      | _ => pp_st p = PIndent \/ pp_st p = PLength
      end -> send_cause a loads t
  | of_font f c k f' : a = AFont f -> fp_write f c = Ok f' -> fp_isFinished f' = true ->
      crashes (k_load K loads (fp_name f') (fp_spec f')) -> send_cause a loads (TChar c k).
  Inductive send_needs (fonts : list (name * Z)) : astate N -> token -> Prop :=
  | needs_shape : send_needs fonts AMain (TCs (str "parshape"%string))
  | needs_font n f : n <> str "font"%string -> find_font n fonts = Some f -> send_needs fonts AMain (TCs n)
  | needs_last us p c k p' : pp_write (k_range K) us p c = Ok p' -> pp_st p' = PFinished ->
      send_needs fonts (AParshape us p) (TChar c k)
  | needs_word us p n ps : pp_finish (k_range K) us p = Ok ps -> send_needs fonts (AParshape us p) (TCs n).
  (** the token is the end of a definition *)
  Definition defines (q : pstate) (t : token) : Prop :=
    exists d r c k, p_frames q = FReading RMRepl d :: r /\ rm_nesting d = 0 /\ t = TChar c k /\ c = "}"%char.

  (** * the machine *)
  Definition cause (u : machine) : Prop :=
    match ms_state u with
    | Idle => False
    | ReadChar => atEnd (ms_in u) = true /\ exists s, finishes u s /\ finish_cause (ms_modes s) (ms_mem s)
    | ReadToken => exists t r, l_out (ms_lex u) = t :: r /\ isParameterToken t = true /\ in_csname (ms_pre u)
    | Preprocess => exists t r, p_input (ms_pre u) = t :: r /\ isParameterToken t = true /\ in_csname (ms_pre u)
    | SendToken => exists t r, p_output (ms_pre u) = t :: r /\ send_cause (ms_as u) (ms_loads u) t
    | DigestToken => exists s t r, digests K u s /\ ms_tokens s = t :: r /\ digest_cause (ms_modes s) (ms_mem s) t
    end.
  (** more groups were ended than begun *)
  Definition groups_gone (u : machine) : Prop :=
    match ms_state u with
    | Idle => False
    | ReadChar => atEnd (ms_in u) = true /\ exists s, finishes u s /\ ms_mem s = [] /\ finish_needs (ms_modes s)
    | ReadToken => ms_mem u = [] /\ exists t r, l_out (ms_lex u) = t :: r /\ defines (ms_pre u) t
    | Preprocess => ms_mem u = [] /\ exists t r, p_input (ms_pre u) = t :: r /\ defines (ms_pre u) t
    | SendToken => ms_mem u = [] /\ exists t r, p_output (ms_pre u) = t :: r /\ send_needs (ms_fonts u) (ms_as u) t
    | DigestToken => exists s t r, digests K u s /\ ms_tokens s = t :: r /\ unset (ms_modes s) (ms_mem s) t
    end.
End Crashes.
