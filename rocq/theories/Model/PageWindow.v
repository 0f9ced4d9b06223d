(** Model of the main window of the page editor: the text, the page and the
    status line (apps/page-editor/mainwindow.cpp:41-118), and which exceptions
    the window and the machine catch (typesetting-machine.cpp:229-233,
    mainwindow.cpp:80-94). Not modelled: the times in the report, the words of
    the messages, the size of the window; the widget of the page is in
    Model/Render.v. *)
From Coq Require Import List Ascii String Bool Arith ZArith.
From Verif.Base Require Import Result Num.
From Verif.Model Require Import Token Lexer Macro Dimen DimenParser Box ListBuilders MathList MathParser MathTypeset
  PageEditor Preprocessor.
Import ListNotations.

(** QLabel *)
Inductive status : Set :=
| StNone                            (* as it is made *)
| StReport                          (* the time it took *)
| StError (line col : nat)          (* "line:col: what" *)
| StWhat.                           (* a message without a position *)
Record pwindow (N : Num) := mkPWin {
  pw_text : list ascii;             (* m_textedit->toPlainText().toStdString() *)
  pw_page : option (lbox N);        (* the box of m_pagewidget *)
  pw_status : status }.
Arguments mkPWin {N}. Arguments pw_text {N}. Arguments pw_page {N}. Arguments pw_status {N}.

Section Window.
  Context {N : Num}.
  Variable K : host N.
  Notation machine := (machine N).

  (** ** Exceptions that are no [std::runtime_error] *)
  (** [std::stof] throws [std::invalid_argument] or [std::out_of_range]
      (dimenparser.cpp:128) *)
  Definition stof_escapes (s : name) : bool :=
    match stof (N := N) (k_range K) s with Ok _ => false | _ => true end.
  (** verticalmode.cpp:103-122, horizontalmode.cpp:125-144, kernparser.cpp:19-59 *)
  Definition kern_escapes (k : kparser) (t : token) : bool :=
    match t with
    | TCs _ => stof_escapes (dp_factor (kp_dimen k))
    | TChar c _ =>
        match kp_write k c with Ok k' => kp_done k' && stof_escapes (dp_factor (kp_dimen k')) | _ => false end
    | TParam _ => false
    end.
  (** horizontalmode.cpp:146-162 *)
  Definition lower_escapes (d : dparser) (t : token) : bool :=
    match t with
    | TCs _ => stof_escapes (dp_factor d)
    | TChar c _ => match dp_write d c with Ok d' => dp_isFinished d' && stof_escapes (dp_factor d') | _ => false end
    | TParam _ => false
    end.
  (** typesetting-machine.cpp:97: [m_memory.at] throws [std::out_of_range]
      when no group was open *)
  Definition group_escapes (s : machine) (t : token) : bool :=
    match t, ms_mem s with TChar _ GroupBegin, [] => true | _, _ => false end.
  (** when [mode_write] throws for [t], whether it is one of these *)
  Definition token_escapes (s : machine) (t : token) : bool :=
    match ms_modes s with
    | MV (VKern _ k) _ :: _ => kern_escapes k t
    | MH m :: _ =>
        match h_state m with
        | HMain => group_escapes s t
        | HMathShift => false
        | HKern _ k => kern_escapes k t
        | HLower d => lower_escapes d t
        end
    | MM MMain _ _ :: _ => group_escapes s t
    | _ => false
    end.
  (** the same for [digest] *)
  Fixpoint digest_escapes (fuel : nat) (s : machine) : bool :=
    match fuel with
    | O => false
    | Datatypes.S n =>
        match digestToken K s with
        | Throw => match ms_tokens s with t :: _ => token_escapes s t | [] => false end
        | Ok (s', true) => digest_escapes n s'
        | _ => false
        end
    end.
  (** parshapeparser.cpp:20-142, for a token sent to [write_parshape] *)
  Definition shape_escapes (p : pparser N) (t : token) : bool :=
    match t with
    | TChar c _ =>
        match pp_st p with
        | PIndent | PLength =>
            match dp_write (pp_dimen p) c with Ok d => dp_isFinished d && stof_escapes (dp_factor d) | _ => false end
        | _ => false
        end
    | TCs _ =>
        match pp_st p with
        | PLength => Z.eqb (pp_num p) (pp_size p) && stof_escapes (dp_factor (pp_dimen p))
        | _ => false
        end
    | TParam _ => false
    end.
  Definition send_escapes (s : machine) : bool :=
    match p_output (ms_pre s), ms_as s with
    | t :: _, AParshape _ p => shape_escapes p t
    | _, _ => false
    end.
  (** when [m_advance] throws, whether the exception is not caught: all others
      of the lexer, the preprocessor, the modes and the typesetter are
      [std::runtime_error]s *)
  Definition escapes (s : machine) : bool :=
    match ms_state s with
    | SendToken => send_escapes s
    | DigestToken => digest_escapes (digest_fuel s) s
    | _ => false
    end.

  (** ** [resume], and the state it stops in *)
  Inductive stop : Type :=
  | StopIdle (s : machine)          (* the end *)
  | StopThrow (s : machine)         (* [advance] throws in this state *)
  | StopCrash (s : machine) (r : result machine)  (* undefined behaviour or a failed assertion *)
  | StopFuel.
  Fixpoint run_to (fuel : nat) (s : machine) : stop :=
    match ms_state s with
    | Idle => StopIdle s
    | _ =>
        match fuel with
        | O => StopFuel
        | Datatypes.S n =>
            match m_advance K s with
            | Ok s' => run_to n s'
            | Throw => StopThrow s
            | Fuel => StopFuel
            | r => StopCrash s r
            end
        end
    end.

  (** mainwindow.cpp:41-74: the constructor *)
  Definition window_new : pwindow N := mkPWin [] None StNone.

  (** mainwindow.cpp:80-118 [onTextChanged], [processText], when the text has
      become [text]. [Abort]: an exception that nobody catches; the
      [std::bad_cast] of [typeset] is one. *)
  Definition text_changed (fuel : nat) (hsize : N) (w : pwindow N) (text : list ascii) : result (pwindow N) :=
    let w := mkPWin text (pw_page w) (pw_status w) in
    match text with
    | [] => Ok w
    | _ =>
        match machine_new K 0 hsize with
        | Throw => Ok (mkPWin text (pw_page w) StWhat)
        | UB => UB | Abort => Abort | Fuel => Fuel
        | Ok s =>
            match run_to fuel (start s text) with
            | StopIdle s' =>
                match ms_modes s' with
                | MV _ b :: _ => Ok (mkPWin text (Some (vbox (vb_result b))) StReport)
                | [] => UB
                | _ => Abort
                end
            | StopThrow s' =>
                if escapes s' then Abort
                else do p <- error_position s'; Ok (mkPWin text (pw_page w) (StError (fst p) (snd p)))
            | StopCrash _ Abort => Abort
            | StopCrash _ _ => UB
            | StopFuel => Fuel
            end
        end
    end.

  (** mainwindow.cpp:68-70: the menu "TeX" *)
  Definition sample : list ascii := list_ascii_of_string "T\kern-.1667em\lower.5ex\hbox{E}\kern-.125em X".
  Inductive window_event : Type := ETyped (text : list ascii) | ESample.
  Definition new_text (e : window_event) : list ascii := match e with ETyped t => t | ESample => sample end.
End Window.
Arguments stop N : clear implicits.

(** ** The engine, which outlives the machines (mainwindow.cpp:45, 109): a font
    is loaded after all those of the texts before *)
Section Session.
  Context {N : Num}.
  Definition with_loads (K : host N) (old : list (name * name)) : host N :=
    mkHost (k_font K) (k_paren K) (k_quad K) (k_xheight K) (k_math K) (fun l => k_load K (old ++ l))
      (k_pows K) (k_range K) (k_debug K) (k_signed K) (k_fuel K).
  Definition stop_loads (x : stop N) : list (name * name) :=
    match x with StopIdle s | StopThrow s | StopCrash s _ => ms_loads s | StopFuel => [] end.
  (** the fonts a text loads *)
  Definition loads_by (K : host N) (fuel : nat) (hsize : N) (text : list ascii) : list (name * name) :=
    match text with
    | [] => []
    | _ => match machine_new K 0 hsize with Ok s => stop_loads (run_to K fuel (start s text)) | _ => [] end
    end.
  Record session := mkSession { se_window : pwindow N; se_loads : list (name * name) }.
  Variable K : host N.
  Definition session_event (fuel : nat) (hsize : N) (x : session) (e : window_event) : result session :=
    let K' := with_loads K (se_loads x) in
    do w <- text_changed K' fuel hsize (se_window x) (new_text e);
    Ok (mkSession w (se_loads x ++ loads_by K' fuel hsize (new_text e))).
  Definition window_session (fuel : nat) (hsize : N) (es : list window_event) : result session :=
    foldM (session_event fuel hsize) es (mkSession window_new []).
End Session.
Arguments session N : clear implicits.
