(** C101: which formulas crash the equation editor; C102: its window. *)
From Coq Require Import List Ascii String QArith Qcanon ZArith Bool Arith Lia.
From Verif.Base Require Import Result Num.
From Verif.Model Require Import Token Lexer Box MathList MathParser MathTypeset MathFrontend EquationWindow.
From Verif.Spec Require Import LexerSpec MathSpec TypesetSpec EquationSpec TypesetOkSpec EquationOkSpec EquationWindowSpec.
From Verif.Proofs Require Import TypesetOk EquationOk EquationJudge EquationWindowProofs.
From Verif.Proofs Require TypesetFails TypesetNoThrow.
Import ListNotations.
Local Open Scope nat_scope.

Definition txt := list_ascii_of_string.

(** * C101 *)
(** lists that the typesetter can do, boxes in them included *)
Theorem C101_fine : forall (N : Num) (E : engine N), char_engine E -> self_equal N ->
  forall l p s n, math_list l = true -> fine l = true -> list_size l < n ->
  exists r, mlist2hlist E n p s l = Ok r.
Proof. intros N E HE HN l p s n A B C. destruct (fine_typesets E HE HN l p s n A B C) as (r & Er & _). eauto. Qed.
(** of the lists read from a text it can do no others *)
Theorem C101_crash : forall (N : Num) (E : engine N) l p s n, unboxed_list l = true -> list_size l < n ->
  fine l = false -> mlist2hlist E n p s l = UB \/ mlist2hlist E n p s l = Abort.
Proof.
  intros N E l p s n U L F. destruct (TypesetNoThrow.typeset_no_exception E n p s l L (unboxed_known _ U)) as [A B].
  assert (C := TypesetFails.typesets_fine E n p s l).
  destruct (mlist2hlist E n p s l) as [r| | | |]; auto; try congruence. specialize (C r U eq_refl). congruence.
Qed.
(** no list makes it throw, or run for ever *)
Theorem C101_no_throw : forall (N : Num) (E : engine N) n p s l, list_size l < n -> known_list l = true ->
  mlist2hlist E n p s l <> Fuel /\ mlist2hlist E n p s l <> Throw.
Proof. exact (fun N => TypesetNoThrow.typeset_no_exception). Qed.
(** every text that the parser takes is shown or crashes the editor, and its formula says which *)
Theorem C101_decided : forall (N : Num) (cs : bool) (E : engine N), char_engine E -> self_equal N ->
  forall text toks fin m0 m, lexes DefaultCatCodes true NewLine text toks fin ->
  fin <> BadCharacter -> fin <> BadParam ->
  foldM (eq_token cs) toks mp_init = Ok m0 -> do_call m0 CFinish = Ok m ->
  exists ts k, output_is m ts /\ forall fuel, k <= fuel ->
    (showable ts = true -> exists x, equation cs E fuel text = Ok x) /\
    (showable ts = false -> equation cs E fuel text = UB \/ equation cs E fuel text = Abort).
Proof. exact (fun N => equation_decided). Qed.
(** the editor always comes to an end *)
Theorem C101_terminates : forall (N : Num) (cs : bool) (E : engine N) text,
  exists k, forall fuel, k <= fuel -> equation cs E fuel text <> Fuel.
Proof. exact (fun N => equation_terminates). Qed.
(** the boundaries come in pairs, if there is no \over between \left and \right *)
Theorem C101_closed : forall l m ts, Forall code_call l -> overs_outside (l ++ [CFinish]) mp_init ->
  calls (l ++ [CFinish]) mp_init = Ok m -> output_is m ts -> everywhere closed ts = true.
Proof. exact output_closed. Qed.
(** texts without changes of style, and without such an \over, are shown or refused *)
Theorem C101_safe : forall (N : Num) (cs : bool) (E : engine N), char_engine E -> self_equal N ->
  forall text toks fin es, lexes DefaultCatCodes true NewLine text toks fin -> Forall2 (makes cs) toks es ->
  careful (List.concat es ++ [CFinish]) mp_init -> overs_outside (List.concat es ++ [CFinish]) mp_init ->
  Forall code_call (List.concat es) -> forallb (fun k => negb (style_call k)) (List.concat es) = true ->
  exists k, (forall fuel, k <= fuel -> exists x, equation cs E fuel text = Ok x) \/
            (forall fuel, k <= fuel -> equation cs E fuel text = Throw).
Proof. exact (fun N => equation_safe). Qed.
(** the texts of the grammar: shown, but for those with a part that only changes the style *)
Theorem C101_grammar : forall (N : Num) (cs : bool) (E : engine N), char_engine E -> self_equal N ->
  forall text toks fin es ts, lexes DefaultCatCodes true NewLine text toks fin ->
  fin <> BadCharacter -> fin <> BadParam -> Forall2 means toks es -> MathSpec.group (List.concat es) ts ->
  exists k, forall fuel, k <= fuel ->
    (everywhere (fun l => negb (only_styles l)) ts = true -> exists x, equation cs E fuel text = Ok x) /\
    (everywhere (fun l => negb (only_styles l)) ts = false ->
       equation cs E fuel text = UB \/ equation cs E fuel text = Abort).
Proof.
  intros N cs E HE HN text toks fin es ts Hl Hb Hp HM HG.
  exact (equation_grammar cs E HE HN text toks fin es ts Hl Hb Hp HM HG (group_closed _ _ HG)).
Qed.
(** texts that crash it, whatever the fonts and the arithmetic *)
Definition crashing : list string :=
  ["\textstyle "; "\scriptstyle\textstyle "; "x+{\textstyle}"; "x^{\scriptstyle}"; "\frac\textstyle x";
   "\sqrt{\textstyle}"; "\textstyle\over b"; "\left(a\over b}\right)"]%string.
Theorem C101_crashes : forall (N : Num) (cs : bool) (E : engine N) t, In t crashing ->
  exists k, forall fuel, k <= fuel ->
    equation cs E fuel (txt t) = UB \/ equation cs E fuel (txt t) = Abort.
Proof.
  intros N cs E t Ht. apply (judged_crash cs E 20).
  assert (H : forallb (fun t => match judge cs 20 (txt t) with Crashes => true | _ => false end) crashing = true)
    by (destruct cs; vm_compute; reflexivity).
  rewrite forallb_forall in H. specialize (H t Ht). destruct (judge cs 20 (txt t)); congruence.
Qed.

(** the exact numbers, and an engine *)
Example C101_exact : self_equal QcNum.
Proof. intros x. cbn. apply Qeq_bool_iff. reflexivity. Qed.
(** not so for a NaN: the assertion of rule 15 (math-typeset.cpp:909) may then fail *)
Definition qm (w h d : Z) : metrics QcNum := mkMetrics (N := QcNum) (Q2Qc (inject_Z h)) (Q2Qc (inject_Z d)) (Q2Qc (inject_Z w)).
Definition sample_params : fparams QcNum :=
  let u := Q2Qc 1 in mkFP (N := QcNum) u u u u u u u u u u u u u u u u u u u u.
Definition sample_engine : engine QcNum :=
  mkEngine (N := QcNum) (fun _ _ => sample_params) (fun _ _ _ => qm 7 2 5) (fun _ _ _ => Q2Qc 0)
    (fun y _ _ => NChar (s_char y) (qm 7 2 5)) (fun _ _ => NBox (qm 7 2 5)) (fun _ => NBox (qm 7 2 5)) (fun _ => NBox (qm 7 2 5)).
Example C101_engine : char_engine sample_engine.
Proof. intros y f z. reflexivity. Qed.
Definition outcome {A} (r : result A) : nat :=
  match r with Ok _ => 0 | Throw => 1 | UB => 2 | Abort => 3 | Fuel => 4 end.
Example C101_texts :
  map (fun t => outcome (equation true sample_engine 100 (txt t)))
    ["\frac{a+b}{c_1}"; "\left(a\over b\right)"; "\textstyle x"; "{a"; "\textstyle ";
     "\left(a\over b}\right)"]%string = [0; 1; 0; 1; 2; 3].
Proof. vm_compute. reflexivity. Qed.
(** the two are the lists that are not fine *)
Definition ord (c : Z) : tree := TAtom 0 (Sym (mkSym c 0 1)) Nothing Nothing.
Example C101_not_showable :
  (showable [TStyle T], showable [ord 120; TFrac [ord 97; TStyle T] [TStyle T]],
   showable [TFrac [TBoundary (mkSym 40 4 0); ord 97] [ord 98]; TBoundary (mkSym 41 5 0)],
   showable [TBoundary (mkSym 40 4 0); ord 97; TStyle T; TBoundary (mkSym 41 5 0)]) = (false, false, false, true).
Proof. reflexivity. Qed.

(** * C102: the window *)
(** Whatever the user types and clicks: if the editor lives, the bar has the offers for the
    text, and what is shown is the last formula that was found; the editor dies at the first text
    that is neither a formula nor refused. *)
Theorem C102_session : forall (N : Num) (cs : bool) (E : engine N) fuel es,
  let ts := session [] es in
  match foldM (handle cs E fuel) es window_init with
  | Ok w => handled (equation cs E fuel) ts /\ w_text w = last ts [] /\
            w_shown w = latest (equation cs E fuel) ts None /\ map b_content (w_bar w) = offers (w_text w)
  | _ => ~ handled (equation cs E fuel) ts
  end.
Proof.
  intros N cs E fuel es. assert (H := session_shows cs E fuel es window_init (proj1 ready_init)).
  change (w_text (window_init (N := N))) with (@nil ascii) in H. cbn zeta in H |- *.
  destruct (foldM (handle cs E fuel) es window_init) as [w| | | |]; try exact H.
  destruct H as (R & T' & Hd & Sh). repeat split; [exact Hd|exact T'|exact Sh|apply ready_offers; exact R].
Qed.
(** and it dies of that text, in the same way *)
Theorem C102_dies : forall (N : Num) (cs : bool) (E : engine N) fuel es,
  match foldM (handle cs E fuel) es window_init with
  | Ok _ => True
  | r => dies (equation cs E fuel) r (session [] es)
  end.
Proof. intros N cs E fuel es. exact (session_dies cs E fuel es window_init (proj1 ready_init)). Qed.
(** all that the buttons of an empty editor offer is shown *)
Definition fresh {N : Num} (cs : bool) (E : engine N) (fuel : nat) (es : list event) := foldM (handle cs E fuel) es (window_init (N := N)).
Lemma judged_all {N : Num} (cs : bool) (E : engine N) : char_engine E -> self_equal N -> forall l,
  forallb (fun t => match judge cs 20 t with Shown | Refused => true | _ => false end) l = true ->
  exists k, forall fuel, k <= fuel ->
    Forall (fun t => match judge cs 20 t with Shown => exists x, equation cs E fuel t = Ok x | _ => equation cs E fuel t = Throw end) l.
Proof.
  intros HE HN. induction l as [|t l IH]; intros H; [exists 0; constructor|].
  cbn [forallb] in H. apply andb_true_iff in H. destruct H as [A B]. destruct (IH B) as [k Hk].
  assert (J := judged cs E HE HN 20 t). destruct (judge cs 20 t) eqn:Ej; try discriminate A.
  - destruct J as [k' J]. exists (k + k'). intros fuel Hf. constructor; [rewrite Ej; apply J; lia|apply Hk; lia].
  - exists k. intros fuel Hf. constructor; [rewrite Ej; apply J|apply Hk; exact Hf].
Qed.
Theorem C102_templates : forall (N : Num) (cs : bool) (E : engine N), char_engine E -> self_equal N ->
  forall i s, nth_error templates i = Some s -> exists k, forall fuel, k <= fuel ->
  exists w x, handle cs E fuel window_init (Click i 0 0) = Ok w /\ w_text w = txt s /\
    equation cs E fuel (txt s) = Ok x /\ w_shown w = Some x /\ map b_content (w_bar w) = map txt operators.
Proof.
  intros N cs E HE HN i s Hi.
  assert (Hs : forallb (fun t => match judge cs 20 (txt t) with Shown => true | _ => false end) templates = true)
    by (destruct cs; vm_compute; reflexivity).
  rewrite forallb_forall in Hs. specialize (Hs s (nth_error_In _ _ Hi)).
  assert (J := judged cs E HE HN 20 (txt s)). destruct (judge cs 20 (txt s)); try discriminate Hs.
  destruct J as [k J]. exists k. intros fuel Hf. destruct (J fuel Hf) as [x Ex].
  assert (H := C102_session N cs E fuel [Click i 0 0]). cbn zeta in H.
  assert (Q : session [] [Click i 0 0] = [txt s]).
  { cbn [session]. change (offers []) with (map list_ascii_of_string templates). rewrite nth_error_map, Hi.
    cbn [option_map firstn skipn app last]. rewrite !app_nil_r. reflexivity. }
  rewrite Q in H. cbn [foldM] in H.
  destruct (handle cs E fuel window_init (Click i 0 0)) as [w| | | |]; cbn [bind] in H;
    try (exfalso; apply H; constructor; [rewrite Ex; exact Logic.I|constructor]).
  destruct H as (_ & T' & Sh & B). exists w, x. cbn [last latest] in T', Sh. rewrite Ex in Sh.
  split; [reflexivity|]. split; [exact T'|]. split; [exact Ex|]. split; [exact Sh|].
  rewrite B, T'. unfold offers. destruct i as [|[|[|i]]]; cbn in Hi; try (injection Hi as <-; reflexivity).
  destruct i; discriminate Hi.
Qed.
(** and can be typed, character by character *)
Theorem C102_typing : forall (N : Num) (cs : bool) (E : engine N), char_engine E -> self_equal N ->
  forall s, In s templates -> exists k, forall fuel, k <= fuel ->
  exists w x, fresh cs E fuel (map (fun t => Edit [t]) (keystrokes (txt s))) = Ok w /\
    equation cs E fuel (txt s) = Ok x /\ w_shown w = Some x.
Proof.
  intros N cs E HE HN s Hs.
  assert (A : forallb (fun s => forallb (fun t => match judge cs 20 t with Shown | Refused => true | _ => false end) (keystrokes (txt s))) templates = true)
    by (destruct cs; vm_compute; reflexivity).
  assert (B : forallb (fun s => match judge cs 20 (txt s) with Shown => true | _ => false end) templates = true)
    by (destruct cs; vm_compute; reflexivity).
  rewrite forallb_forall in A, B. specialize (A s Hs). specialize (B s Hs).
  destruct (judged_all cs E HE HN _ A) as [k1 K1].
  assert (J := judged cs E HE HN 20 (txt s)). destruct (judge cs 20 (txt s)) eqn:Ej; try discriminate B.
  destruct J as [k2 K2]. exists (k1 + k2). intros fuel Hf. specialize (K1 fuel ltac:(lia)). destruct (K2 fuel ltac:(lia)) as [x Ex].
  assert (Q : forall l t0, session t0 (map (fun t => Edit [t]) l) = l).
  { induction l as [|t l IH]; intros t0; [reflexivity|]. cbn [map session app]. rewrite IH. reflexivity. }
  assert (L : exists l, keystrokes (txt s) = l ++ [txt s]).
  { cbn [templates In] in Hs. destruct Hs as [<-|[<-|[<-|[]]]].
    - exists (removelast (keystrokes (txt "ax^2+bx+c"))). vm_compute. reflexivity.
    - exists (removelast (keystrokes (txt "\sqrt{2} + \sqrt{\frac{1}{2}}"))). vm_compute. reflexivity.
    - exists (removelast (keystrokes (txt "A + \left( \matrix{a & b \cr c & d} \right)"))). vm_compute. reflexivity. }
  destruct L as [l L].
  assert (H := C102_session N cs E fuel (map (fun t => Edit [t]) (keystrokes (txt s)))). cbn zeta in H. rewrite Q in H.
  unfold fresh. destruct (foldM (handle cs E fuel) _ window_init) as [w| | | |];
    try (exfalso; apply H; revert K1; apply Forall_impl; intros t Ht; destruct (judge cs 20 t); [destruct Ht as [y ->]|rewrite Ht..]; exact Logic.I).
  destruct H as (_ & _ & Sh & _). exists w, x. split; [reflexivity|]. split; [exact Ex|].
  rewrite Sh, L. rewrite latest_app. cbn [latest]. rewrite Ex. reflexivity.
Qed.
(** not so a formula that starts with a change of style: the editor dies before it is finished *)
Theorem C102_typing_refuted : forall (N : Num) (cs : bool) (E : engine N), exists k, forall fuel, k <= fuel ->
  let r := fresh cs E fuel (map (fun t => Edit [t]) (keystrokes (txt "\textstyle x"))) in
  forall w, r <> Ok w.
Proof.
  intros N cs E. destruct (C101_crashes N cs E "\textstyle "%string (or_introl eq_refl)) as [k K]. exists k. intros fuel Hf r w Hr.
  assert (H := C102_session N cs E fuel (map (fun t => Edit [t]) (keystrokes (txt "\textstyle x")))). cbn zeta in H.
  unfold r, fresh in Hr. rewrite Hr in H. destruct H as (H & _). unfold handled in H. rewrite Forall_forall in H.
  specialize (H (txt "\textstyle ")). assert (I0 : In (txt "\textstyle ") (session [] (map (fun t => Edit [t]) (keystrokes (txt "\textstyle x"))))).
  { vm_compute. repeat (first [left; reflexivity|right]). }
  specialize (H I0). destruct (K fuel Hf) as [Q|Q]; rewrite Q in H; exact H.
Qed.
(** finished, it is a formula *)
Example C102_styled : outcome (equation true sample_engine 100 (txt "\textstyle x")) = 0.
Proof. vm_compute. reflexivity. Qed.
(** a session: the first offer, a character, a bad character, nothing, an offer of the other bar *)
Example C102_events :
  let es := [Click 0 0 0; Edit [txt "ax^2+bx+c^"]; Edit [txt "x"; []; txt "xy"]; Click 1 1 1; Click 7 0 0] in
  match fresh true sample_engine 100 es with
  | Ok w => (string_of_list_ascii (w_text w), map (fun b => string_of_list_ascii (b_content b)) (w_bar w),
             match w_shown w with Some b => this (m_width (b_metrics b)) | None => 0%Q end,
             match equation true sample_engine 100 (txt "x\cap y") with Ok b => this (m_width (b_metrics b)) | _ => 1%Q end)
  | _ => (""%string, [], 0%Q, 1%Q)
  end = ("x\cap y"%string, ["\times "; "\cap "]%string, 193 # 9, 193 # 9)%Q.
Proof. vm_compute. reflexivity. Qed.

Print Assumptions C101_fine.
Print Assumptions C101_crash.
Print Assumptions C101_no_throw.
Print Assumptions C101_decided.
Print Assumptions C101_terminates.
Print Assumptions C101_closed.
Print Assumptions C101_safe.
Print Assumptions C101_grammar.
Print Assumptions C101_crashes.
Print Assumptions C102_session.
Print Assumptions C102_dies.
Print Assumptions C102_templates.
Print Assumptions C102_typing.
Print Assumptions C102_typing_refuted.
