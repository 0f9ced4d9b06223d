(** C108: the fonts of the engine over a session. A run is followed in two
    engines that have loaded other fonts before: the machines differ in the
    numbers of the fonts only. *)
From Coq Require Import List Ascii String ZArith Bool Arith Lia.
From Verif.Base Require Import Result Num.
From Verif.Model Require Import Token Lexer Unicode Macro Dimen DimenParser Glue Box ListBuilders LineBreaks MathList MathParser MathTypeset Tfm FontLoad
  PageEditor PageEngine PageWindow Preprocessor.
From Verif.Spec Require Import PageWindowSpec.
From Verif.Proofs Require Import PageText PageWindow.
Import ListNotations.
Local Open Scope list_scope.

Definition rrel {A B} (R : A -> B -> Prop) (r : result A) (q : result B) : Prop :=
  match r, q with
  | Ok x, Ok y => R x y
  | Throw, Throw | UB, UB | Abort, Abort | Fuel, Fuel => True
  | _, _ => False
  end.
Lemma rrel_bind {A B C D} (R : A -> B -> Prop) (S : C -> D -> Prop) a b f g :
  rrel R a b -> (forall x y, R x y -> rrel S (f x) (g y)) -> rrel S (bind a f) (bind b g).
Proof. destruct a, b; cbn; try tauto. auto. Qed.
Lemma rrel_same {A C D} (S : C -> D -> Prop) (a : result A) f g :
  (forall x, rrel S (f x) (g x)) -> rrel S (bind a f) (bind a g).
Proof. destruct a; cbn; auto. Qed.

Section Fit.
  Context {N : Num}.
  Variable K : host N.
  Variables (font' : Z -> hmetrics N) (paren' : Z -> metrics N) (quad' xheight' : Z -> N)
    (load' : list (name * name) -> name -> name -> result Z).
  Notation machine := (machine N).
  Notation K' := (mkHost font' paren' quad' xheight' (k_math K) load' (k_pows K) (k_range K) (k_debug K) (k_signed K) (k_fuel K)).
  Notation same_font := (same_font K K').

  Definition same_mem (m m' : memory N) : Prop :=
    same_font (me_font m) (me_font m') /\ me_baselineskip m = me_baselineskip m' /\ me_lineskip m = me_lineskip m' /\
    me_lineskiplimit m = me_lineskiplimit m' /\ me_hsize m = me_hsize m' /\ me_parshape m = me_parshape m'.
  Definition same_entry (p q : name * Z) : Prop := fst p = fst q /\ same_font (snd p) (snd q).
  (** [s] with other numbers of fonts *)
  Definition fit (s : machine) M F : machine :=
    mkMachine M (ms_in s) (ms_lex s) (ms_pre s) (ms_as s) F (ms_loads s) (ms_tokens s) (ms_modes s) (ms_leave s) (ms_state s).
  (** and which has loaded [l] *)
  Definition fits (l : list (name * name)) (s s' : machine) : Prop :=
    ms_loads s = l /\ exists M F, s' = fit s M F /\ Forall2 same_mem (ms_mem s) M /\ Forall2 same_entry (ms_fonts s) F.
  Lemma fit_ok l s M F : ms_loads s = l -> Forall2 same_mem (ms_mem s) M -> Forall2 same_entry (ms_fonts s) F ->
    rrel (fits l) (Ok s) (Ok (fit s M F)).
  Proof. intros. split; [assumption|]. eauto. Qed.

  Section One.
    Variables (s : machine) (M : list (memory N)) (F : list (name * Z)).
    Hypothesis HM : Forall2 same_mem (ms_mem s) M.
    Hypothesis HF : Forall2 same_entry (ms_fonts s) F.
    Lemma mem_fit : rrel same_mem (mem s) (mem (fit s M F)).
    Proof. unfold mem. cbn [fit ms_mem]. destruct HM; cbn; auto. Qed.
    Lemma units_fit : unitSystem K' (fit s M F) = unitSystem K s.
    Proof.
      unfold unitSystem, mem. cbn [fit ms_mem]. destruct HM as [|m m' r r' (SF & _) _]; [reflexivity|]. cbn [bind].
      destruct SF as (_ & -> & -> & ->). reflexivity.
    Qed.
  End One.

  Ltac norm := cbn [k_font k_paren k_quad k_xheight k_math k_pows k_range k_debug k_signed k_fuel fit ms_mem ms_in ms_lex ms_pre ms_as ms_fonts ms_loads ms_tokens ms_modes ms_leave ms_state
     set_mem set_in set_lex set_pre set_as set_fonts set_tokens set_modes set_leave set_mstate set_cur m_enter insert enter_m] in *.
  Ltac done := split; [reflexivity || assumption|];
    match goal with |- exists M F, ?x = _ /\ _ => exists (ms_mem x), (ms_fonts x) end;
    split; [reflexivity|split; norm; auto].
  Ltac step := norm; first
    [ exact Logic.I
    | match goal with
      | |- rrel _ (Ok _) (Ok _) => done
      | |- rrel _ (bind ?a _) (bind ?a _) => apply rrel_same; intros ?
      | |- rrel _ (if ?x then _ else _) (if ?x then _ else _) => destruct x
      | |- rrel _ (match ?x with _ => _ end) (match ?x with _ => _ end) => destruct x
      end ].

  Lemma begin_fit s M F : Forall2 same_mem (ms_mem s) M -> Forall2 same_entry (ms_fonts s) F ->
    rrel (fits (ms_loads s)) (m_beginGroup s) (m_beginGroup (fit s M F)).
  Proof.
    intros HM HF. unfold m_beginGroup. norm. destruct HM as [|m m' r r' A B]; [exact Logic.I|]. done.
  Qed.
  Lemma end_fit s M F : Forall2 same_mem (ms_mem s) M -> Forall2 same_entry (ms_fonts s) F ->
    rrel (fits (ms_loads s)) (m_endGroup s) (m_endGroup (fit s M F)).
  Proof.
    intros HM HF. unfold m_endGroup. norm. destruct HM as [|m m' r r' A B]; [exact Logic.I|]. repeat step.
  Qed.
  Lemma enter_fit s M F r : Forall2 same_mem (ms_mem s) M -> Forall2 same_entry (ms_fonts s) F ->
    rrel (fits (ms_loads s)) (enter_h s r) (enter_h (fit s M F) r).
  Proof.
    intros HM HF. unfold enter_h. apply (rrel_bind same_mem); [now apply mem_fit|]. intros _ _ _. repeat step.
  Qed.
  (** a lemma of this kind for a part, then the rest *)
  Ltac part L := eapply rrel_bind; [apply L; norm; assumption|];
    let s' := fresh "s" in let LE := fresh "LE" in let M' := fresh "M" in let F' := fresh "F" in
    let A := fresh "HM" in let B := fresh "HF" in
    intros s' ? (LE & M' & F' & -> & A & B); norm.
  Lemma weaken l l' s s' : l = l' -> fits l s s' -> fits l' s s'.
  Proof. now intros ->. Qed.
  Lemma weak l l' r r' : l = l' -> rrel (fits l) r r' -> rrel (fits l') r r'.
  Proof. now intros ->. Qed.

  Ltac use L := eapply weak; [|apply L; norm; assumption]; reflexivity.

  Lemma v_main_fit s M F b t : Forall2 same_mem (ms_mem s) M -> Forall2 same_entry (ms_fonts s) F ->
    rrel (fits (ms_loads s)) (v_main K s b t) (v_main K' (fit s M F) b t).
  Proof.
    intros HM HF.
    assert (X : rrel (fits (ms_loads s))
      (if mathshift t then Ok (set_cur s (MV VMathShift b)) else do s <- enter_h (set_cur s (MV VMain b)) RVertical; Ok (insert s t))
      (if mathshift t then Ok (set_cur (fit s M F) (MV VMathShift b))
       else do s <- enter_h (set_cur (fit s M F) (MV VMain b)) RVertical; Ok (insert s t))).
    { step; [step|]. change (set_cur (fit s M F) (MV VMain b)) with (fit (set_cur s (MV VMain b)) M F).
      part enter_fit. step. }
    destruct t as [c k|n|z]; cbn [v_main]; try exact X.
    step; [step|]. step; [|step]. rewrite (units_fit s M F HM). repeat step.
  Qed.
  Lemma v_write_fit s M F st b t : Forall2 same_mem (ms_mem s) M -> Forall2 same_entry (ms_fonts s) F ->
    rrel (fits (ms_loads s)) (v_write K s st b t) (v_write K' (fit s M F) st b t).
  Proof.
    intros HM HF. destruct st as [| |us k]; cbn [v_write].
    - use v_main_fit.
    - unfold v_mathshift. step; [step|]. change (set_cur (fit s M F) (MV VMain b)) with (fit (set_cur s (MV VMain b)) M F).
      part enter_fit. eapply weak; [exact LE|]. part enter_fit. step.
    - unfold v_kern. destruct t as [c k'|n|z]; [repeat step| |exact Logic.I].
      apply rrel_same. intros x. use v_main_fit.
  Qed.

  Lemma h_output_fit s M F m : Forall2 same_mem (ms_mem s) M -> Forall2 same_entry (ms_fonts s) F ->
    rrel (fits (ms_loads s)) (h_output K s m) (h_output K' (fit s M F) m).
  Proof.
    intros HM HF. unfold h_output. destruct (h_routine m); [exact Logic.I| |repeat step].
    apply (rrel_bind same_mem); [now apply mem_fit|]. intros me me' (_ & E1 & E2 & E3 & E4 & E5).
    assert (A : forall b l, add_paragraph K' me' b l = add_paragraph K me b l).
    { intros b l. unfold add_paragraph, paragraph. rewrite E1, E2, E3, E4, E5. reflexivity. }
    norm. replace (change_bottom (fun b => add_paragraph K' me' b (hb_result (h_list m))) (tl (ms_modes s)))
      with (change_bottom (fun b => add_paragraph K me b (hb_result (h_list m))) (tl (ms_modes s))).
    - repeat step.
    - induction (tl (ms_modes s)) as [|x r IH]; [reflexivity|]. cbn [change_bottom]. rewrite IH.
      destruct x; [|reflexivity..]. now rewrite A.
  Qed.
  Lemma h_main_fit s M F m t : Forall2 same_mem (ms_mem s) M -> Forall2 same_entry (ms_fonts s) F ->
    rrel (fits (ms_loads s)) (h_main K s m t) (h_main K' (fit s M F) m t).
  Proof.
    intros HM HF. destruct t as [c k|n|z]; cbn [h_main]; [| |exact Logic.I].
    - destruct k; try (step; fail).
      + unfold h_beginGroup. change (set_cur (fit s M F) ?x) with (fit (set_cur s x) M F). use begin_fit.
      + unfold h_endGroup. change (set_cur (fit s M F) ?x) with (fit (set_cur s x) M F). part end_fit.
        eapply weak; [exact LE|]. step; [use h_output_fit|step].
      + apply (rrel_bind same_mem); [now apply mem_fit|]. intros me me' ((-> & _) & _). step.
      + step. step; [|step]. step. apply (rrel_bind same_mem); [now apply mem_fit|]. intros me me' ((-> & _) & _). step.
      + step. step; [|step]. step. apply (rrel_bind same_mem); [now apply mem_fit|]. intros me me' ((-> & _) & _). step.
    - step; [use h_output_fit|]. step.
      { rewrite (units_fit s M F HM). repeat step. }
      step; [|repeat step]. change (set_cur (fit s M F) ?x) with (fit (set_cur s x) M F). use enter_fit.
  Qed.
  Lemma h_write_fit s M F m t : Forall2 same_mem (ms_mem s) M -> Forall2 same_entry (ms_fonts s) F ->
    rrel (fits (ms_loads s)) (h_write K s m t) (h_write K' (fit s M F) m t).
  Proof.
    intros HM HF. unfold h_write. destruct (h_state m) as [| |us k|d].
    - use h_main_fit.
    - unfold h_mathshift. cbv zeta. destruct (mathshift t); [|repeat step].
      change (set_cur (fit s M F) ?x) with (fit (set_cur s x) M F). part h_output_fit. step.
    - unfold h_kern. destruct t as [c k'|n|z]; [repeat step| |exact Logic.I].
      apply rrel_same. intros x. cbv zeta. change (set_cur (fit s M F) ?x) with (fit (set_cur s x) M F). use h_main_fit.
    - unfold h_lowering. rewrite (units_fit s M F HM). step. step; [|step]. step. step. step. cbv zeta.
      destruct (isControlSequence t); [|step].
      change (set_cur (fit s M F) ?x) with (fit (set_cur s x) M F). use h_main_fit.
  Qed.

  Lemma m_output_fit s M F st buf p : Forall2 same_mem (ms_mem s) M -> Forall2 same_entry (ms_fonts s) F ->
    rrel (fits (ms_loads s)) (m_output K s st buf p) (m_output K' (fit s M F) st buf p).
  Proof.
    intros HM HF. unfold m_output. norm. destruct (tl (ms_modes s)) as [|[vs b|h|? ? ?] r]; [exact Logic.I| |repeat step|exact Logic.I].
    step. step. apply (rrel_bind same_mem); [now apply mem_fit|]. intros me me' (_ & _ & _ & _ & -> & _). step.
  Qed.
  Lemma m_finish_fit s M F st buf p : Forall2 same_mem (ms_mem s) M -> Forall2 same_entry (ms_fonts s) F ->
    rrel (fits (ms_loads s)) (m_finish K s st buf p) (m_finish K' (fit s M F) st buf p).
  Proof. intros HM HF. unfold m_finish. step. use m_output_fit. Qed.
  Lemma m_call_fit s M F buf p c : Forall2 same_mem (ms_mem s) M -> Forall2 same_entry (ms_fonts s) F ->
    rrel (fits (ms_loads s)) (m_call s buf p c) (m_call (fit s M F) buf p c).
  Proof. intros HM HF. unfold m_call. repeat step. Qed.
  Lemma m_write_fit s M F st buf p t : Forall2 same_mem (ms_mem s) M -> Forall2 same_entry (ms_fonts s) F ->
    rrel (fits (ms_loads s)) (m_write K s st buf p t) (m_write K' (fit s M F) st buf p t).
  Proof.
    intros HM HF. destruct st; cbn [m_write]; [|step; [use m_finish_fit|step]].
    destruct t as [c k|n|z]; cbn [m_main]; [|repeat step|exact Logic.I].
    destruct k; try (step; fail).
    - part begin_fit. eapply weak; [exact LE|]. use m_call_fit.
    - part m_call_fit. eapply weak; [exact LE|]. use end_fit.
    - norm. destruct (tl (ms_modes s)) as [|q r]; [exact Logic.I|]. destruct (mode_kind q); [step|use m_finish_fit|step].
    - use m_call_fit.
    - use m_call_fit.
    - repeat step.
    - repeat step.
  Qed.
  Lemma mode_write_fit s M F t : Forall2 same_mem (ms_mem s) M -> Forall2 same_entry (ms_fonts s) F ->
    rrel (fits (ms_loads s)) (mode_write K s t) (mode_write K' (fit s M F) t).
  Proof.
    intros HM HF. unfold mode_write. cbn [fit ms_modes]. destruct (ms_modes s) as [|[st b|m|st buf p] r]; [exact Logic.I|..].
    - now apply v_write_fit.
    - now apply h_write_fit.
    - now apply m_write_fit.
  Qed.
  Lemma mode_finish_fit s M F : Forall2 same_mem (ms_mem s) M -> Forall2 same_entry (ms_fonts s) F ->
    rrel (fits (ms_loads s)) (mode_finish K s) (mode_finish K' (fit s M F)).
  Proof.
    intros HM HF. unfold mode_finish. cbn [fit ms_modes]. destruct (ms_modes s) as [|[st b|m|st buf p] r]; [exact Logic.I|..].
    - now apply fit_ok.
    - now apply h_output_fit.
    - now apply m_finish_fit.
  Qed.
  Lemma finish_modes_fit : forall n s M F, Forall2 same_mem (ms_mem s) M -> Forall2 same_entry (ms_fonts s) F ->
    rrel (fits (ms_loads s)) (finish_modes K n s) (finish_modes K' n (fit s M F)).
  Proof.
    induction n as [|n IH]; intros s M F HM HF; cbn [finish_modes]; [now apply mode_finish_fit|].
    part mode_finish_fit. eapply weak; [exact LE|].
    match goal with |- rrel (fits _) (finish_modes K n ?x) _ => exact (IH x M0 F0 HM0 HF0) end.
  Qed.
  Lemma digestToken_fit s M F : Forall2 same_mem (ms_mem s) M -> Forall2 same_entry (ms_fonts s) F ->
    rrel (fun x y => snd x = snd y /\ fits (ms_loads s) (fst x) (fst y)) (digestToken K s) (digestToken K' (fit s M F)).
  Proof.
    intros HM HF. unfold digestToken. norm. destruct (ms_tokens s) as [|t r].
    { split; [reflexivity|]. split; [reflexivity|]. exists M, F. auto. }
    match goal with |- rrel _ (bind (mode_write K ?x t) _) _ =>
      eapply rrel_bind; [exact (mode_write_fit x M F t HM HF)|] end.
    intros s' ? (LE & M' & F' & -> & A & B). norm. destruct (ms_leave s'); (split; [reflexivity|]); cbn [fst];
      (split; [exact LE|]); exists M', F'; auto.
  Qed.
  Lemma digest_fit : forall n s M F, Forall2 same_mem (ms_mem s) M -> Forall2 same_entry (ms_fonts s) F ->
    rrel (fits (ms_loads s)) (digest K n s) (digest K' n (fit s M F)).
  Proof.
    induction n as [|n IH]; intros s M F HM HF; cbn [digest]; [exact Logic.I|].
    eapply rrel_bind; [exact (digestToken_fit s M F HM HF)|].
    intros [s' x] [s'' y] (E & LE & M' & F' & E' & A & B). cbn [fst snd] in *. subst.
    destruct y; [|apply fit_ok; assumption]. eapply weak; [exact LE|]. now apply IH.
  Qed.
End Fit.

Section Two.
  Context {N : Num}.
  Variable K : host N.
  Variables (font' : Z -> hmetrics N) (paren' : Z -> metrics N) (quad' xheight' : Z -> N)
    (load' : list (name * name) -> name -> name -> result Z).
  Notation K' := (mkHost font' paren' quad' xheight' (k_math K) load' (k_pows K) (k_range K) (k_debug K) (k_signed K) (k_fuel K)).
  Variable L : list (name * name).
  Hypothesis AG : fonts_agree K K' L.
  Notation machine := (machine N).
  Notation same_mem := (same_mem K font' paren' quad' xheight' load').
  Notation same_entry := (same_entry K font' paren' quad' xheight' load').
  Notation fits := (fits K font' paren' quad' xheight' load').

  Definition like (s s' : machine) : Prop := fits (ms_loads s) s s'.
  Lemma like_of l s s' : fits l s s' -> like s s'.
  Proof. intros (<- & H). now split. Qed.
  Lemma rrel_mono {A B} (R S : A -> B -> Prop) r q : (forall x y, R x y -> S x y) -> rrel R r q -> rrel S r q.
  Proof. destruct r, q; cbn; auto. Qed.
  Definition pairs (l : list (name * name)) (x y : machine * list token) : Prop := snd x = snd y /\ fits l (fst x) (fst y).
  Lemma find_fit n : forall F F', Forall2 same_entry F F' ->
    match find_font n F, find_font n F' with Some x, Some y => same_font K K' x y | None, None => True | _, _ => False end.
  Proof.
    induction 1 as [|[k x] [k' y] F F' [E S] _ IH]; [exact Logic.I|]. cbn [fst snd] in E, S. subst k'. cbn [find_font].
    now destruct (name_eqb n k).
  Qed.
  Lemma change_fit s M F f f' : Forall2 same_mem (ms_mem s) M -> Forall2 same_entry (ms_fonts s) F ->
    (forall m m', same_mem m m' -> same_mem (f m) (f' m')) ->
    rrel (fits (ms_loads s)) (change_mem s f) (change_mem (fit s M F) f').
  Proof.
    intros HM HF S. unfold change_mem. cbn [fit ms_mem]. destruct HM as [|m m' r r' A B]; [exact Logic.I|].
    split; [reflexivity|]. exists (f' m' :: r'), F. split; [reflexivity|]. split; [constructor; auto|exact HF].
  Qed.
  Lemma as_main_fit s M F t : Forall2 same_mem (ms_mem s) M -> Forall2 same_entry (ms_fonts s) F ->
    rrel (pairs (ms_loads s)) (as_main K s t) (as_main K' (fit s M F) t).
  Proof.
    intros HM HF. assert (X : pairs (ms_loads s) (s, [t]) (fit s M F, [t])).
    { split; [reflexivity|]. split; [reflexivity|]. exists M, F. auto. }
    destruct t as [c k|n|z]; [exact X| |exact X]. cbn [as_main].
    destruct (cs_is n "parshape").
    { rewrite (units_fit K font' paren' quad' xheight' load' s M F HM). apply rrel_same. intros us. split; [reflexivity|]. split; [reflexivity|]. exists M, F. auto. }
    destruct (cs_is n "font").
    { split; [reflexivity|]. split; [reflexivity|]. exists M, F. auto. }
    cbn [fit ms_fonts]. pose proof (find_fit n _ _ HF) as FF.
    destruct (find_font n (ms_fonts s)) as [x|], (find_font n F) as [y|]; try contradiction; [|exact X].
    eapply rrel_bind.
    - apply change_fit; [exact HM|exact HF|]. intros m m' (_ & R). split; [exact FF|exact R].
    - intros s1 s2 H. split; [reflexivity|exact H].
  Qed.
  Lemma as_parshape_fit s M F us p t : Forall2 same_mem (ms_mem s) M -> Forall2 same_entry (ms_fonts s) F ->
    rrel (pairs (ms_loads s)) (as_parshape K s us p t) (as_parshape K' (fit s M F) us p t).
  Proof.
    intros HM HF. unfold as_parshape. apply rrel_same. intros q.
    destruct (match pp_st q with PFinished => true | _ => false end || isControlSequence t).
    - apply rrel_same. intros ps. eapply rrel_bind.
      + apply change_fit; [exact HM|exact HF|]. intros m m' (R & E1 & E2 & E3 & E4 & E5).
        split; [exact R|]. cbn. repeat split; assumption.
      + intros s' ? (LE & M' & F' & -> & A & B). cbv zeta. destruct (isControlSequence t).
        * rewrite <- LE. exact (as_main_fit (set_as s' AMain) M' F' t A B).
        * split; [reflexivity|]. split; [exact LE|]. exists M', F'. auto.
    - split; [reflexivity|]. split; [reflexivity|]. exists M, F. auto.
  Qed.
  Lemma as_font_fit s M F f t : Forall2 same_mem (ms_mem s) M -> Forall2 same_entry (ms_fonts s) F ->
    (forall x, as_font K s f t = Ok x -> exists r, L = ms_loads (fst x) ++ r) ->
    rrel (fun x y => snd x = snd y /\ like (fst x) (fst y)) (as_font K s f t) (as_font K' (fit s M F) f t).
  Proof.
    intros HM HF. unfold as_font.
    destruct (match t with TCs n => fp_write_cs f n | TChar c _ => fp_write f c | TParam _ => UB end) as [g| | | |];
      cbn [bind]; try (intros; exact Logic.I).
    destruct (fp_isFinished g).
    2:{ intros _. split; [reflexivity|]. split; [reflexivity|]. exists M, F. auto. }
    cbn [k_load fit ms_loads ms_fonts]. destruct AG as (_ & G1 & G2). cbn [k_load] in G1, G2.
    destruct (k_load K (ms_loads s) (fp_name g) (fp_spec g)) as [x| | | |] eqn:EL.
    - cbn [bind]. intros H. destruct (H _ eq_refl) as (r & E). cbn [fst set_as set_fonts ms_loads] in E.
      rewrite <- app_assoc in E. cbn [app] in E. destruct (G1 _ _ _ _ _ E EL) as (y & -> & S). cbn [bind].
      split; [reflexivity|]. split; [reflexivity|]. exists M, ((fp_name g, y) :: F). split; [reflexivity|].
      split; [exact HM|]. constructor; [|exact HF]. now split.
    - intros _. rewrite G2, EL; [exact Logic.I|]. intros x. now rewrite EL.
    - intros _. rewrite G2, EL; [exact Logic.I|]. intros x. now rewrite EL.
    - intros _. rewrite G2, EL; [exact Logic.I|]. intros x. now rewrite EL.
    - intros _. rewrite G2, EL; [exact Logic.I|]. intros x. now rewrite EL.
  Qed.
  Lemma as_write_fit s M F t : Forall2 same_mem (ms_mem s) M -> Forall2 same_entry (ms_fonts s) F ->
    (forall x, as_write K s t = Ok x -> exists r, L = ms_loads (fst x) ++ r) ->
    rrel (fun x y => snd x = snd y /\ like (fst x) (fst y)) (as_write K s t) (as_write K' (fit s M F) t).
  Proof.
    intros HM HF H. unfold as_write in *. cbn [fit ms_as]. destruct (ms_as s) as [|us p|f].
    - apply (rrel_mono (pairs (ms_loads s))); [|exact (as_main_fit s M F t HM HF)]. intros x y (E & X). split; [exact E|]. exact (like_of _ _ _ X).
    - apply (rrel_mono (pairs (ms_loads s))); [|exact (as_parshape_fit s M F us p t HM HF)]. intros x y (E & X). split; [exact E|].
      exact (like_of _ _ _ X).
    - now apply as_font_fit.
  Qed.
  Lemma send_fit s M F : Forall2 same_mem (ms_mem s) M -> Forall2 same_entry (ms_fonts s) F ->
    (forall s', sendToken K s = Ok s' -> exists r, L = ms_loads s' ++ r) ->
    rrel like (sendToken K s) (sendToken K' (fit s M F)).
  Proof.
    intros HM HF H. unfold sendToken in *. cbn [fit ms_pre]. destruct (p_output (ms_pre s)) as [|t r].
    { split; [reflexivity|]. exists M, F. auto. }
    set (s0 := set_pre s (set_output (ms_pre s) r)) in *.
    eapply rrel_bind; [apply (as_write_fit s0 M F t HM HF)|].
    - intros x E. rewrite E in H. exact (H _ eq_refl).
    - intros [s1 o] [s2 o'] (E & LE & M' & F' & E' & A & B). cbn [fst snd] in *. subst o' s2.
      split; [reflexivity|]. exists M', F'. auto.
  Qed.
  Lemma advance_fit s M F : Forall2 same_mem (ms_mem s) M -> Forall2 same_entry (ms_fonts s) F ->
    (forall s', m_advance K s = Ok s' -> exists r, L = ms_loads s' ++ r) ->
    rrel like (m_advance K s) (m_advance K' (fit s M F)).
  Proof.
    intros HM HF H.
    assert (X : forall s', ms_mem s' = ms_mem s -> ms_fonts s' = ms_fonts s -> rrel like (Ok s') (Ok (fit s' M F))).
    { intros s' E1 E2. split; [reflexivity|]. exists M, F. rewrite E1, E2. auto. }
    unfold m_advance in *. cbn [fit ms_state ms_in ms_lex ms_pre ms_modes]. destruct (ms_state s).
    - now apply X.
    - destruct (atEnd (ms_in s)).
      + eapply rrel_bind; [exact (finish_modes_fit K font' paren' quad' xheight' load' _ s M F HM HF)|]. intros s' ? (LE & M' & F' & -> & A & B).
        split; [reflexivity|]. exists M', F'. auto.
      + apply rrel_same. intros x. cbv zeta. destruct (write DefaultCatCodes (ms_lex s) (fst x)) as [l [e|]] eqn:E.
        * cbn [set_in ms_lex fit]. rewrite E. exact Logic.I.
        * cbn [set_in ms_lex fit]. rewrite E. split; [reflexivity|]. exists M, F. auto.
    - destruct (l_out (ms_lex s)) as [|t r]; [split; [reflexivity|]; exists M, F; auto|].
      cbn [set_lex fit ms_pre]. apply rrel_same. intros p. split; [reflexivity|]. exists M, F. auto.
    - apply rrel_same. intros p. split; [reflexivity|]. exists M, F. auto.
    - eapply rrel_bind; [apply (send_fit s M F HM HF)|].
      + intros s' E. rewrite E in H. exact (H _ eq_refl).
      + intros s' ? (LE & M' & F' & -> & A & B). split; [reflexivity|]. exists M', F'. auto.
    - eapply rrel_bind; [exact (digest_fit K font' paren' quad' xheight' load' _ s M F HM HF)|]. intros s' ? (LE & M' & F' & -> & A & B).
      split; [reflexivity|]. exists M', F'. auto.
  Qed.
End Two.

(** fonts are never unloaded *)
Section Mono.
  Context {N : Num}.
  Variable K : host N.
  Notation machine := (machine N).
  Notation same_mem := (same_mem K (k_font K) (k_paren K) (k_quad K) (k_xheight K) (k_load K)).
  Notation same_entry := (same_entry K (k_font K) (k_paren K) (k_quad K) (k_xheight K) (k_load K)).
  Lemma mem_refl (l : list (memory N)) : Forall2 same_mem l l.
  Proof. induction l; constructor; auto. repeat split. Qed.
  Lemma entry_refl l : Forall2 same_entry l l.
  Proof. induction l; constructor; auto. repeat split. Qed.
  Lemma rrel_ok {A B} (R : A -> B -> Prop) x q : rrel R (Ok x) q -> exists y, q = Ok y /\ R x y.
  Proof. destruct q; cbn; try contradiction. eauto. Qed.
  Lemma loads_of_rrel l (r : result machine) q s' : rrel (fits K (k_font K) (k_paren K) (k_quad K) (k_xheight K) (k_load K) l) r q -> r = Ok s' -> ms_loads s' = l.
  Proof. intros H ->. apply rrel_ok in H as (y & _ & E & _). exact E. Qed.
  Lemma pairs_of_rrel l r q x : rrel (pairs K (k_font K) (k_paren K) (k_quad K) (k_xheight K) (k_load K) l) r q -> r = Ok x -> ms_loads (fst x) = l.
  Proof. intros H ->. apply rrel_ok in H as (y & _ & _ & E & _). exact E. Qed.
  Lemma send_more s s' : sendToken K s = Ok s' -> exists r, ms_loads s' = ms_loads s ++ r.
  Proof.
    unfold sendToken. destruct (p_output (ms_pre s)) as [|t r].
    { intros E. injection E as <-. exists []. now rewrite app_nil_r. }
    set (s0 := set_pre s (set_output (ms_pre s) r)). intros H.
    apply bind_Ok in H as (x & A & B). injection B as <-. cbn [set_tokens ms_loads].
    unfold as_write in A. destruct (ms_as s0) as [|us p|f] eqn:EA.
    - exists []. rewrite app_nil_r. change (ms_loads s) with (ms_loads s0).
      exact (pairs_of_rrel _ _ _ _ (as_main_fit K (k_font K) (k_paren K) (k_quad K) (k_xheight K) (k_load K) s0 _ _ t (mem_refl _) (entry_refl _)) A).
    - exists []. rewrite app_nil_r. change (ms_loads s) with (ms_loads s0).
      exact (pairs_of_rrel _ _ _ _ (as_parshape_fit K (k_font K) (k_paren K) (k_quad K) (k_xheight K) (k_load K) s0 _ _ us p t (mem_refl _) (entry_refl _)) A).
    - unfold as_font in A. apply bind_Ok in A as (g & _ & A). destruct (fp_isFinished g).
      + apply bind_Ok in A as (y & _ & A). injection A as <-. exists [(fp_name g, fp_spec g)]. reflexivity.
      + injection A as <-. exists []. now rewrite app_nil_r.
  Qed.
  Lemma advance_more s s' : m_advance K s = Ok s' -> exists r, ms_loads s' = ms_loads s ++ r.
  Proof.
    assert (X : forall u : machine, ms_loads u = ms_loads s -> exists r, ms_loads u = ms_loads s ++ r) by (intros u ->; exists []; now rewrite app_nil_r).
    unfold m_advance. destruct (ms_state s).
    - intros E. injection E as <-. now apply X.
    - destruct (atEnd (ms_in s)).
      + intros H. apply bind_Ok in H as (u & A & B). injection B as <-. apply X. cbn [set_mstate ms_loads].
        exact (loads_of_rrel _ _ _ _ (finish_modes_fit K (k_font K) (k_paren K) (k_quad K) (k_xheight K) (k_load K) _ s _ _ (mem_refl _) (entry_refl _)) A).
      + intros H. apply bind_Ok in H as (x & _ & A). cbv zeta in A. cbn [set_in ms_lex] in A.
        destruct (write DefaultCatCodes (ms_lex s) (fst x)) as [l [e|]]; [discriminate A|]. injection A as <-. now apply X.
    - destruct (l_out (ms_lex s)) as [|t r]; intros H; [injection H as <-; now apply X|].
      cbv zeta in H. apply bind_Ok in H as (p & _ & A). injection A as <-. now apply X.
    - intros H. apply bind_Ok in H as (p & _ & A). injection A as <-. now apply X.
    - intros H. apply bind_Ok in H as (u & A & B). injection B as <-. exact (send_more _ _ A).
    - intros H. apply bind_Ok in H as (u & A & B). injection B as <-. apply X. cbn [set_mstate ms_loads].
      exact (loads_of_rrel _ _ _ _ (digest_fit K (k_font K) (k_paren K) (k_quad K) (k_xheight K) (k_load K) _ s _ _ (mem_refl _) (entry_refl _)) A).
  Qed.
  Lemma run_loads : forall n s, run_to K n s <> StopFuel -> exists r, stop_loads (run_to K n s) = ms_loads s ++ r.
  Proof.
    assert (X : forall u : machine, exists r, ms_loads u = ms_loads u ++ r) by (intros u; exists []; now rewrite app_nil_r).
    induction n as [|n IH]; intros s H; cbn [run_to] in *.
    { destruct (ms_state s); try congruence. apply X. }
    destruct (ms_state s); try apply X;
    (destruct (m_advance K s) as [s'| | | |] eqn:E; try apply X; [|congruence];
     destruct (IH s' H) as (r & E1); destruct (advance_more _ _ E) as (r' & E2); exists (r' ++ r); rewrite E1, E2; now rewrite <- app_assoc).
  Qed.
End Mono.

Section Runs.
  Context {N : Num}.
  Variable K : host N.
  Variables (font' : Z -> hmetrics N) (paren' : Z -> metrics N) (quad' xheight' : Z -> N)
    (load' : list (name * name) -> name -> name -> result Z).
  Notation K' := (mkHost font' paren' quad' xheight' (k_math K) load' (k_pows K) (k_range K) (k_debug K) (k_signed K) (k_fuel K)).
  Variable L : list (name * name).
  Hypothesis AG : fonts_agree K K' L.
  Notation machine := (machine N).
  Notation like := (like K font' paren' quad' xheight' load').

  Definition stops (x y : stop N) : Prop :=
    match x, y with
    | StopIdle s, StopIdle s' => like s s'
    | StopThrow s, StopThrow s' => like s s'
    | StopCrash s r, StopCrash s' r' => like s s' /\ (r = Abort <-> r' = Abort)
    | StopFuel, StopFuel => True
    | _, _ => False
    end.
  Lemma run_fit : forall n s s', like s s' -> run_to K n s <> StopFuel ->
    (exists r, L = stop_loads (run_to K n s) ++ r) -> stops (run_to K n s) (run_to K' n s').
  Proof.
    induction n as [|n IH]; intros s s2 LK NF PR; cbn [run_to] in *.
    { destruct LK as (LE & M & F & -> & HM & HF). cbn [fit ms_state]. destruct (ms_state s); try exact Logic.I.
      split; [exact LE|]. exists M, F. auto. }
    pose proof LK as LK0. destruct LK as (LE & M & F & E2 & HM & HF). rewrite E2 at 1. cbn [fit ms_state].
    assert (AD : ms_state s <> Idle -> rrel like (m_advance K s) (m_advance K' s2)).
    { intros NI. rewrite E2. apply (advance_fit K font' paren' quad' xheight' load' L AG s M F HM HF). intros s' A. rewrite A in NF, PR.
      destruct PR as (r & ->).
      assert (NF' : run_to K n s' <> StopFuel) by (destruct (ms_state s); congruence).
      destruct (run_loads K n s' NF') as (r' & E).
      exists (r' ++ r). destruct (ms_state s); try congruence; rewrite E; now rewrite <- app_assoc. }
    destruct (ms_state s); try exact LK0;
    (specialize (AD ltac:(discriminate)); destruct (m_advance K s) as [s'| | | |], (m_advance K' s2) as [s2'| | | |]; cbn [rrel] in AD; try contradiction;
     [now apply IH|exact LK0|split; [exact LK0|tauto]|split; [exact LK0|tauto]]).
  Qed.

  Lemma digest_escapes_fit : forall n (s s' : machine), like s s' -> digest_escapes K n s = digest_escapes K' n s'.
  Proof.
    induction n as [|n IH]; intros s s' LK; [reflexivity|]. pose proof LK as (LE & M & F & -> & HM & HF). cbn [digest_escapes].
    pose proof (digestToken_fit K font' paren' quad' xheight' load' s M F HM HF) as R.
    destruct (digestToken K s) as [[u x]| | | |], (digestToken K' (fit s M F)) as [[u' x']| | | |]; cbn [rrel] in R; try contradiction; try reflexivity.
    - destruct R as (E & R). cbn [fst snd] in *. subst x'. destruct x; [|reflexivity]. apply IH. exact (like_of _ _ _ _ _ _ _ _ _ R).
    - cbn [fit ms_tokens]. destruct (ms_tokens s) as [|t r]; [reflexivity|]. unfold token_escapes. cbn [fit ms_modes].
      assert (G : group_escapes (fit s M F) t = group_escapes s t).
      { unfold group_escapes. cbn [fit ms_mem]. destruct HM; destruct t as [c []| |]; reflexivity. }
      rewrite G. reflexivity.
  Qed.
  Lemma escapes_fit s s' : like s s' -> escapes K s = escapes K' s'.
  Proof.
    intros LK. pose proof LK as (LE & M & F & -> & HM & HF). unfold escapes. cbn [fit ms_state].
    destruct (ms_state s); try reflexivity. exact (digest_escapes_fit (digest_fuel s) s _ LK).
  Qed.
End Runs.


Section Same.
  Context {N : Num}.
  (** the same text in two engines *)
  Lemma changed_same (K K' : host N) n h w text : alike K K' -> fonts_agree K K' (loads_by K n h text) ->
    text_changed K n h w text <> Fuel ->
    text_changed K' n h w text = text_changed K n h w text /\ loads_by K' n h text = loads_by K n h text.
  Proof.
    intros (E1 & E2 & E3 & E4 & E5 & E6) AG NF. destruct K' as [font' paren' quad' xheight' math' load' pows' range' debug' signed' fuel'].
    cbn [k_math k_pows k_range k_debug k_signed k_fuel] in E1, E2, E3, E4, E5, E6. subst.
    set (K' := mkHost _ _ _ _ _ _ _ _ _ _ _) in *.
    assert (MN : machine_new K' 0 h = machine_new K 0 h).
    { unfold machine_new. destruct AG as ((_ & -> & _) & _). reflexivity. }
    destruct text as [|c text]; [split; reflexivity|]. destruct (new_exists K 0 h) as (s & ES).
    unfold text_changed, loads_by in *. rewrite MN. rewrite ES in NF, AG |- *. clear MN.
    cbv zeta in *. set (s0 := start s (c :: text)) in *.
    assert (NR : run_to K n s0 <> StopFuel) by (intros E; rewrite E in NF; congruence).
    assert (LK : like K font' paren' quad' xheight' load' s0 s0).
    { split; [reflexivity|]. exists (ms_mem s0), (ms_fonts s0). split; [now destruct s0|].
      unfold machine_new in ES. apply bind_Ok in ES as (ma & _ & ES). apply bind_Ok in ES as (p & _ & ES).
      injection ES as <-. destruct AG as (S0 & _). split; [|constructor]. constructor; [|constructor].
      split; [exact S0|]. repeat split. }
    pose proof (run_fit K font' paren' quad' xheight' load' _ AG n s0 s0 LK NR (ex_intro _ [] (eq_sym (app_nil_r _)))) as R.
    fold K' in R.
    destruct (run_to K n s0) as [u|u|u r|], (run_to K' n s0) as [u'|u'|u' r'|]; cbn [stops] in R; try contradiction.
    - destruct R as (LE & M & F & -> & _). cbn [fit ms_modes stop_loads ms_loads]. now split.
    - pose proof (escapes_fit K font' paren' quad' xheight' load' u u' R) as E. fold K' in E. rewrite E.
      destruct R as (LE & M & F & -> & _). now split.
    - destruct R as ((LE & M & F & -> & _) & E). cbn [fit stop_loads ms_loads]. split; [|reflexivity].
      destruct r, r'; try reflexivity; exfalso; destruct E as [A B]; first [discriminate (A eq_refl)|discriminate (B eq_refl)].
  Qed.

End Same.

Section Engines.
  Context {N : Num}.
  Variables (to_float : name -> option N) (to_int : N -> option Z) (line_height : qfont -> N) (mag : N) (any : fontdimen N)
    (Q : looks N) (first : entry N) (own : list (entry N)) (W : host N).
  Notation table := (engine_table to_float to_int line_height mag any first own).
  Notation TH := (engine_host to_float to_int line_height mag any Q first own W).
  Notation load := (loadFont to_float to_int line_height mag any).
  Lemma table_more l : forall r, exists m, table (l ++ r) = table l ++ m.
  Proof.
    induction r as [|[n sp] r IH] using rev_ind; [exists []; now rewrite !app_nil_r|].
    destruct IH as (m & E). unfold engine_table in *. rewrite app_assoc, fold_left_app. cbn [fold_left fst snd]. rewrite E.
    unfold loadFont. destruct (font_of to_float to_int mag sp) as [f| | | |]; cbn [bind fst]; try (exists m; reflexivity).
    eexists. rewrite <- app_assoc. reflexivity.
  Qed.
  Lemma table_first l : exists m, table l = first :: m.
  Proof. destruct (table_more [] l) as (m & E). cbn [app] in E. rewrite E. cbn. eauto. Qed.
  Lemma first_at l : font_at to_float to_int line_height mag any first own l 0 = first.
  Proof. unfold font_at. destruct (table_first l) as (m & ->). reflexivity. Qed.
  (** the font loaded after [l], by whatever is loaded later *)
  Lemma font_here l n sp r t f : load (table l) n sp = Ok (t, f) ->
    exists g, font_of to_float to_int mag sp = Ok g /\ f = Z.of_nat (List.length (table l)) /\
      font_at to_float to_int line_height mag any first own (l ++ (n, sp) :: r) f =
        mkEntry n g (t_dimen (to_absolute (mkTfm (line_height g) (t_dimen (cmr10_tfm any))))).
  Proof.
    unfold loadFont. destruct (font_of to_float to_int mag sp) as [g| | | |] eqn:G; try discriminate. cbn [bind].
    intros H. assert (E0 : f = Z.of_nat (List.length (table l))).
    { apply (f_equal (fun r => match r with Ok x => snd x | _ => 0%Z end)) in H. symmetry. exact H. }
    clear H. subst f. exists g. split; [reflexivity|]. split; [reflexivity|].
    unfold font_at. rewrite Nat2Z.id. change ((n, sp) :: r) with ([(n, sp)] ++ r). rewrite app_assoc.
    destruct (table_more (l ++ [(n, sp)]) r) as (m & ->).
    assert (E : table (l ++ [(n, sp)]) = table l ++ [mkEntry n g (t_dimen (to_absolute (mkTfm (line_height g) (t_dimen (cmr10_tfm any)))))]).
    { unfold engine_table. rewrite fold_left_app. cbn [fold_left fst snd]. unfold loadFont. rewrite G. reflexivity. }
    rewrite E, <- app_assoc. cbn [app]. now rewrite nth_middle.
  Qed.
  Lemma load_any t t' n sp : match load t n sp, load t' n sp with
    | Ok _, Ok _ | Throw, Throw | UB, UB | Abort, Abort | Fuel, Fuel => True | _, _ => False end.
  Proof. unfold loadFont. destruct (font_of to_float to_int mag sp); exact Logic.I. Qed.
  (** the fonts [L] after the fonts [o], and after the fonts [o'] *)
  Lemma engines_agree o o' L rest rest' :
    fonts_agree (with_loads (TH (o ++ L ++ rest)) o) (with_loads (TH (o' ++ L ++ rest')) o') L.
  Proof.
    split; [|split].
    - unfold same_font. cbn [with_loads engine_host k_font k_paren k_quad k_xheight]. rewrite !first_at. repeat split.
    - intros l n sp r x E H. cbn [with_loads engine_host k_load] in *.
      pose proof (load_any (table (o ++ l)) (table (o' ++ l)) n sp) as LA.
      destruct (load (table (o ++ l)) n sp) as [[t f]| | | |] eqn:E1; try discriminate H. injection H as <-.
      destruct (load (table (o' ++ l)) n sp) as [[t' f']| | | |] eqn:E2; try contradiction.
      exists f'. split; [reflexivity|].
      destruct (font_here (o ++ l) n sp (r ++ rest) t f E1) as (g & G & _ & P).
      destruct (font_here (o' ++ l) n sp (r ++ rest') t' f' E2) as (g' & G' & _ & P').
      rewrite G in G'. injection G' as <-.
      assert (X : o ++ L ++ rest = (o ++ l) ++ (n, sp) :: r ++ rest) by (rewrite E, <- !app_assoc; reflexivity).
      assert (X' : o' ++ L ++ rest' = (o' ++ l) ++ (n, sp) :: r ++ rest') by (rewrite E, <- !app_assoc; reflexivity).
      unfold same_font. cbn [with_loads engine_host k_font k_paren k_quad k_xheight]. rewrite X, X', P, P'. repeat split.
    - intros l n sp H. cbn [with_loads engine_host k_load] in *.
      pose proof (load_any (table (o ++ l)) (table (o' ++ l)) n sp) as LA.
      destruct (load (table (o ++ l)) n sp), (load (table (o' ++ l)) n sp); try contradiction; try reflexivity.
      now destruct (H _ eq_refl).
  Qed.
  Lemma table_agree old L rest : fonts_agree (with_loads (TH (old ++ L ++ rest)) old) (TH L) L.
  Proof.
    pose proof (engines_agree old [] L rest []) as H. cbn [app] in H. rewrite app_nil_r in H. exact H.
  Qed.
  Lemma table_agree_back old L rest : fonts_agree (TH L) (with_loads (TH (old ++ L ++ rest)) old) L.
  Proof.
    pose proof (engines_agree [] old L [] rest) as H. cbn [app] in H. rewrite app_nil_r in H. exact H.
  Qed.

  (** the run of a session: each text as in an engine with its own fonts only *)
  Lemma session_alone n h tbl : forall es x rest, window_session (TH tbl) n h es = Ok x -> tbl = se_loads x ++ rest ->
    exists Ls, se_loads x = List.concat Ls /\
      Forall2 (fun e L => loads_by (TH L) n h (new_text e) = L) es Ls /\
      foldM (fun w p => text_changed (TH (snd p)) n h w (new_text (fst p))) (combine es Ls) window_new = Ok (se_window x).
  Proof.
    induction es as [|e es IH] using rev_ind; intros x rest H E.
    { exists []. cbn in H. injection H as <-. cbn. auto. }
    apply session_snoc in H as (v & w & V & C & ->). cbn [se_window se_loads] in *.
    set (L := loads_by (with_loads (TH tbl) (se_loads v)) n h (new_text e)) in *.
    rewrite <- app_assoc in E.
    destruct (IH v (L ++ rest) V E) as (Ls & E1 & F & R). clear IH.
    pose proof (changed_same (with_loads (TH tbl) (se_loads v)) (TH L) n h (se_window v) (new_text e)) as S.
    fold L in S.
    assert (AG : fonts_agree (with_loads (TH tbl) (se_loads v)) (TH L) L) by (rewrite E; apply table_agree).
    assert (NF : text_changed (with_loads (TH tbl) (se_loads v)) n h (se_window v) (new_text e) <> Fuel) by (rewrite C; discriminate).
    destruct (S ltac:(repeat split) AG NF) as (S1 & S2). clear S.
    exists (Ls ++ [L]). split; [rewrite concat_app; cbn [List.concat]; now rewrite app_nil_r, E1|].
    split; [apply Forall2_app; [exact F|]; constructor; [exact S2|constructor]|].
    assert (CB : combine (es ++ [e]) (Ls ++ [L]) = combine es Ls ++ [(e, L)]).
    { clear -F. induction F as [|a b la lb _ _ IH]; [reflexivity|]. cbn [app combine]. now rewrite IH. }
    rewrite CB, foldM_app, R. cbn [bind foldM fst snd]. rewrite S1, C. reflexivity.
  Qed.

  (** and the other way *)
  Lemma alone_session n h tbl : forall es Ls w rest, tbl = List.concat Ls ++ rest ->
    Forall2 (fun e L => loads_by (TH L) n h (new_text e) = L) es Ls ->
    foldM (fun w p => text_changed (TH (snd p)) n h w (new_text (fst p))) (combine es Ls) window_new = Ok w ->
    window_session (TH tbl) n h es = Ok (mkSession w (List.concat Ls)).
  Proof.
    revert tbl. intros tbl es. revert tbl. induction es as [|e es IH] using rev_ind; intros tbl0 Ls w rest E F R.
    { inversion F; subst. cbn in *. now injection R as <-. }
    apply Forall2_app_inv_l in F as (Ls1 & Ls2 & F & F2 & ->). inversion F2 as [|? L ? ? FL FN]; subst. inversion FN; subst. clear FN F2.
    assert (CB : combine (es ++ [e]) (Ls1 ++ [L]) = combine es Ls1 ++ [(e, L)]).
    { clear -F. induction F as [|a b la lb _ _ IH]; [reflexivity|]. cbn [app combine]. now rewrite IH. }
    rewrite CB, foldM_app in R. apply bind_Ok in R as (v & V & R). cbn [foldM fst snd] in R. apply bind_Ok in R as (w' & C & R). injection R as ->.
    rewrite concat_app. cbn [List.concat]. rewrite app_nil_r, <- app_assoc.
    set (tbl := List.concat Ls1 ++ L ++ rest).
    pose proof (IH tbl Ls1 v (L ++ rest)) as IV.
    unfold window_session. rewrite foldM_app. fold (window_session (TH tbl) n h es).
    assert (EI : window_session (TH tbl) n h es = Ok (mkSession v (List.concat Ls1))) by (apply IV; [|exact F|exact V]; reflexivity).
    rewrite EI. cbn [bind foldM]. unfold session_event. cbn [se_loads se_window].
    destruct (changed_same (TH L) (with_loads (TH tbl) (List.concat Ls1)) n h v (new_text e)) as (-> & ->).
    - repeat split.
    - rewrite FL. apply table_agree_back.
    - rewrite C. discriminate.
    - rewrite C, FL. reflexivity.
  Qed.
End Engines.

Section Kept.
  Context {N : Num}.
  Variable K : host N.
  Lemma session_kept n h es : forall es' x y, window_session K n h es = Ok x -> window_session K n h (es ++ es') = Ok y ->
    exists r, se_loads y = se_loads x ++ r.
  Proof.
    induction es' as [|e es' IH] using rev_ind; intros x y A B.
    - rewrite app_nil_r in B. rewrite A in B. injection B as <-. exists []. now rewrite app_nil_r.
    - rewrite app_assoc in B. apply session_snoc in B as (v & w & V & _ & ->). destruct (IH x v A V) as (r & E).
      cbn [se_loads]. rewrite E. eexists. now rewrite <- app_assoc.
  Qed.
End Kept.
