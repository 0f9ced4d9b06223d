(** Facts about the typesetting machine for every host. *)
From Coq Require Import List Ascii String ZArith Bool Arith Lia.
From Verif.Base Require Import Result Num.
From Verif.Model Require Import Unicode Token Lexer Macro Dimen DimenParser Glue Box
  ListBuilders LineBreaks MathList MathParser MathTypeset MathFrontend PageEditor Preprocessor.
From Verif.Spec Require Import PageEditorSpec.
From Verif.Proofs Require Import PageStream PageMachine PageRun.
Import ListNotations.
Local Open Scope nat_scope.

(** ** The font parser *)
Lemma font_plain n spec : ~ In "}"%char spec ->
  (do p <- fp_write_cs fp_init n; foldM fp_write ("="%char :: spec ++ ["}"%char]) p) = Ok (mkFPr FFinished n spec).
Proof.
  intros F. cbn [fp_write_cs fp_init fp_st fp_spec bind foldM]. unfold fp_write at 1. cbn [fp_st fp_name fp_spec].
  rewrite Ascii.eqb_refl. cbn [bind]. rewrite foldM_app, fp_spec_chars by exact F. reflexivity.
Qed.
Lemma font_braced n spec : ~ In "}"%char spec ->
  (do p <- fp_write_cs fp_init n; foldM fp_write ("="%char :: "{"%char :: spec ++ ["}"%char]) p)
  = Ok (mkFPr FFinished n ("{"%char :: spec)).
Proof.
  intros F. apply (font_plain n ("{"%char :: spec)). intros [X|X]; [discriminate|auto].
Qed.
Lemma font_name_first c : fp_write fp_init c = Throw. Proof. reflexivity. Qed.
Lemma font_equals n c : c <> "="%char -> (do p <- fp_write_cs fp_init n; fp_write p c) = Throw.
Proof. intros F. cbn. now destruct (Ascii.eqb_spec c "="). Qed.
Lemma font_unfinished n spec p : ~ In "}"%char spec ->
  (do p <- fp_write_cs fp_init n; foldM fp_write ("="%char :: spec) p) = Ok p -> fp_isFinished p = false.
Proof.
  intros F. cbn [fp_write_cs fp_init fp_st fp_spec bind foldM]. unfold fp_write at 1. cbn [fp_st fp_name fp_spec].
  rewrite Ascii.eqb_refl. cbn [bind]. rewrite fp_spec_chars by exact F. now intros [= <-].
Qed.

Section Findings.
  Context {N : Num}.
  Variable K : host N.

  (** ** An unbalanced closing brace *)
  Lemma closing_brace f h s n : machine_new K f h = Ok s ->
    typeset K (8 + n) s (list_ascii_of_string "}") = UB.
  Proof. intros H. vm_compute in H. injection H as <-. vm_compute. reflexivity. Qed.

  (** ** The stacks *)
  Lemma stacks_together s : reached K s -> List.length (ms_mem s) = List.length (p_defs (ms_pre s)).
  Proof. intros R. apply reached_invariant in R as (_ & _ & A & _). exact A. Qed.
  Lemma idle_vertical s : reached K s -> ms_state s = Idle -> exists st b, ms_modes s = [MV st b].
  Proof. intros R E. apply reached_invariant in R as (_ & _ & _ & _ & _ & A). rewrite E in A. tauto. Qed.
  Lemma one_token s : reached K s -> List.length (ms_tokens s) + List.length (p_output (ms_pre s)) <= 1.
  Proof.
    intros R. apply reached_invariant in R as (_ & _ & _ & _ & _ & A).
    destruct (ms_state s); unfold idle_pre in A.
    all: repeat match goal with X : _ /\ _ |- _ => destruct X end.
    all: repeat match goal with X : _ = [] |- _ => rewrite X; clear X end; cbn in *; lia.
  Qed.
  Lemma digest_ends s n x : reached K s -> ms_state s = DigestToken -> digest_fuel s <= n ->
    loop_or K x n s = digest K (digest_fuel s) s.
  Proof.
    intros R E L. apply reached_invariant in R as (M & F & _ & _ & _ & A). rewrite E in A. destruct A as [T _].
    destruct (ms_tokens s) as [|t [|? ?]] eqn:TE; cbn in T; [| |lia].
    - unfold digest_fuel in *. destruct n as [|n]; [lia|]. rewrite (Nat.add_comm _ 6). cbn [Nat.add digest loop_or].
      unfold digestToken. now rewrite TE.
    - pose proof (quick_one K s t TE F M) as Q. unfold digest_fuel in *.
      destruct (Q n ltac:(lia)) as (A & _ & B). destruct (Q (3 * List.length (ms_modes s) + 6) ltac:(lia)) as (C & _).
      rewrite B. congruence.
  Qed.
  Lemma resume_run n : forall s s', resume K n s = Ok s' -> exists tr, run K s tr s' /\ ms_state s' = Idle.
  Proof.
    induction n as [|n IH]; intros s s' H; cbn [resume] in H.
    - destruct (ms_state s) eqn:E; try discriminate. injection H as <-. exists []. split; [constructor|exact E].
    - destruct (ms_state s) eqn:E.
      1: injection H as <-; exists []; split; [constructor|exact E].
      all: apply bind_Ok in H as (s1 & A & H); apply IH in H as (tr & R & I); exists (s1 :: tr);
        (split; [econstructor; eauto|exact I]).
  Qed.
  Lemma run_reached s tr s' : run K s tr s' -> reached K s -> reached K s'.
  Proof. induction 1; auto. intros R. apply IHrun. eapply rc_step; eauto. Qed.

  (** [typeset]'s cast always succeeds *)
  Lemma typeset_cast s text n s' : reached K s -> ms_state s = Idle -> resume K n (start s text) = Ok s' ->
    exists st b, ms_modes s' = [MV st b] /\ typeset K n s text = Ok (vbox (vb_result b)).
  Proof.
    intros R I H. pose proof (resume_run _ _ _ H) as (tr & U & I').
    pose proof (run_reached _ _ _ U (rc_start K _ text R I)) as R'.
    destruct (idle_vertical _ R' I') as (st & b & M). exists st, b. split; [exact M|].
    unfold typeset. rewrite H. cbn [bind]. now rewrite M.
  Qed.

  (** ** A paragraph that starts with a formula *)
  Definition stuck (m : mode N) : Prop := match m with MH h => h_routine h = RThrow | _ => False end.
  Definition stuck_in (l : list (mode N)) : Prop := Exists stuck l.
  Definition stays (x : machine N) : Prop := stuck_in (ms_modes (after x)).

  Lemma stuck_cur (m m' : mode N) r : (stuck m -> stuck m') -> stuck_in (m :: r) -> stuck_in (m' :: r).
  Proof. intros F H. inversion H; subst; [left; auto|now right]. Qed.
  Lemma stuck_bottom f l : forall l', change_bottom f l = Ok l' -> stuck_in l -> stuck_in l'.
  Proof.
    induction l as [|m r IH]; intros l' H S; [inversion S|]. destruct r as [|m' r].
    - destruct m; try discriminate. exfalso. inversion S as [? ? X|? ? X]; [exact X|inversion X].
    - assert (H' : (do q <- change_bottom f (m' :: r); Ok (m :: q)) = Ok l') by (destruct m; exact H).
      inv_bind H'. injection H' as <-. inversion S; subst; [now left|right; now apply IH].
  Qed.

  Lemma h_output_stuck s m x : h_output K s m = Ok x -> stuck_in (MH m :: tl (ms_modes s)) ->
    ms_leave x = true /\ stuck_in (tl (ms_modes x)).
  Proof.
    unfold h_output. intros H S. destruct (h_routine m) eqn:R; [discriminate| |].
    - inv_bind H. injection H as <-. split; [reflexivity|]. cbn. eapply stuck_bottom; [exact E0|].
      inversion S as [? ? X|]; subst; [cbn in X; congruence|assumption].
    - destruct (tl (ms_modes s)) as [|[| |] r]; try discriminate. injection H as <-. split; [reflexivity|]. cbn.
      inversion S as [? ? X|? ? X]; subst; [cbn in X; congruence|].
      eapply stuck_cur; [|exact X]. unfold h_write_box. cbn. now destruct (nonzero _).
  Qed.
  Lemma output_stays x : ms_leave x = true -> stuck_in (tl (ms_modes x)) -> stays x.
  Proof. intros L H. unfold stays, after. now rewrite L. Qed.
  Lemma keep_stays x : ms_leave x = false -> stuck_in (ms_modes x) -> stays x.
  Proof. intros L H. unfold stays, after. now rewrite L. Qed.

  Lemma h_main_stuck s m t x : ms_leave s = false -> h_main K s m t = Ok x ->
    stuck_in (MH m :: tl (ms_modes s)) -> stays x.
  Proof.
    intros F H S.
    assert (KEEP : forall m', h_routine m' = h_routine m -> stays (set_cur s (MH m'))).
    { intros m' E. apply keep_stays; [exact F|]. cbn. eapply stuck_cur; [|exact S]. cbn. congruence. }
    unfold h_main in H. destruct t as [c k|n|z]; [| |discriminate].
    - destruct k; try (injection H as <-; now apply KEEP).
      + unfold h_beginGroup, m_beginGroup in H. cbn in H. destruct (ms_mem s); [discriminate|]. injection H as <-.
        apply keep_stays; [exact F|]. cbn. eapply stuck_cur; [|exact S]. now cbn.
      + unfold h_endGroup in H. set (m' := with_depth m _) in H. inv_bind H.
        unfold m_endGroup in E. cbn in E. destruct (ms_mem s); [discriminate|]. inv_bind E. injection E as <-.
        assert (S' : stuck_in (MH m' :: tl (ms_modes s))) by (eapply stuck_cur; [|exact S]; now cbn).
        destruct (_ && _)%bool in H.
        * eapply h_output_stuck in H as [A B]; [|exact S']. now apply output_stays.
        * injection H as <-. apply keep_stays; [exact F|exact S'].
      + inv_bind H. injection H as <-. now apply KEEP.
      + inv_bind H. destruct x0; [inv_bind H|]; injection H as <-; now apply KEEP.
      + inv_bind H. destruct x0; [inv_bind H|]; injection H as <-; now apply KEEP.
    - destruct (cs_is n "par"). { eapply h_output_stuck in H as [A B]; [|exact S]. now apply output_stays. }
      destruct (cs_is n "kern"); [inv_bind H; injection H as <-; now apply KEEP|].
      destruct (cs_is n "hbox").
      { unfold enter_h in H. inv_bind H. cbn in H. injection H as <-. apply keep_stays; [exact F|]. right. exact S. }
      destruct (cs_is n "lower"); [|discriminate]. injection H as <-. now apply KEEP.
  Qed.
  Lemma m_finish_stuck s st bu p x : m_finish K s st bu p = Ok x -> stuck_in (tl (ms_modes s)) ->
    ms_leave x = true /\ stuck_in (tl (ms_modes x)).
  Proof.
    unfold m_finish. intros H S. inv_bind H. unfold m_output in H.
    destruct (tl (ms_modes s)) as [|[vs b|h|] r]; try discriminate; inv_bind H; injection H as <-;
      (split; [reflexivity|]); cbn; (eapply stuck_cur; [|exact S]; now cbn).
  Qed.
  Lemma mode_write_stuck s t x : ms_leave s = false -> mode_write K s t = Ok x -> stuck_in (ms_modes s) -> stays x.
  Proof.
    intros F H S. unfold mode_write in H. destruct (ms_modes s) as [|[vs b|m|st bu p] r] eqn:E; [discriminate| | |].
    - assert (S' : stuck_in r) by (inversion S as [? ? X|]; subst; [destruct X|assumption]).
      assert (KEEP : forall vs b, stays (set_cur s (MV vs b))).
      { intros. apply keep_stays; [exact F|]. cbn. rewrite E. now right. }
      assert (MAIN : forall b x, v_main K s b t = Ok x -> stays x).
      { clear H x. intros b0 x H. unfold v_main in H.
        assert (B : (do s1 <- enter_h (set_cur s (MV VMain b0)) RVertical; Ok (insert s1 t)) = Ok x -> stays x).
        { clear H. intros H. inv_bind H. unfold enter_h in E0. inv_bind E0. cbn in E0. injection E0 as <-.
          injection H as <-. apply keep_stays; [exact F|]. cbn. rewrite E. right. now right. }
        destruct t as [c k|n|z].
        - destruct (mathshift _); [injection H as <-; apply KEEP|auto].
        - destruct (cs_is n "par"); [injection H as <-; apply KEEP|]. destruct (cs_is n "kern"); [|discriminate].
          inv_bind H. injection H as <-. apply KEEP.
        - destruct (mathshift _); [injection H as <-; apply KEEP|auto]. }
      unfold v_write in H. destruct vs; [eauto| |].
      + unfold v_mathshift in H. destruct (mathshift t).
        * injection H as <-. apply keep_stays; [exact F|]. cbn. rewrite E. right. now right.
        * inv_bind H. unfold enter_h in E0, E1. inv_bind E0. cbn in E0. injection E0 as <-.
          inv_bind E1. cbn in E1. injection E1 as <-. injection H as <-.
          apply keep_stays; [exact F|]. cbn. rewrite E. do 3 right. exact S'.
      + unfold v_kern in H. destruct t as [c q|n|z]; [| |discriminate]; inv_bind H; [|eauto].
        destruct (kp_done x0); [inv_bind H|]; injection H as <-; apply KEEP.
    - assert (S0 : forall m', h_routine m' = h_routine m -> stuck_in (MH m' :: tl (ms_modes s))).
      { intros m' R. rewrite E. eapply stuck_cur; [|exact S]. cbn. congruence. }
      assert (KEEP : forall m', h_routine m' = h_routine m -> stays (set_cur s (MH m'))).
      { intros m' R. apply keep_stays; [exact F|]. now apply S0. }
      unfold h_write in H. destruct (h_state m).
      + eapply h_main_stuck; eauto.
      + unfold h_mathshift in H. destruct (mathshift t).
        * inv_bind H. injection H as <-. eapply h_output_stuck in E0 as [A B]; [|now apply S0].
          now apply output_stays.
        * injection H as <-. apply keep_stays; [exact F|]. right. now apply S0.
      + unfold h_kern in H. destruct t as [c q|n|z]; [| |discriminate]; inv_bind H.
        * destruct (kp_done x0); [inv_bind H|]; injection H as <-; now apply KEEP.
        * eapply h_main_stuck; [|exact H|]; [exact F|]. now apply S0.
      + unfold h_lowering in H. inv_bind H. destruct (_ || _)%bool; [|injection H as <-; now apply KEEP].
        inv_bind H. destruct (isControlSequence t); [|injection H as <-; now apply KEEP].
        eapply h_main_stuck; [|exact H|]; [exact F|]. now apply S0.
    - assert (S' : stuck_in r) by (inversion S as [? ? X|]; subst; [destruct X|assumption]).
      assert (FIN : forall st bu p x, m_finish K s st bu p = Ok x -> stays x).
      { clear H x. intros ? ? ? x H. eapply m_finish_stuck in H as [A B]; [now apply output_stays|]. now rewrite E. }
      assert (KEEP : forall a b c, stays (set_cur s (MM a b c))).
      { intros. apply keep_stays; [exact F|]. cbn. rewrite E. now right. }
      unfold m_write in H. destruct st; [|destruct (mathshift t); [eauto|discriminate]].
      unfold m_main in H. destruct t as [c k|n|z]; [| |discriminate].
      + destruct k; try (injection H as <-; apply KEEP);
          try (unfold m_call in H; inv_bind H; injection H as <-; apply KEEP).
        * apply bind_Ok in H as (a & E0 & H). apply m_beginGroup_spec in E0 as (_ & _ & _ & A & B).
          unfold m_call in H. inv_bind H. injection H as <-.
          apply keep_stays; cbn; [congruence|]. rewrite A, E. now right.
        * apply bind_Ok in H as (a & E0 & H). unfold m_call in E0. inv_bind E0. injection E0 as <-.
          apply m_endGroup_spec in H as (_ & _ & _ & A & B).
          apply keep_stays; cbn in *; [congruence|]. rewrite A, E. now right.
        * rewrite E in H. cbn [tl] in H. destruct r as [|q r]; [discriminate|].
          destruct (mode_kind q); first [exact (FIN _ _ _ _ H)|injection H as <-; apply KEEP].
        * inv_bind H. destruct x0; [inv_bind H|]; injection H as <-; apply KEEP.
        * inv_bind H. destruct x0; [inv_bind H|]; injection H as <-; apply KEEP.
      + inv_bind H. injection H as <-. apply KEEP.
  Qed.
  Lemma digest_stuck n : forall s x, ms_leave s = false -> digest K n s = Ok x -> stuck_in (ms_modes s) -> stuck_in (ms_modes x).
  Proof.
    induction n as [|n IH]; intros s x F H S; cbn [digest] in H; [discriminate|]. inv_bind H. destruct x0 as [s1 b].
    assert (S1 : ms_leave s1 = false /\ stuck_in (ms_modes s1)).
    { unfold digestToken in E. destruct (ms_tokens s) as [|t r]; [now injection E as <- <-|].
      inv_bind E. injection E as <- <-. eapply mode_write_stuck in E0; [|exact F|exact S]. split; [|exact E0].
      destruct (ms_leave x0) eqn:L; [reflexivity|exact L]. }
    destruct S1 as [F1 S1]. cbn [fst snd] in H. destruct b; [eauto|]. now injection H as <-.
  Qed.
  Lemma finish_stuck n : forall s x, List.length (ms_modes s) = Datatypes.S n -> modes_ok (ms_modes s) ->
    finish_modes K n s = Ok x -> stuck_in (ms_modes s) -> False.
  Proof.
    induction n as [|n IH]; intros s x LEN M H S; cbn [finish_modes] in H.
    - destruct (ms_modes s) as [|m [|]]; try discriminate. destruct m; cbn in M; try tauto.
      inversion S as [? ? X|? ? X]; [exact X|inversion X].
    - inv_bind H. destruct (ms_modes s) as [|m r] eqn:E'; [discriminate|]. injection LEN as LEN.
      destruct (mode_finish_spec K s m r x0 E') as (_ & _ & _ & m' & r' & D & L & LEN'); auto.
      { intros ->. discriminate. }
      assert (S' : stuck_in r').
      { unfold mode_finish in E. rewrite E' in E. destruct m as [vs b|h|st bu p].
        - destruct r; [discriminate|destruct M].
        - eapply h_output_stuck in E as [_ A]; [|rewrite E'; exact S]. rewrite D in A. exact A.
        - eapply m_finish_stuck in E as [_ A]; [rewrite D in A; exact A|]. rewrite E'. cbn.
          inversion S as [? ? X|]; subst; [destruct X|assumption]. }
      rewrite D in H. cbn [tl] in H. eapply IH; [| |exact H|]; cbn; [congruence|now apply low_ok|exact S'].
  Qed.
  Lemma step_stuck s x : invariant s -> m_advance K s = Ok x -> ms_state s <> Idle -> stuck_in (ms_modes s) ->
    stuck_in (ms_modes x) /\ ms_state x <> Idle.
  Proof.
    intros (M & F & _) H NI S. unfold m_advance in H. destruct (ms_state s) eqn:E; [congruence| | | | |].
    - destruct (atEnd (ms_in s)).
      + inv_bind H. exfalso. eapply finish_stuck; [|exact M|exact E0|exact S].
        destruct (ms_modes s); [destruct M|]. cbn. lia.
      + inv_bind H. destruct (write _ _ _) as [l [e|]]; [discriminate|]. injection H as <-. split; [exact S|].
        cbn. now destruct (l_out l).
    - destruct (l_out (ms_lex s)).
      + injection H as <-. now split.
      + inv_bind H. injection H as <-. now split.
    - inv_bind H. injection H as <-. split; [exact S|]. cbn. destruct (p_output x0); [|discriminate].
      now destruct (p_input x0).
    - inv_bind H. injection H as <-. split; [|discriminate]. unfold sendToken in E0.
      destruct (p_output (ms_pre s)) as [|t r]; [now injection E0 as <-|].
      apply bind_Ok in E0 as ([a o] & E1 & E0). injection E0 as <-. apply as_write_spec in E1 as ((_ & _ & _ & _ & A & _) & _). cbn in *. now rewrite A.
    - inv_bind H. injection H as <-. split; [|cbn; now destruct (p_input _)]. cbn. eapply digest_stuck; eauto.
  Qed.
  Lemma run_stuck s tr x : run K s tr x -> invariant s -> ms_state s <> Idle -> stuck_in (ms_modes s) ->
    stuck_in (ms_modes x) /\ ms_state x <> Idle.
  Proof.
    induction 1 as [s|s s1 tr s2 A R IH]; intros I NI S; [now split|].
    destruct (step_stuck _ _ I A NI S) as [S1 NI1]. apply IH; auto. eapply step_invariant; eauto.
  Qed.

  Lemma dollar_stuck k s t b x : ms_leave s = false -> ms_modes s = [MV VMathShift b] -> ms_tokens s = [t] ->
    mathshift t = false -> digest K (Datatypes.S k) s = Ok x -> stuck_in (ms_modes x).
  Proof.
    intros F M T D E0. cbn [digest] in E0. apply bind_Ok in E0 as ([s2 bb] & E1 & E0).
    rewrite (digestToken_cons _ _ _ _ T) in E1. inv_bind E1.
    injection E1 as <- <-. unfold mode_write in E. cbn in E. rewrite M in E. cbn [v_write] in E.
    unfold v_mathshift in E. rewrite D in E. inv_bind E. unfold enter_h in E1, E2.
    inv_bind E1. cbn in E1. injection E1 as <-. inv_bind E2. cbn in E2. injection E2 as <-.
    injection E as <-. unfold after in E0. cbn in E0. rewrite F in E0. cbn in E0.
    eapply digest_stuck in E0; [exact E0|exact F|]. cbn. right. left. reflexivity.
  Qed.
  (** the vertical mode got [$] and then something else: the machine never finishes *)
  Lemma formula_first s t tr s' b : reached K s -> ms_state s = DigestToken -> ms_modes s = [MV VMathShift b] ->
    ms_tokens s = [t] -> mathshift t = false -> run K s tr s' -> tr <> [] -> ms_state s' <> Idle.
  Proof.
    intros R E M T D U NE. inversion U as [|? s1 tr' ? A U']; subst; [congruence|].
    pose proof (reached_invariant K _ R) as I.
    assert (F : ms_leave s = false) by apply I.
    assert (S1 : stuck_in (ms_modes s1) /\ ms_state s1 <> Idle).
    { unfold m_advance in A. rewrite E in A. inv_bind A. injection A as <-.
      split; [|cbn; now destruct (p_input _)]. cbn [ms_modes set_mstate].
      assert (FU : exists k, digest_fuel s = Datatypes.S k) by (exists (3 * List.length (ms_modes s) + 5); unfold digest_fuel; lia).
      destruct FU as [k FU]. rewrite FU in E0. eapply dollar_stuck; eauto. }
    destruct S1 as [S1 NI]. eapply run_stuck; eauto. eapply step_invariant; eauto.
  Qed.
  Lemma steps_resume n : forall s s' r, run K s r s' -> ms_state s' <> Idle ->
    (forall n x, resume K n s' <> Ok x) -> forall x, resume K n s <> Ok x.
  Proof.
    induction n as [|n IH]; intros s s' tr U NI F x H; inversion U as [|? s1 tr' ? A U']; subst; try (now apply (F _ _ H)).
    - cbn [resume] in H. destruct (ms_state s) eqn:E; try discriminate.
      unfold m_advance in A. rewrite E in A. injection A as <-. clear - U' NI E.
      exfalso. apply NI. revert E. induction U' as [s|s s1 tr s2 A U IH]; intros E; [exact E|].
      unfold m_advance in A. rewrite E in A. injection A as <-. auto.
    - cbn [resume] in H. destruct (ms_state s) eqn:E.
      { unfold m_advance in A. rewrite E in A. injection A as <-. clear - U' NI E.
        exfalso. apply NI. revert E. induction U' as [s|s s1 tr s2 A U IH]; intros E; [exact E|].
        unfold m_advance in A. rewrite E in A. injection A as <-. auto. }
      all: rewrite A in H; cbn [bind] in H; exact (IH _ _ _ U' NI F x H).
  Qed.
  Lemma write_letter b o c : DefaultCatCodes c = Letter ->
    write DefaultCatCodes (mkLexer StM b o) c = (mkLexer StM b (o ++ [TChar c Letter]), None).
  Proof. intros C. unfold write. now rewrite C. Qed.
  Lemma formula_text f h s c rest n r : machine_new K f h = Ok s -> DefaultCatCodes c = Letter ->
    typeset K n s ("$"%char :: c :: rest) <> Ok r.
  Proof.
    intros H C T. unfold typeset in T. apply bind_Ok in T as (x & T & _). revert T.
    pose proof (rc_new K _ _ _ H) as R0.
    assert (I0 : ms_state s = Idle).
    { unfold machine_new in H. apply bind_Ok in H as (? & _ & H). apply bind_Ok in H as (? & _ & H). now injection H as <-. }
    pose proof (rc_start K _ ("$"%char :: c :: rest) R0 I0) as R1.
    assert (U : exists tr s8 b, run K (start s ("$"%char :: c :: rest)) tr s8 /\ ms_state s8 = DigestToken /\
      ms_modes s8 = [MV VMathShift b] /\ ms_tokens s8 = [TChar c Letter]).
    { vm_compute in H. injection H as <-. clear R0 R1 I0.
      eexists _, _, _; split; [|].
      { do 5 (eapply run_step; [vm_compute; reflexivity|]).
        eapply run_step; [unfold m_advance; cbn [ms_state ms_in atEnd st_pos st_text List.length Nat.eqb read nth_error bind
          snd fst set_in ms_lex]; rewrite write_letter by exact C; cbn; reflexivity|].
        do 2 (eapply run_step; [vm_compute; reflexivity|]). apply run_nil. }
      repeat split. }
    destruct U as (tr & s8 & b & U & E & M & T).
    apply (steps_resume n _ _ _ U); [congruence|].
    intros k y Y. apply resume_run in Y as (tr' & U' & I).
    destruct tr' as [|s9 tr']; [inversion U'; subst; congruence|].
    eapply (formula_first _ _ (s9 :: tr')); [|exact E|exact M|exact T|reflexivity|exact U'|discriminate|exact I].
    eapply run_reached; eauto.
  Qed.
End Findings.
