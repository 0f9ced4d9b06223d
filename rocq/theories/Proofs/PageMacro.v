(** From a text with macros to the page. *)
From Coq Require Import List Ascii String ZArith Bool Arith Lia.
From Verif.Base Require Import Result Num.
From Verif.Model Require Import Unicode Token Lexer Macro Dimen DimenParser Glue Box
  ListBuilders LineBreaks MathList MathParser MathTypeset MathFrontend PageEditor Preprocessor.
From Verif.Spec Require Import LexerSpec MacroSpec PageEditorSpec RichTextSpec PageMacroSpec.
From Verif.Proofs Require Import LexerProofs MacroProofs MacroExpand MacroMore
  PageStream PageMachine PageRun PageFrame PageFindings PageDeliver PageQuiet PageOther.
Import ListNotations.
Local Open Scope nat_scope.

Lemma set_input_twice p x y : set_input (set_input p x) y = set_input p y. Proof. reflexivity. Qed.
Lemma push_nil p : push p [] = p. Proof. unfold push. rewrite app_nil_r. now destruct p. Qed.
Lemma push_begin i p : push (beginGroup p) i = beginGroup (push p i). Proof. reflexivity. Qed.
Lemma push_end i p : endGroup (push p i) = rmap (fun q => push q i) (endGroup p).
Proof. unfold endGroup. cbn. destruct (p_defs p); reflexivity. Qed.

Section Macros.
  Context {N : Num}.
  Variable K : host N.
  Notation machine := (machine N).
  Notation ct := DefaultCatCodes.

  (** ** One token after the other, the input apart *)
  Definition drop (s : machine) : machine := set_pre s (set_input (ms_pre s) []).
  Definition clean (s : machine) : Prop := p_input (ms_pre s) = [] /\ p_output (ms_pre s) = [] /\ ms_tokens s = [].
  Inductive goes : machine -> list token -> machine -> Prop :=
  | go_nil s : goes s [] s
  | go_step s t p s1 s2 ts s3 : process (ms_pre s) t = Ok p -> sendToken K (set_pre s p) = Ok s1 ->
      digest K (digest_fuel s1) s1 = Ok s2 -> clean (drop s2) -> goes (drop s2) (p_input (ms_pre s2) ++ ts) s3 ->
      goes s (t :: ts) s3.

  Notation with_input i := (chp (fun p => push p i)).
  Lemma with_drop i s : with_input i s = with_input (p_input (ms_pre s) ++ i) (drop s).
  Proof. reflexivity. Qed.
  Lemma send_input i s : sendToken K (with_input i s) = rmap (with_input i) (sendToken K s).
  Proof. apply sendToken_chp; reflexivity. Qed.
  Lemma digest_input i n s : digest K n (with_input i s) = rmap (with_input i) (digest K n s).
  Proof. apply digest_chp; try reflexivity. apply push_end. Qed.

  (** ** Reading the text *)
  (** the tokens to come *)
  Definition coming (lx : lexer) (rem : list ascii) (fut : list token) (last : lexer) : Prop :=
    feed ct (mkLexer (l_state lx) (l_buf lx) []) rem = (mkLexer (l_state last) (l_buf last) fut, None).
  (** the last character makes no token *)
  Definition ends_quietly (lx : lexer) (rem : list ascii) : Prop :=
    forall a c l, rem = a ++ [c] -> feed ct (mkLexer (l_state lx) (l_buf lx) []) a = (l, None) ->
      l_out (fst (write ct l c)) = l_out l.
  Definition fits (st : mstate) (lx : lexer) (rem : list ascii) : Prop :=
    let o := l_out lx in
    match st with
    | ReadToken => List.length o <= 2 /\ (l_state lx = StCS -> List.length o <= 1) /\ (rem = [] -> List.length o <= 1)
    | _ => List.length o <= 1 /\ (l_state lx = StCS -> o = []) /\ (rem = [] -> o = [])
    end.
  Definition before (text rem : list ascii) (inp : stream) : Prop :=
    exists pre, text = pre ++ rem /\ inp = mkStream text (List.length pre).

  Definition leads_to (s s' : machine) : Prop := exists k, forall n, resume K (k + n) s = resume K n s'.
  Lemma leads_refl s : leads_to s s. Proof. exists 0. reflexivity. Qed.
  Lemma leads_trans a b c : leads_to a b -> leads_to b c -> leads_to a c.
  Proof. intros [k H] [k' H']. exists (k + k'). intros n. rewrite <- Nat.add_assoc, H, H'. reflexivity. Qed.
  Lemma leads_step s s' : ms_state s <> Idle -> m_advance K s = Ok s' -> leads_to s s'.
  Proof. intros NI A. exists 1. intros n. cbn [Nat.add resume]. rewrite A. destruct (ms_state s); auto. congruence. Qed.

  Lemma ends_next lx c rem st b new : ends_quietly lx (c :: rem) ->
    write ct (mkLexer (l_state lx) (l_buf lx) []) c = (mkLexer st b new, None) ->
    forall o, ends_quietly (mkLexer st b o) rem.
  Proof.
    intros E W o a c' l -> F. cbn [l_state l_buf] in F.
    destruct l as [st1 b1 o1].
    assert (F2 : feed ct (mkLexer (l_state lx) (l_buf lx) []) (c :: a) = (mkLexer st1 b1 (new ++ o1), None)).
    { cbn [feed]. rewrite W. exact (feed_out_indep ct a st b [] new st1 b1 o1 None F). }
    pose proof (E (c :: a) c' _ eq_refl F2) as G. cbn [l_out] in *.
    destruct (write_out_indep ct st1 b1 (new ++ o1) o1 c') as (s3 & b3 & ts & e & W1 & W2). rewrite W1 in G. rewrite W2. cbn in *.
    rewrite <- (app_nil_r (new ++ o1)) in G at 2. apply app_inv_head in G. subst. apply app_nil_r.
  Qed.

  Lemma read_char text c rem inp lx last fut : before text (c :: rem) inp -> coming lx (c :: rem) fut last ->
    fits ReadChar lx (c :: rem) -> ends_quietly lx (c :: rem) ->
    exists inp' lx' fut', before text rem inp' /\ coming lx' rem fut' last /\ l_out lx ++ fut = l_out lx' ++ fut' /\
      ends_quietly lx' rem /\
      let st := match l_out lx' with [] => ReadChar | _ => ReadToken end in
      fits st lx' rem /\ forall v, leads_to (chg inp lx ReadChar v) (chg inp' lx' st v).
  Proof.
    intros (pre & -> & ->) CO (F1 & F2 & F3) EQ. unfold coming in CO. cbn [feed] in CO.
    destruct lx as [st b o]. cbn [l_state l_buf l_out] in *.
    destruct (write_few ct st b o c) as (st1 & b1 & new & e & W & LN & C1 & C2).
    assert (W0 : write ct (mkLexer st b []) c = (mkLexer st1 b1 new, e)).
    { destruct (write_out_indep ct st b o [] c) as (s3 & b3 & ts & e3 & X & Y). rewrite W in X. injection X as <- <- X <-.
      apply app_inv_head in X. subst ts. exact Y. }
    rewrite W0 in CO. destruct e; [discriminate|].
    assert (exists fut', fut = new ++ fut' /\ feed ct (mkLexer st1 b1 []) rem = (mkLexer (l_state last) (l_buf last) fut', None)) as (fut' & -> & CO').
    { destruct (feed_prefix_lemma ct (mkLexer st1 b1 new) [] rem) as (more & M). cbn in M. rewrite CO in M. cbn in M. subst fut.
      exists more. split; [reflexivity|]. exact (feed_out_indep ct rem st1 b1 new [] _ _ more None CO). }
    exists (mkStream (pre ++ c :: rem) (Datatypes.S (List.length pre))), (mkLexer st1 b1 (o ++ new)), fut'.
    split; [exists (pre ++ [c]); rewrite <- app_assoc, app_length, Nat.add_1_r; split; reflexivity|].
    split; [exact CO'|]. split; [cbn; now rewrite <- app_assoc|].
    split; [exact (ends_next (mkLexer st b o) c rem st1 b1 new EQ W0 _)|].
    cbn [l_out].
    split.
    - assert (LL : List.length (o ++ new) = List.length o + List.length new) by apply app_length.
      assert (RE : rem = [] -> new = []).
      { intros ->. specialize (EQ [] c (mkLexer st b []) eq_refl eq_refl). cbn [l_state l_buf] in EQ. rewrite W0 in EQ. exact EQ. }
      destruct (o ++ new) as [|t r] eqn:O; cbn [fits l_out l_state].
      + split; [cbn; lia|]. split; [reflexivity|]. reflexivity.
      + assert (st = StCS \/ st <> StCS) as [->|NE] by (destruct st; auto; right; discriminate).
        * rewrite (F2 eq_refl) in *. cbn in LL. split; [cbn; lia|]. split.
          -- intros ->. specialize (C2 eq_refl eq_refl eq_refl). cbn. lia.
          -- intros R. rewrite (RE R) in LL. cbn in *. lia.
        * split; [destruct st; cbn in *; try lia; congruence|]. split.
          -- intros ->. rewrite (C1 eq_refl eq_refl NE) in LL. cbn in *. lia.
          -- intros R. rewrite (RE R) in LL. cbn in *. lia.
    - intros v. apply leads_step; [discriminate|]. unfold m_advance. change (ms_state (chg _ _ ReadChar v)) with ReadChar. cbn iota.
      change (ms_in (chg ?i _ ReadChar v)) with i. unfold atEnd, read. cbn [st_text st_pos].
      assert (NE : nth_error (pre ++ c :: rem) (List.length pre) = Some c) by (rewrite nth_error_app2, Nat.sub_diag by lia; reflexivity).
      assert (LT : List.length pre < List.length (pre ++ c :: rem)) by (rewrite app_length; cbn; lia).
      rewrite (proj2 (Nat.eqb_neq _ _)) by lia. rewrite NE. cbn [bind snd fst].
      change (ms_lex (set_in (chg _ ?l ReadChar v) _)) with l. rewrite W. reflexivity.
  Qed.

  (** the next token *)
  Lemma fetch text rem : forall inp lx last fut x rest st, before text rem inp -> coming lx rem fut last ->
    (st = ReadChar \/ st = ReadToken) -> fits st lx rem -> ends_quietly lx rem -> l_out lx ++ fut = x :: rest ->
    exists inp' rem' lx' fut', before text rem' inp' /\ coming lx' rem' fut' last /\ x :: rest = l_out lx' ++ fut' /\
      ends_quietly lx' rem' /\ fits ReadToken lx' rem' /\ l_out lx' <> [] /\
      forall v, leads_to (chg inp lx st v) (chg inp' lx' ReadToken v).
  Proof.
    assert (G : forall rem inp lx last fut x rest, before text rem inp -> coming lx rem fut last ->
      fits ReadChar lx rem -> ends_quietly lx rem -> l_out lx ++ fut = x :: rest ->
      exists inp' rem' lx' fut', before text rem' inp' /\ coming lx' rem' fut' last /\ x :: rest = l_out lx' ++ fut' /\
        ends_quietly lx' rem' /\ fits ReadToken lx' rem' /\ l_out lx' <> [] /\
        forall v, leads_to (chg inp lx ReadChar v) (chg inp' lx' ReadToken v)).
    { clear rem. induction rem as [|c rem IH]; intros inp lx last fut x rest B CO F EQ E.
      - exfalso. destruct F as (_ & _ & F). rewrite F in E by reflexivity. unfold coming in CO. cbn in CO. injection CO as _ _ <-. discriminate.
      - destruct (read_char text c rem inp lx last fut B CO F EQ) as (inp1 & lx1 & fut1 & B1 & CO1 & E1 & EQ1 & X). cbv zeta in X.
        destruct X as (F1 & L1). destruct (l_out lx1) as [|t o] eqn:O.
        + destruct (IH inp1 lx1 last fut1 x rest B1 CO1 F1 EQ1) as (inp2 & rem2 & lx2 & fut2 & A1 & A2 & A3 & A4 & A5 & A6 & A7).
          { rewrite O. cbn. now rewrite <- E, E1. }
          exists inp2, rem2, lx2, fut2. repeat (split; [assumption|]). intros v. eapply leads_trans; [apply L1|apply A7].
        + exists inp1, rem, lx1, fut1. split; [exact B1|]. split; [exact CO1|]. split; [now rewrite O, <- E, E1|].
          split; [exact EQ1|]. split; [exact F1|]. split; [now rewrite O|]. exact L1. }
    intros inp lx last fut x rest st B CO [-> | ->] F EQ E; [eapply G; eauto|].
    destruct (l_out lx) as [|t o] eqn:O.
    - destruct (G rem inp lx last fut x rest B CO) as (inp2 & rem2 & lx2 & fut2 & A1 & A2 & A3 & A4 & A5 & A6 & A7); auto.
      { unfold fits. rewrite O. cbn. split; [lia|auto]. } { now rewrite O. }
      exists inp2, rem2, lx2, fut2. repeat (split; [assumption|]). intros v. eapply leads_trans; [|apply A7].
      apply leads_step; [discriminate|]. unfold m_advance. change (ms_state (chg _ _ ReadToken v)) with ReadToken. cbn iota.
      change (ms_lex (chg _ ?l ReadToken v)) with l. rewrite O. reflexivity.
    - exists inp, rem, lx, fut. split; [exact B|]. split; [exact CO|]. split; [now rewrite O|]. split; [exact EQ|]. split; [exact F|].
      split; [now rewrite O|]. intros v. apply leads_refl.
  Qed.
  (** no more tokens *)
  Lemma drain text rem : forall inp lx last st, before text rem inp -> coming lx rem [] last ->
    (st = ReadChar \/ st = ReadToken) -> fits st lx rem -> ends_quietly lx rem -> l_out lx = [] ->
    forall v, leads_to (chg inp lx st v)
      (chg (mkStream text (List.length text)) (mkLexer (l_state last) (l_buf last) []) ReadChar v).
  Proof.
    assert (G : forall rem inp lx last, before text rem inp -> coming lx rem [] last ->
      fits ReadChar lx rem -> ends_quietly lx rem -> l_out lx = [] ->
      forall v, leads_to (chg inp lx ReadChar v)
        (chg (mkStream text (List.length text)) (mkLexer (l_state last) (l_buf last) []) ReadChar v)).
    { clear rem. induction rem as [|c rem IH]; intros inp lx last B CO F EQ O v.
      - destruct B as (pre & -> & ->). rewrite app_nil_r. unfold coming in CO. cbn in CO. injection CO as E1 E2.
        destruct lx as [s b o]. cbn in *. subst. apply leads_refl.
      - destruct (read_char text c rem inp lx last [] B CO F EQ) as (inp1 & lx1 & fut1 & B1 & CO1 & E1 & EQ1 & X). cbv zeta in X.
        rewrite O in E1. symmetry in E1. apply app_eq_nil in E1 as [E1 ->]. rewrite E1 in X. destruct X as (F1 & L1).
        eapply leads_trans; [apply L1|]. now apply IH. }
    intros inp lx last st B CO [-> | ->] F EQ O v; [now apply G with (rem := rem)|].
    eapply leads_trans; [|apply (G rem inp lx last B CO); auto].
    - apply leads_step; [discriminate|]. unfold m_advance. change (ms_state (chg _ _ ReadToken v)) with ReadToken. cbn iota.
      change (ms_lex (chg _ ?l ReadToken v)) with l. rewrite O. reflexivity.
    - unfold fits. rewrite O. cbn. auto.
  Qed.

  (** ** A token is sent and digested *)
  Lemma send_digest inp lx i s s1 s2 : sendToken K s = Ok s1 -> digest K (digest_fuel s1) s1 = Ok s2 ->
    leads_to (chg inp lx SendToken (with_input i s))
      (chg inp lx (match p_input (ms_pre s2) ++ i with [] => ReadToken | _ => Preprocess end) (with_input i s2)).
  Proof.
    intros SE DI. eapply leads_trans.
    - apply leads_step with (s' := chg inp lx DigestToken (with_input i s1)); [discriminate|].
      unfold m_advance. change (ms_state (chg _ _ SendToken ?v)) with SendToken. cbn iota.
      rewrite sendToken_chg, send_input, SE. reflexivity.
    - apply leads_step; [discriminate|]. unfold m_advance. change (ms_state (chg _ _ DigestToken ?v)) with DigestToken. cbn iota.
      rewrite digest_fuel_chg, digest_chg. change (digest_fuel (with_input i s1)) with (digest_fuel s1).
      rewrite digest_input, DI. cbn [rmap bind].
      change (p_input (ms_pre (chg inp lx DigestToken (with_input i s2)))) with (p_input (ms_pre s2) ++ i).
      destruct (p_input (ms_pre s2) ++ i); reflexivity.
  Qed.

  Lemma go_run text last s ts s' : goes s ts s' -> clean s -> forall i inp lx rem fut st,
    ts = i ++ l_out lx ++ fut -> before text rem inp -> coming lx rem fut last -> ends_quietly lx rem ->
    fits st lx rem -> (i = [] -> st = ReadChar \/ st = ReadToken) -> (i <> [] -> st = Preprocess) ->
    leads_to (chg inp lx st (with_input i s))
      (chg (mkStream text (List.length text)) (mkLexer (l_state last) (l_buf last) []) ReadChar s').
  Proof.
    induction 1 as [s|s t p s1 s2 ts s3 PR SE DI CL GO IH]; intros (C1 & C2 & C3) i inp lx rem fut st E B CO EQ F SI SP.
    - symmetry in E. apply app_eq_nil in E as [-> E]. apply app_eq_nil in E as [O ->].
      assert (X : with_input [] s = s) by (unfold chp; rewrite push_nil; now destruct s). rewrite X.
      apply (drain text rem inp lx last st B CO (SI eq_refl) F EQ O).
    - destruct i as [|t' i].
      + (* from the lexer *)
        clear SP. destruct (fetch text rem inp lx last fut t ts st B CO (SI eq_refl) F EQ) as (inp' & rem' & lx' & fut' & B' & CO' & E' & EQ' & F' & NO & L).
        { exact (eq_sym E). }
        eapply leads_trans; [apply L|]. destruct lx' as [ls lb lo]. cbn [l_out] in *. destruct lo as [|t' o]; [congruence|].
        cbn [app] in E'. injection E' as <- E'.
        eapply leads_trans.
        { apply leads_step with (s' := chg inp' (mkLexer ls lb o) SendToken (with_input [] (set_pre s p))); [discriminate|].
          unfold m_advance. change (ms_state (chg _ _ ReadToken ?v)) with ReadToken. cbn iota.
          change (ms_lex (chg _ ?l ReadToken ?v)) with l. cbn [l_out l_state l_buf].
          change (ms_pre (set_lex (chg _ _ ReadToken (with_input [] s)) _)) with (push (ms_pre s) []).
          rewrite push_nil. unfold pwrite. rewrite C1, PR. cbn [bind]. unfold chp. cbn [ms_pre set_pre]. rewrite !push_nil.
          unfold chg. reflexivity. }
        eapply leads_trans; [apply (send_digest inp' (mkLexer ls lb o) [] _ s1 s2 SE DI)|].
        rewrite with_drop. apply (IH CL (p_input (ms_pre s2) ++ []) inp' (mkLexer ls lb o) rem' fut').
        * rewrite app_nil_r, E'. reflexivity.
        * exact B'.
        * exact CO'.
        * exact EQ'.
        * cbn [fits l_out l_state] in F' |- *. destruct F' as (G1 & G2 & G3). cbn [List.length] in *.
          assert (X : List.length o <= 1 /\ (ls = StCS -> o = []) /\ (rem' = [] -> o = [])).
          { split; [lia|]. split; intros Y; [specialize (G2 Y)|specialize (G3 Y)]; destruct o; auto; cbn in *; lia. }
          destruct (p_input (ms_pre s2) ++ []); cbn [fits l_out l_state]; [|exact X]. destruct X as (X1 & X2 & X3).
          split; [lia|]. split; intros Y; [rewrite (X2 Y)|rewrite (X3 Y)]; cbn; lia.
        * rewrite app_nil_r. destruct (p_input (ms_pre s2)); [auto|discriminate].
        * rewrite app_nil_r. destruct (p_input (ms_pre s2)); [congruence|auto].
      + (* from the input *)
        clear SI. rewrite (SP ltac:(discriminate)) in *. clear SP. cbn [app] in E. injection E as <- E.
        assert (AD : advance (push (ms_pre s) (t :: i)) = Ok (push p i)).
        { unfold advance, push. rewrite C1. cbn [app p_input set_input]. rewrite set_input_twice.
          replace (set_input (ms_pre s) i) with (push (ms_pre s) i) by (unfold push; now rewrite C1).
          rewrite process_push, PR. reflexivity. }
        destruct (p_output p) as [|o os] eqn:OU.
        * (* nothing comes out *)
          assert (S1 : s1 = set_pre s p).
          { unfold sendToken in SE. cbn [ms_pre set_pre] in SE. rewrite OU in SE. now injection SE. }
          subst s1.
          assert (S2 : s2 = set_pre s p).
          { assert (X : exists n, digest_fuel (set_pre s p) = Datatypes.S n) by (eexists; unfold digest_fuel; rewrite Nat.add_comm; reflexivity).
            destruct X as [n X]. rewrite X in DI. cbn [digest] in DI. unfold digestToken in DI.
            change (ms_tokens (set_pre s p)) with (ms_tokens s) in DI. rewrite C3 in DI. now injection DI. }
          subst s2. change (ms_pre (set_pre s p)) with p in *.
          eapply leads_trans.
          { apply leads_step with (s' := chg inp lx (match p_input p ++ i with [] => ReadChar | _ => Preprocess end) (with_input i (set_pre s p)));
              [discriminate|].
            unfold m_advance. change (ms_state (chg _ _ Preprocess ?v)) with Preprocess. cbn iota.
            change (ms_pre (chg inp lx Preprocess (with_input (t :: i) s))) with (push (ms_pre s) (t :: i)). rewrite AD. cbn [bind].
            change (p_output (push p i)) with (p_output p). rewrite OU. change (p_input (push p i)) with (p_input p ++ i).
            destruct (p_input p ++ i); reflexivity. }
          rewrite with_drop. change (ms_pre (set_pre s p)) with p.
          apply (IH CL (p_input p ++ i) inp lx rem fut); auto.
          -- rewrite E, app_assoc. reflexivity.
          -- destruct (p_input p ++ i); exact F.
          -- intros X. rewrite X. auto.
          -- intros X. destruct (p_input p ++ i); [congruence|reflexivity].
        * eapply leads_trans.
          { apply leads_step with (s' := chg inp lx SendToken (with_input i (set_pre s p))); [discriminate|].
            unfold m_advance. change (ms_state (chg _ _ Preprocess ?v)) with Preprocess. cbn iota.
            change (ms_pre (chg inp lx Preprocess (with_input (t :: i) s))) with (push (ms_pre s) (t :: i)). rewrite AD. cbn [bind].
            change (p_output (push p i)) with (p_output p). rewrite OU. reflexivity. }
          eapply leads_trans; [apply (send_digest inp lx i _ s1 s2 SE DI)|].
          rewrite with_drop. apply (IH CL (p_input (ms_pre s2) ++ i) inp lx rem fut); auto.
          -- rewrite E, app_assoc. reflexivity.
          -- cbn [fits] in F. destruct F as (X1 & X2 & X3). destruct (p_input (ms_pre s2) ++ i); cbn [fits]; [|auto].
             split; [lia|]. split; intros Y; [rewrite (X2 Y)|rewrite (X3 Y)]; cbn; lia.
          -- intros X. rewrite X. auto.
          -- intros X. destruct (p_input (ms_pre s2) ++ i); [congruence|reflexivity].
  Qed.

  (** ** What stands for what *)
  Definition steady (s : machine) : Prop :=
    modes_ok (ms_modes s) /\ ms_leave s = false /\ clean s /\ idle (ms_pre s) /\ ids_ok (ms_pre s) /\
    List.length (ms_mem s) = List.length (p_defs (ms_pre s)).

  Lemma step_done s t p s1 s2 : modes_ok (ms_modes s) -> ms_leave s = false -> clean s ->
    process (ms_pre s) t = Ok p -> sendToken K (set_pre s p) = Ok s1 -> digest K (digest_fuel s1) s1 = Ok s2 ->
    done s1 s2 /\ ms_pre s1 = set_output p [] /\ same_below (ms_mem s) (ms_mem s1).
  Proof.
    intros M L (C1 & C2 & C3) PR SE DI. apply process_output in PR. apply (emits_nil _ _ C2) in PR as [P1 _].
    unfold sendToken in SE. change (ms_pre (set_pre s p)) with p in SE. destruct (p_output p) as [|o [|o' os]] eqn:OU; [| |cbn in P1; lia].
    - injection SE as <-. split; [|split; [cbn; rewrite <- OU; now destruct p|apply same_below_refl]].
      apply (digest_ok K); [exact M|exact L|cbn; rewrite C3; cbn; lia|exact DI].
    - apply bind_Ok in SE as ([a os] & AS & SE). injection SE as <-.
      apply as_write_spec in AS as ((U1 & U2 & U3 & U4 & U5 & U6 & U7) & B & C).
      cbn [fst snd] in *. split; [|split; [exact U3|exact B]].
      apply (digest_ok K); [cbn; rewrite U5; exact M|cbn; rewrite U6; exact L| |exact DI].
      cbn. rewrite U4. cbn. rewrite C3. destruct C as [->| ->]; cbn; lia.
  Qed.
  Lemma group_fields (s s' : machine) : grouping s s' -> ids_ok (ms_pre s) ->
    List.length (ms_mem s) = List.length (p_defs (ms_pre s)) ->
    p_input (ms_pre s') = p_input (ms_pre s) /\ p_output (ms_pre s') = p_output (ms_pre s) /\
    p_frames (ms_pre s') = p_frames (ms_pre s) /\ p_br (ms_pre s') = p_br (ms_pre s) /\ ids_ok (ms_pre s') /\
    List.length (ms_mem s') = List.length (p_defs (ms_pre s')).
  Proof.
    intros G ID LE. pose proof (grouping_stacks _ _ G) as SK. apply stacks_length in SK; [|exact LE].
    destruct G as [[_ Q]|m r _ _ E|m r _ _ E]; [rewrite Q in *; auto 10| |].
    - rewrite E in *. repeat (split; [reflexivity|]). split; [|exact SK].
      apply (apply_ids (ms_pre s) OpBegin); [reflexivity|exact ID].
    - assert (ID' : ids_ok (ms_pre s')) by exact (apply_ids (ms_pre s) OpEnd _ E ID).
      unfold endGroup in E. destruct (p_defs (ms_pre s)); [discriminate|]. injection E as E. rewrite <- E in *. auto 10.
  Qed.

  (** *** An unexpandable token *)
  Lemma process_unexpandable p t : idle p -> p_output p = [] -> unexpandable p t -> process p t = Ok (set_output p [t]).
  Proof.
    intros [b F] O U. unfold process. rewrite F. destruct t as [c k|n|z]; [now rewrite O| |destruct U].
    destruct U as [NP FN]. unfold processControlSeq, DEF, IFBR, CSNAME, EXPANDAFTER.
    assert (X : forall w, In (str w) [str "def"; str "ifbr"; str "csname"; str "expandafter"] -> name_eqb n (str w) = false).
    { intros w I. destruct (name_eqb_spec n (str w)) as [->|]; [|reflexivity]. now destruct NP. }
    rewrite !X by (cbn; tauto). unfold find in FN. destruct (find_ptr n (p_defs p)) as [[? ?]|]; [discriminate|]. now rewrite O.
  Qed.
  Lemma step_unexpandable s t s' : steady s -> unexpandable (ms_pre s) t -> tok_step K s t = Ok s' ->
    steady s' /\ p_br (ms_pre s') = p_br (ms_pre s) /\
    exists s1, sendToken K (set_pre s (set_output (ms_pre s) [t])) = Ok s1 /\ digest K (digest_fuel s1) s1 = Ok s' /\
      grouping s1 s' /\ ms_pre s1 = ms_pre s /\ same_below (ms_mem s) (ms_mem s1).
  Proof.
    intros (M & L & C & I & ID & LE) U H. pose proof C as (C1 & C2 & C3).
    pose proof (process_unexpandable _ _ I C2 U) as PR.
    unfold tok_step, pwrite in H. rewrite C1, PR in H. cbn [bind] in H. apply bind_Ok in H as (s1 & SE & DI).
    destruct (step_done s t _ s1 s' M L C PR SE DI) as ((ST & G & T & L' & M') & P1 & SB).
    assert (P1' : ms_pre s1 = ms_pre s) by (rewrite P1, <- C2; now destruct (ms_pre s)). rewrite <- P1' in ID, C1, C2, I.
    assert (LE1 : List.length (ms_mem s1) = List.length (p_defs (ms_pre s1))) by (destruct SB as [_ SB]; rewrite P1', <- LE; congruence).
    destruct (group_fields s1 s' G ID LE1) as (X1 & X2 & X3 & X4 & X5 & X6).
    split; [|split; [congruence|exists s1; auto]].
    split; [exact M'|]. split; [exact L'|]. split; [split; [congruence|split; [congruence|exact T]]|].
    split; [destruct I as [b I]; exists b; congruence|]. split; [exact X5|exact X6].
  Qed.

  (** *** Tokens that only change the preprocessor *)
  Lemma quiet_output p c p' : MacroProofs.quiet p c p' -> exists x, p_output p' = p_output p ++ x.
  Proof.
    induction 1 as [p|p t p' P|p t p1 ts p' P E Q IH].
    - exists []. now rewrite app_nil_r.
    - apply process_output in P as [->|(o & -> & _)]; [exists []; now rewrite app_nil_r|eauto].
    - destruct IH as [x ->]. apply process_output in P as [->|(o & -> & _)]; [eauto|]. exists ([o] ++ x). now rewrite app_assoc.
  Qed.
  Lemma set_pre_id (s : machine) : set_pre s (ms_pre s) = s. Proof. now destruct s. Qed.
  Lemma send_nothing (s : machine) p : ms_tokens s = [] -> p_output p = [] ->
    sendToken K (set_pre s p) = Ok (set_pre s p) /\ digest K (digest_fuel (set_pre s p)) (set_pre s p) = Ok (set_pre s p).
  Proof.
    intros T O. split; [unfold sendToken; cbn [ms_pre set_pre]; now rewrite O|].
    assert (X : exists n, digest_fuel (set_pre s p) = Datatypes.S n) by (eexists; unfold digest_fuel; rewrite Nat.add_comm; reflexivity).
    destruct X as [n ->]. cbn [digest]. unfold digestToken. change (ms_tokens (set_pre s p)) with (ms_tokens s). rewrite T. reflexivity.
  Qed.
  Lemma quiet_goes p c p' : MacroProofs.quiet p c p' -> forall (s : machine) ts s3, ms_tokens s = [] -> p_output p' = [] -> p_input p = [] ->
    goes (set_pre s (set_input p' [])) (p_input p' ++ ts) s3 -> goes (set_pre s p) (c ++ ts) s3.
  Proof.
    induction 1 as [p|p t p' P|p t p1 c p' P E Q IH]; intros s ts s3 T O I G.
    - rewrite I in G. cbn [app] in G |- *. replace (set_input p []) with p in G; [exact G|]. rewrite <- I. now destruct p.
    - destruct (send_nothing s p' T O) as [SE DI].
      eapply (go_step (set_pre s p) t p' (set_pre s p') (set_pre s p')); [exact P|exact SE|exact DI| |exact G].
      split; [reflexivity|]. split; [exact O|exact T].
    - destruct (quiet_output _ _ _ Q) as [x X]. rewrite O in X. symmetry in X. apply app_eq_nil in X as [O1 _].
      destruct (send_nothing s p1 T O1) as [SE DI].
      eapply (go_step (set_pre s p) t p1 (set_pre s p1) (set_pre s p1)); [exact P|exact SE|exact DI| |].
      + split; [reflexivity|]. split; [exact O1|exact T].
      + change (ms_pre (set_pre s p1)) with p1. rewrite E. cbn [app].
        replace (drop (set_pre s p1)) with (set_pre s p1) by (unfold drop; cbn [ms_pre set_pre]; rewrite <- E; now destruct p1).
        now apply IH.
  Qed.
  Lemma def_quietly s m s' : idle s -> p_input s = [] -> well_formed m -> define s m = Ok s' -> MacroProofs.quiet s (def_text m) s'.
  Proof.
    intros I Ei W D. destruct I as [b I].
    eapply q_cons with (s1 := set_frames s (FReading RMName (mkRM [] 1 [] 0 []) :: p_frames s)).
    - unfold process. rewrite I. unfold processControlSeq, enter. cbn. now rewrite I.
    - exact Ei.
    - eapply def_quiet; [exact W|exact Ei|rewrite set_frames_id; exact D|].
      apply settle_idle. exists b. unfold define in D. destruct (p_defs s); [discriminate|].
      injection D as <-. exact I.
  Qed.

  Lemma digests_goes s ts s' : digests K s ts s' -> steady s -> goes s ts s' /\ steady s'.
  Proof.
    induction 1 as [s|s t s1 ts s2 U TS D IH|s c r ts s2 E D IH|s m p ts s2 W DE D IH]; intros ST.
    - split; [apply go_nil|exact ST].
    - destruct (step_unexpandable s t s1 ST U TS) as (ST1 & _ & s0 & SE & DI & G & P0 & _).
      destruct (IH ST1) as (GO & ST2). split; [|exact ST2]. destruct ST as (_ & _ & (C1 & C2 & C3) & I & _).
      pose proof ST1 as (_ & _ & (C4 & C5 & C6) & _).
      assert (DR : drop s1 = s1).
      { unfold drop. rewrite <- C4. replace (set_input (ms_pre s1) (p_input (ms_pre s1))) with (ms_pre s1) by now destruct (ms_pre s1). apply set_pre_id. }
      eapply go_step; [apply process_unexpandable; eassumption|exact SE|exact DI|rewrite DR; now split|]. rewrite DR, C4. exact GO.
    - destruct (IH ST) as (GO & ST2). split; [|exact ST2]. destruct ST as (_ & _ & (C1 & C2 & C3) & I & ID & _).
      destruct (expands_expandable (ms_pre s) C1 ID c r E) as (n & tl & -> & X).
      pose proof (expandable_quiet _ _ _ _ _ C1 I X) as Q. rewrite set_defs_id in Q. rewrite <- (set_pre_id s).
      apply (quiet_goes _ _ _ Q s ts s2 C3 C2 C1). cbn [p_input set_input].
      replace (set_pre s (set_input (set_input (ms_pre s) r) [])) with s; [exact GO|].
      rewrite <- (set_pre_id s) at 1. f_equal. rewrite <- C1. now destruct (ms_pre s).
    - pose proof ST as (M & L & (C1 & C2 & C3) & I & ID & LE).
      destruct (define_fields _ _ _ DE) as (X1 & X2 & X3 & X4).
      assert (ST1 : steady (set_pre s p)).
      { split; [exact M|]. split; [exact L|]. split; [split; [cbn; congruence|split; [cbn; congruence|exact C3]]|].
        split; [destruct I as [b I]; exists b; cbn; congruence|]. split; [exact (apply_ids (ms_pre s) (OpDefine m) p DE ID)|].
        cbn. unfold define in DE. destruct (p_defs (ms_pre s)); [discriminate|]. injection DE as <-. exact LE. }
      destruct (IH ST1) as (GO & ST2). split; [|exact ST2].
      pose proof (def_quietly (ms_pre s) m p I C1 W DE) as Q. rewrite <- (set_pre_id s).
      apply (quiet_goes _ _ _ Q s ts s2 C3); [congruence|exact C1|]. rewrite X1, C1. cbn [app].
      replace (set_input p []) with p; [exact GO|]. rewrite <- C1, <- X1. now destruct p.
  Qed.

  (** ** The page *)
  Definition page_of (u : machine) : result (lbox N) :=
    do v <- finish_modes K (List.length (ms_modes u) - 1) u;
    match ms_modes v with
    | MV _ b :: _ => Ok (vbox (vb_result b))
    | [] => UB
    | _ => Throw
    end.
  Lemma typeset_digests s text ts u : steady s -> l_out (ms_lex s) = [] ->
    (exists l, feed ct (ms_lex s) text = (l, None) /\ l_out l = ts) -> ends_quietly (ms_lex s) text -> digests K s ts u ->
    exists k, forall n, k <= n -> typeset K n s text = page_of u.
  Proof.
    intros ST LO (l & F & LT) EQ D. destruct (digests_goes s ts u D ST) as (G & _).
    assert (S0 : start s text = chg (mkStream text 0) (ms_lex s) ReadChar (chp (fun p => push p []) s)).
    { unfold start, chg, chp. rewrite push_nil. destruct s; reflexivity. }
    destruct (go_run text l s ts u G (proj1 (proj2 (proj2 ST))) [] (mkStream text 0) (ms_lex s) text ts ReadChar) as [k HK].
    - now rewrite LO.
    - exists []. split; reflexivity.
    - unfold coming. destruct (ms_lex s) as [a b o]. cbn in *. subst o. rewrite F. destruct l; cbn in *; now subst.
    - exact EQ.
    - cbn [fits]. rewrite LO. cbn. auto.
    - auto.
    - congruence.
    - exists (k + 1). intros n LE. unfold typeset. rewrite S0. replace n with (k + Datatypes.S (n - k - 1)) by lia.
      rewrite HK. unfold page_of. cbn [resume]. set (i := mkStream text (List.length text)). set (lx := mkLexer _ _ _).
      change (ms_state (chg i lx ReadChar u)) with ReadChar. cbn iota. unfold m_advance.
      change (ms_state (chg i lx ReadChar u)) with ReadChar. cbn iota.
      change (atEnd (ms_in (chg i lx ReadChar u))) with (Nat.eqb (List.length text) (List.length text)). rewrite Nat.eqb_refl.
      rewrite finish_modes_chg. change (ms_modes (chg i lx ReadChar u)) with (ms_modes u).
      destruct (finish_modes K (List.length (ms_modes u) - 1) u) as [v| | | |]; try reflexivity. cbn [bind rmap].
      assert (R : forall m, resume K m (set_mstate (chg i lx ReadChar v) Idle) = Ok (set_mstate (chg i lx ReadChar v) Idle))
        by (intros [|m]; reflexivity).
      rewrite R. reflexivity.
  Qed.
End Macros.
