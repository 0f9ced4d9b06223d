(** From characters to digested tokens: the order, and the tokens lost. *)
From Coq Require Import List Ascii String ZArith Bool Arith Lia.
From Verif.Base Require Import Result Num.
From Verif.Model Require Import Unicode Token Lexer Macro Dimen DimenParser Glue Box
  ListBuilders LineBreaks MathList MathParser MathTypeset MathFrontend PageEditor Preprocessor.
From Verif.Spec Require Import PageEditorSpec.
From Verif.Proofs Require Import LexerProofs PageStream PageMachine PageRun PageFrame PageFindings.
Import ListNotations.
Local Open Scope nat_scope.

(** How many tokens a character makes *)
Lemma write_switch_few c k st b o : exists st' b' ts e,
  write_switch (mkLexer st b o) c k = (mkLexer st' b' (o ++ ts), e) /\ List.length ts <= 1 /\
  (st' = StCS -> ts = [] \/ e <> None \/ st = StCS).
Proof.
  unfold write_switch, produce, produceCSToken, Lexer.set_state, set_buf. cbn.
  destruct k; try (eexists _, _, [], _; split; [rewrite app_nil_r; reflexivity|]; cbn; auto; fail);
    try (eexists _, _, [_], _; split; [reflexivity|]; cbn; split; [lia|discriminate]; fail).
  - destruct st; try (eexists _, _, [], _; split; [rewrite app_nil_r; reflexivity|]; cbn; auto; fail);
    (eexists _, _, [_], _; split; [reflexivity|]; cbn; split; [lia|discriminate]).
  - destruct st; try (eexists _, _, [], _; split; [rewrite app_nil_r; reflexivity|]; cbn; auto; fail);
    (eexists _, _, [_], _; split; [reflexivity|]; cbn; split; [lia|discriminate]).
Qed.
Lemma write_few ct st b o c : exists st' b' ts e,
  write ct (mkLexer st b o) c = (mkLexer st' b' (o ++ ts), e) /\
  List.length ts <= (match st with StCS => 2 | _ => 1 end) /\
  (e = None -> st' = StCS -> st <> StCS -> ts = []) /\
  (e = None -> st' = StCS -> st = StCS -> List.length ts <= 1).
Proof.
  unfold write. cbn [l_state]. generalize (ct c) as k. intros k.
  assert (SW : forall st, st <> StCS -> exists st' b' ts e,
    write_switch (mkLexer st b o) c k = (mkLexer st' b' (o ++ ts), e) /\
    List.length ts <= 1 /\ (e = None -> st' = StCS -> st <> StCS -> ts = []) /\
    (e = None -> st' = StCS -> st = StCS -> List.length ts <= 1)).
  { intros st0 NE. destruct (write_switch_few c k st0 b o) as (st' & b' & ts & e & E & L & C).
    exists st', b', ts, e. split; [exact E|]. split; [exact L|]. split; [|intros; contradiction].
    intros X Y _. destruct (C Y) as [|[|]]; auto; congruence. }
  destruct st; try (apply SW; discriminate).
  - (* a control sequence *)
    clear SW. unfold parseCS. cbn [l_buf]. destruct (cat_eqb k EndOfLine).
    { destruct b; (eexists _, _, [_], None; split; [reflexivity|]; cbn; repeat split; intros; try discriminate; lia). }
    destruct (negb (cat_eqb k Letter)).
    + destruct b.
      * eexists _, _, [_], None. split; [reflexivity|]. cbn. repeat split; intros; try lia; congruence.
      * unfold produceCSToken, Lexer.set_state. cbn [l_state l_buf l_out].
        destruct (write_switch_few c k StS (a :: b) (o ++ [TCs (a :: b)])) as (st' & b' & ts & e & E & L & C).
        exists st', b', (TCs (a :: b) :: ts), e. rewrite E. split; [now rewrite <- app_assoc|]. cbn.
        repeat split; try lia; [intros; congruence|]. intros X Y _. destruct (C Y) as [->|[Z|Z]]; [cbn; lia|congruence|discriminate].
    + eexists _, _, [], None. split; [rewrite app_nil_r; reflexivity|]. cbn. repeat split; auto; lia.
  - (* a parameter *)
    unfold parseP. destruct (cat_eqb k ParamChar).
    { eexists _, _, [_], None. split; [reflexivity|]. cbn. repeat split; intros; try lia; discriminate. }
    unfold produceParamToken. destruct (_ && _)%bool.
    + eexists _, _, [_], None. split; [reflexivity|]. cbn. repeat split; intros; try lia; discriminate.
    + eexists _, _, [], (Some _). split; [rewrite app_nil_r; reflexivity|]. cbn. repeat split; intros; try lia; discriminate.
  - (* a comment *)
    unfold parseCOM. destruct (cat_eqb k EndOfLine);
      (eexists _, _, [], None; split; [rewrite app_nil_r; reflexivity|]; cbn; repeat split; auto; lia).
Qed.

Section Deliver.
  Context {N : Num}.
  Variable K : host N.
  Notation machine := (machine N).
  Notation ct := DefaultCatCodes.

  Lemma bare_chg (s : machine) : bare s = chg (mkStream [] 0) lexer_init Idle s. Proof. reflexivity. Qed.
  Lemma sendToken_bare s s1 : sendToken K s = Ok s1 -> sendToken K (bare s) = Ok (bare s1).
  Proof. intros H. rewrite bare_chg, sendToken_chg, H. reflexivity. Qed.
  Lemma digest_bare n s s1 : digest K n s = Ok s1 -> digest K n (bare s) = Ok (bare s1).
  Proof. intros H. rewrite bare_chg, digest_chg, H. reflexivity. Qed.
  Lemma mode_finish_chg i l st : natural i l st (mode_finish K).
  Proof.
    intros s. unfold mode_finish. change (ms_modes (chg i l st s)) with (ms_modes s).
    destruct (ms_modes s) as [|[vs b|m|ms bu p] r]; [reflexivity|reflexivity|apply h_output_chg|apply m_finish_chg].
  Qed.
  Lemma finish_modes_chg i l st n : natural i l st (finish_modes K n).
  Proof.
    induction n as [|n IH]; intros s; cbn [finish_modes]; [apply mode_finish_chg|].
    rewrite mode_finish_chg. apply bind_chg. intros a. apply (IH (set_modes (set_leave a false) (tl (ms_modes a)))).
  Qed.

  (** ** Few tokens wait in the lexer *)
  Definition few (s : machine) : Prop :=
    let o := l_out (ms_lex s) in
    match ms_state s with
    | ReadToken => List.length o <= 2 /\ (l_state (ms_lex s) = StCS -> List.length o <= 1)
    | _ => List.length o <= 1 /\ (l_state (ms_lex s) = StCS -> o = [])
    end.
  Lemma step_lex s s' : m_advance K s = Ok s' -> ms_state s <> ReadChar -> ms_state s <> ReadToken ->
    ms_lex s' = ms_lex s /\ ms_in s' = ms_in s.
  Proof.
    intros H A B. unfold m_advance in H. destruct (ms_state s) eqn:E; try congruence.
    - injection H as <-. auto.
    - inv_bind H. injection H as <-. auto.
    - inv_bind H. injection H as <-. unfold sendToken in E0. destruct (p_output (ms_pre s)); [now injection E0 as <-|].
      apply bind_Ok in E0 as ([a o] & E1 & E0). injection E0 as <-.
      apply as_write_spec in E1 as ((C & D & _) & _). cbn in *. split; [exact D|exact C].
    - inv_bind H. injection H as <-. cbn.
      assert (X : chg (ms_in s) (ms_lex s) (ms_state s) s = s) by (now destruct s).
      pose proof (digest_chg K (ms_in s) (ms_lex s) (ms_state s) (digest_fuel s) s) as D. rewrite X, E0 in D.
      cbn in D. injection D as D. rewrite D. auto.
  Qed.
  Lemma step_few s s' : invariant s -> few s -> m_advance K s = Ok s' -> few s'.
  Proof.
    intros I F H. destruct (ms_state s) eqn:E.
    2: { (* ReadChar *)
      unfold m_advance in H. rewrite E in H. destruct (atEnd (ms_in s)).
      - inv_bind H. injection H as <-.
        assert (X : chg (ms_in s) (ms_lex s) (ms_state s) s = s) by (now destruct s).
        pose proof (finish_modes_chg (ms_in s) (ms_lex s) (ms_state s) (List.length (ms_modes s) - 1) s) as D.
        rewrite X, E0 in D. cbn in D. injection D as D. rewrite D. unfold few in *. rewrite E in F. exact F.
      - inv_bind H. unfold few in F. rewrite E in F. cbn [set_in ms_lex] in H. destruct (ms_lex s) as [st b o]. cbn in F.
        destruct (write_few ct st b o (fst x)) as (st' & b' & ts & e & W & L & C1 & C2). rewrite W in H.
        destruct e; [discriminate|]. injection H as <-. unfold few. cbn. destruct F as [F1 F2].
        pose proof (app_length o ts) as LL.
        destruct (o ++ ts) as [|t r] eqn:O; cbn; [split; [lia|reflexivity]|]. cbn in LL.
        assert (st = StCS \/ st <> StCS) as [->|NE] by (destruct st; auto; right; discriminate).
        + rewrite (F2 eq_refl) in *. cbn in *. split; [lia|]. intros ->. specialize (C2 eq_refl eq_refl eq_refl). lia.
        + split; [destruct st; cbn in L; try lia; congruence|]. intros ->. rewrite (C1 eq_refl eq_refl NE) in LL.
          cbn in LL. lia. }
    2: { (* ReadToken *)
      unfold m_advance in H. rewrite E in H. unfold few in F. rewrite E in F. destruct F as [F1 F2].
      destruct (l_out (ms_lex s)) as [|t r] eqn:O.
      - injection H as <-. unfold few. cbn. rewrite O. cbn. split; [lia|reflexivity].
      - inv_bind H. injection H as <-. unfold few. cbn. cbn in F1, F2. split; [lia|].
        intros C. specialize (F2 C). destruct r; [reflexivity|cbn in F2; lia]. }
    1: { unfold m_advance in H. rewrite E in H. injection H as <-. exact F. }
    all: destruct (step_lex _ _ H) as [L _]; [congruence|congruence|].
    all: unfold few in *; rewrite E in F; destruct F as [F1 F2]; rewrite L.
    all: destruct (ms_state s'); split; auto; try lia; intros C; rewrite (F2 C); cbn; lia.
  Qed.
  Lemma reached_few s : reached K s -> few s.
  Proof.
    induction 1 as [f h s H|s text R IH I|s s' R IH H].
    - unfold machine_new in H. apply bind_Ok in H as (? & _ & H). apply bind_Ok in H as (? & _ & H). injection H as <-.
      split; [cbn; lia|reflexivity].
    - unfold few in *. rewrite I in IH. exact IH.
    - eapply step_few; eauto. now apply reached_invariant in R.
  Qed.

  (** ** The tokens are processed in order *)
  Variable s0 : machine.
  Variable text : list ascii.
  Definition read_up_to (s : machine) (post : list ascii) (ts : list token) : Prop :=
    exists pre l, text = pre ++ post /\ ms_in s = mkStream text (List.length pre) /\
      feed ct (ms_lex s0) pre = (l, None) /\ l_state l = l_state (ms_lex s) /\ l_buf l = l_buf (ms_lex s) /\
      l_out l = ts ++ l_out (ms_lex s).
  Definition midway (ts : list token) (P : machine -> Prop) : Prop :=
    exists ts0 t u p, ts = ts0 ++ [t] /\ processed K (bare s0) ts0 u /\ pwrite (ms_pre u) t = Ok p /\
      forall w, P w -> pumps K (set_pre u p) w.
  Definition sim (s : machine) : Prop := exists post ts, read_up_to s post ts /\
    match ms_state s with
    | ReadChar | ReadToken => processed K (bare s0) ts (bare s)
    | SendToken => midway ts (pumps K (bare s))
    | DigestToken => exists v, sendToken K v = Ok (bare s) /\ midway ts (pumps K v)
    | Preprocess => p_input (ms_pre s) <> [] /\
        midway ts (fun w => exists p, advance (ms_pre s) = Ok p /\ pumps K (set_pre (bare s) p) w)
    | Idle => post = [] /\ exists u, processed K (bare s0) ts u /\
        finish_modes K (List.length (ms_modes u) - 1) u = Ok (bare s)
    end.

  Lemma processed_snoc a ts b t p c : processed K a ts b -> pwrite (ms_pre b) t = Ok p -> pumps K (set_pre b p) c ->
    processed K a (ts ++ [t]) c.
  Proof.
    induction 1 as [|? ? ? ? ? ? A B C IH]; intros P Q; cbn; [econstructor; eauto; constructor|].
    econstructor; eauto.
  Qed.
  Lemma midway_done ts P w : midway ts P -> P w -> processed K (bare s0) ts w.
  Proof. intros (ts0 & t & u & p & -> & A & B & C) H. eapply processed_snoc; eauto. Qed.
  Lemma midway_impl ts (P Q : machine -> Prop) : midway ts P -> (forall w, Q w -> P w) -> midway ts Q.
  Proof. intros (ts0 & t & u & p & A) H. exists ts0, t, u, p. intuition. Qed.

  Lemma read_same s s' post ts : ms_lex s' = ms_lex s -> ms_in s' = ms_in s -> read_up_to s post ts -> read_up_to s' post ts.
  Proof. intros A B (pre & l & X). exists pre, l. rewrite A, B. exact X. Qed.

  Lemma nothing s : ms_tokens s = [] -> p_output (ms_pre s) = [] -> p_input (ms_pre s) = [] -> pumps K s s.
  Proof.
    intros A B C. apply (pm_done K s s s); [unfold sendToken; now rewrite B| |exact C].
    unfold digest_fuel. rewrite Nat.add_comm. cbn [Nat.add digest]. unfold digestToken. rewrite A. reflexivity.
  Qed.
  Lemma nothing_more s p w : ms_tokens s = [] -> p_output (ms_pre s) = [] -> p_input (ms_pre s) <> [] ->
    advance (ms_pre s) = Ok p -> pumps K (set_pre s p) w -> pumps K s w.
  Proof.
    intros A B C D E. apply (pm_more K s s s p w); [unfold sendToken; now rewrite B| |exact C|exact D|exact E].
    unfold digest_fuel. rewrite Nat.add_comm. cbn [Nat.add digest]. unfold digestToken. rewrite A. reflexivity.
  Qed.

  Lemma step_sim s s' : invariant s -> ms_state s <> Idle -> sim s -> m_advance K s = Ok s' -> sim s'.
  Proof.
    intros I NI (post & ts & R & M) H.
    assert (SAME : ms_state s <> ReadChar -> ms_state s <> ReadToken -> read_up_to s' post ts).
    { intros A B. destruct (step_lex _ _ H A B) as [L L']. eapply read_same; eauto. }
    destruct (ms_state s) eqn:E; [congruence| | | | |].
    - (* ReadChar *)
      unfold m_advance in H. rewrite E in H. destruct R as (pre & l & T & In & Fe & Ls & Lb & Lo).
      destruct (atEnd (ms_in s)) eqn:AE.
      + inv_bind H. injection H as <-.
        assert (X : chg (ms_in s) (ms_lex s) (ms_state s) s = s) by (now destruct s).
        pose proof (finish_modes_chg (ms_in s) (ms_lex s) (ms_state s) (List.length (ms_modes s) - 1) s) as D.
        rewrite X, E0 in D. cbn in D. injection D as D.
        exists post, ts. split; [exists pre, l; cbn; rewrite D; auto 8|]. cbn.
        unfold atEnd in AE. rewrite In in AE. cbn in AE. apply Nat.eqb_eq in AE. rewrite T, app_length in AE.
        split; [destruct post; [reflexivity|cbn in AE; lia]|]. exists (bare s). split; [exact M|].
        cbn [ms_modes bare set_mstate set_lex set_in]. rewrite bare_chg, finish_modes_chg, E0. cbn. reflexivity.
      + apply bind_Ok in H as ([c i] & RD & H). unfold read in RD. rewrite In in RD. cbn [st_text st_pos] in RD.
        unfold atEnd in AE. rewrite In in AE. cbn [st_text st_pos] in AE. rewrite AE in RD.
        destruct (nth_error text (List.length pre)) as [c'|] eqn:NE; [|discriminate]. injection RD as <- <-.
        assert (PO : exists post', post = c' :: post').
        { rewrite T, nth_error_app2, Nat.sub_diag in NE by lia. destruct post; [discriminate|]. injection NE as <-. eauto. }
        destruct PO as [post' ->]. cbn [set_in ms_lex fst snd] in H.
        destruct (ms_lex s) as [st b o] eqn:LX. cbn in Ls, Lb, Lo.
        destruct l as [st0 b0 o0]. cbn in Ls, Lb, Lo. subst st0 b0 o0.
        destruct (write_out_indep ct st b o (ts ++ o) c') as (st' & b' & new & e & W1 & W2).
        rewrite W1 in H. destruct e; [discriminate|]. injection H as <-.
        exists post', ts. split.
        * exists (pre ++ [c']), (mkLexer st' b' ((ts ++ o) ++ new)). cbn. rewrite app_length, <- !app_assoc. cbn.
          rewrite Nat.add_1_r. repeat split; auto. rewrite feed_app, Fe. cbn [feed]. rewrite W2. cbn. now rewrite <- app_assoc.
        * cbn. destruct (o ++ new); exact M.
    - (* ReadToken *)
      unfold m_advance in H. rewrite E in H. destruct R as (pre & l & T & In & Fe & Ls & Lb & Lo).
      destruct (l_out (ms_lex s)) as [|t r] eqn:O.
      + injection H as <-. exists post, ts. split; [exists pre, l; cbn; rewrite O; auto 8|exact M].
      + inv_bind H. injection H as <-. exists post, (ts ++ [t]). split.
        * exists pre, l. cbn. rewrite <- app_assoc. auto 8.
        * cbn. exists ts, t, (bare s), x. cbn in E0. split; [reflexivity|]. split; [exact M|]. split; [exact E0|].
          intros w P. exact P.
    - (* Preprocess *)
      exists post, ts. split; [apply SAME; discriminate|].
      unfold m_advance in H. rewrite E in H. inv_bind H. injection H as <-. cbn.
      destruct I as (_ & _ & _ & _ & _ & I). rewrite E in I. destruct I as [TK _]. destruct M as [NE M].
      destruct (p_output x) eqn:PO; [|].
      + destruct (p_input x) eqn:PI.
        * eapply midway_done; [exact M|]. exists x. split; [exact E0|].
          exact (nothing (set_pre (bare s) x) TK PO PI).
        * split; [congruence|]. eapply midway_impl; [exact M|]. intros w (p & A & B). exists x. split; [exact E0|].
          refine (nothing_more (set_pre (bare s) x) p w TK PO _ A B). cbn. congruence.
      + eapply midway_impl; [exact M|]. intros w B. exists x. split; [exact E0|exact B].
    - (* SendToken *)
      exists post, ts. split; [apply SAME; discriminate|].
      unfold m_advance in H. rewrite E in H. inv_bind H. injection H as <-. cbn.
      exists (bare s). split; [exact (sendToken_bare _ _ E0)|exact M].
    - (* DigestToken *)
      exists post, ts. split; [apply SAME; discriminate|].
      unfold m_advance in H. rewrite E in H. inv_bind H. injection H as <-. cbn.
      destruct M as (v & A & M). pose proof (digest_bare _ _ _ E0) as B.
      destruct (p_input (ms_pre x)) eqn:PI.
      + eapply midway_done; [exact M|]. eapply pm_done; [exact A|exact B|exact PI].
      + split; [cbn; congruence|]. eapply midway_impl; [exact M|]. intros w (p & C & D).
        eapply pm_more; [exact A|exact B| |exact C|exact D]. cbn. congruence.
  Qed.
  Lemma run_sim s tr s' : run K s tr s' -> invariant s -> sim s -> ms_state s <> Idle -> sim s' /\ invariant s'.
  Proof.
    induction 1 as [|s s1 tr s2 A U IH]; intros I S NI; [auto|].
    pose proof (step_sim _ _ I NI S A) as S1. destruct (step_invariant K _ _ I A) as [I1 _].
    destruct (ms_state s1) eqn:E; [|apply IH; auto; congruence ..].
    clear - U E S1 I1. assert (s2 = s1).
    { clear S1 I1. induction U as [|s s1 tr s2 A U IH]; [reflexivity|]. unfold m_advance in A. rewrite E in A.
      injection A as <-. auto. }
    subst. auto.
  Qed.
End Deliver.

Lemma delivered {N : Num} (K : host N) s text n s' : reached K s -> ms_state s = Idle ->
  resume K n (start s text) = Ok s' ->
  exists ts l u, feed DefaultCatCodes (ms_lex s) text = (l, None) /\ l_out l = ts ++ l_out (ms_lex s') /\
    List.length (l_out (ms_lex s')) <= 1 /\ processed K (bare s) ts u /\
    finish_modes K (List.length (ms_modes u) - 1) u = Ok (bare s').
Proof.
  intros R I H. apply resume_run in H as (tr & U & I').
  pose proof (rc_start K _ text R I) as R1. pose proof (run_reached K _ _ _ U R1) as R'.
  pose proof (reached_few K _ R') as F. unfold few in F. rewrite I' in F.
  destruct (run_sim K s text _ _ _ U) as [(post & ts & (pre & l & T & In & Fe & Ls & Lb & Lo) & M) _].
  - now apply (reached_invariant K).
  - exists text, []. split; [exists [], (ms_lex s); repeat split|constructor].
  - discriminate.
  - rewrite I' in M. destruct M as [-> (u & P & Fi)]. rewrite app_nil_r in T. subst pre.
    exists ts, l, u. intuition.
Qed.
