(** Texts without macro calls: the machine is a fold over the tokens. *)
From Coq Require Import List Ascii String ZArith Bool Arith Lia.
From Verif.Base Require Import Result Num.
From Verif.Model Require Import Unicode Token Lexer Macro Dimen DimenParser Glue Box
  ListBuilders LineBreaks MathList MathParser MathTypeset MathFrontend PageEditor Preprocessor.
From Verif.Spec Require Import PageEditorSpec.
From Verif.Proofs Require Import LexerProofs PageStream PageMachine PageRun PageFrame PageFindings PageDeliver.
Import ListNotations.
Local Open Scope nat_scope.

Lemma feed_out_indep ct s : forall st b o o' st' b' ts e,
  feed ct (mkLexer st b o) s = (mkLexer st' b' (o ++ ts), e) -> feed ct (mkLexer st b o') s = (mkLexer st' b' (o' ++ ts), e).
Proof.
  induction s as [|c s IH]; intros st b o o' st' b' ts e H; cbn [feed] in *.
  - injection H as <- <- H <-. rewrite <- (app_nil_r o) in H at 1. apply app_inv_head in H. subst. now rewrite app_nil_r.
  - destruct (write_out_indep ct st b o o' c) as (st1 & b1 & t1 & e1 & W1 & W2). rewrite W1 in H. rewrite W2.
    destruct e1.
    + injection H as <- <- H <-. apply app_inv_head in H. now subst.
    + destruct (feed_prefix_lemma ct (mkLexer st1 b1 (o ++ t1)) [] s) as (more & M). cbn in M. rewrite H in M. cbn in M.
      rewrite <- app_assoc in M. apply app_inv_head in M. subst ts. rewrite app_assoc in H |- *. eapply IH; eauto.
Qed.

Section Quiet.
  Context {N : Num}.
  Variable K : host N.
  Notation machine := (machine N).
  Notation ct := DefaultCatCodes.

  Lemma tok_step_chg i l st t : natural i l st (fun s => tok_step K s t).
  Proof.
    intros s. unfold tok_step. change (ms_pre (chg i l st s)) with (ms_pre s).
    apply rmap_bind_chg. intros p. change (set_pre (chg i l st s) p) with (chg i l st (set_pre s p)).
    rewrite sendToken_chg. apply bind_chg. intros a. rewrite digest_fuel_chg. apply digest_chg.
  Qed.

  Definition quiet_on (ts : list token) (u : machine) : Prop :=
    forall a b u', ts = a ++ b -> foldM (tok_step K) a u = Ok u' -> p_input (ms_pre u') = [].
  Lemma quiet_app a b u u' : quiet_on (a ++ b) u -> foldM (tok_step K) a u = Ok u' -> quiet_on b u'.
  Proof.
    intros Q H a' b' u2 E H'. apply (Q (a ++ a') b'); [now rewrite E, app_assoc|]. now rewrite foldM_app, H.
  Qed.
  Lemma quiet_front a b u : quiet_on (a ++ b) u -> quiet_on a u.
  Proof. intros Q a' b' u2 -> H. apply (Q a' (b' ++ b)); [now rewrite app_assoc|exact H]. Qed.

  Lemma tokens_run i st b o : forall u n, quiet_on o u ->
    resume K (3 * List.length o + n) (chg i (mkLexer st b o) ReadToken u)
    = do u' <- foldM (tok_step K) o u; resume K n (chg i (mkLexer st b []) ReadToken u').
  Proof.
    induction o as [|t o IH]; intros u n Q; [reflexivity|]. cbn [foldM].
    replace (3 * List.length (t :: o) + n) with (Datatypes.S (Datatypes.S (Datatypes.S (3 * List.length o + n)))) by (cbn; lia).
    unfold tok_step at 1. cbn [resume]. change (ms_state (chg i (mkLexer st b (t :: o)) ReadToken u)) with ReadToken. cbn iota.
    unfold m_advance at 1. change (ms_state (chg i (mkLexer st b (t :: o)) ReadToken u)) with ReadToken. cbn iota.
    change (l_out (ms_lex (chg i (mkLexer st b (t :: o)) ReadToken u))) with (t :: o). cbn iota.
    change (ms_pre (set_lex (chg i (mkLexer st b (t :: o)) ReadToken u) _)) with (ms_pre u).
    destruct (pwrite (ms_pre u) t) as [p| | | |] eqn:P; try reflexivity. cbn [bind].
    match goal with |- match ms_state ?s with _ => _ end = _ =>
      change s with (chg i (mkLexer st b o) SendToken (set_pre u p)) end.
    change (ms_state (chg i (mkLexer st b o) SendToken (set_pre u p))) with SendToken. cbn iota.
    unfold m_advance at 1. change (ms_state (chg i (mkLexer st b o) SendToken (set_pre u p))) with SendToken. cbn iota.
    rewrite sendToken_chg. destruct (sendToken K (set_pre u p)) as [s1| | | |] eqn:S1; try reflexivity. cbn [bind rmap].
    match goal with |- match ms_state ?s with _ => _ end = _ =>
      change s with (chg i (mkLexer st b o) DigestToken s1) end.
    change (ms_state (chg i (mkLexer st b o) DigestToken s1)) with DigestToken. cbn iota.
    unfold m_advance at 1. change (ms_state (chg i (mkLexer st b o) DigestToken s1)) with DigestToken. cbn iota.
    rewrite digest_fuel_chg, digest_chg. destruct (digest K (digest_fuel s1) s1) as [s2| | | |] eqn:S2; try reflexivity.
    cbn [bind rmap]. change (ms_pre (chg i (mkLexer st b o) DigestToken s2)) with (ms_pre s2).
    assert (E : tok_step K u t = Ok s2) by (unfold tok_step; rewrite P; cbn [bind]; rewrite S1; exact S2).
    assert (E1 : foldM (tok_step K) [t] u = Ok s2) by (cbn [foldM]; rewrite E; reflexivity).
    rewrite (Q [t] o s2 eq_refl E1). cbn iota.
    match goal with |- resume _ _ ?s = _ => change s with (chg i (mkLexer st b o) ReadToken s2) end.
    apply IH. exact (quiet_app [t] o u s2 Q E1).
  Qed.

  Lemma chars_run text post : forall pre u st b st' b' ts, text = pre ++ post ->
    feed ct (mkLexer st b []) post = (mkLexer st' b' ts, None) -> quiet_on ts u ->
    exists k, forall n,
      resume K (k + n) (chg (mkStream text (List.length pre)) (mkLexer st b []) ReadChar u)
      = do u' <- foldM (tok_step K) ts u;
        resume K n (chg (mkStream text (List.length text)) (mkLexer st' b' []) ReadChar u').
  Proof.
    induction post as [|c post IH]; intros pre u st b st' b' ts T F Q.
    - cbn in F. injection F as <- <- <-. exists 0. intros n. rewrite T, app_nil_r. reflexivity.
    - cbn [feed] in F. destruct (write_out_indep ct st b [] [] c) as (st1 & b1 & new & e & W & _).
      cbn [app] in W. rewrite W in F. destruct e; [discriminate|].
      assert (TS : exists ts2, ts = new ++ ts2 /\ feed ct (mkLexer st1 b1 []) post = (mkLexer st' b' ts2, None)).
      { destruct (feed_prefix_lemma ct (mkLexer st1 b1 new) [] post) as (more & M). cbn in M. rewrite F in M. cbn in M. subst ts.
        exists more. split; [reflexivity|]. exact (feed_out_indep ct post st1 b1 new [] st' b' more None F). }
      destruct TS as (ts2 & -> & F2).
      assert (T' : text = (pre ++ [c]) ++ post) by (now rewrite <- app_assoc).
      assert (ADV : m_advance K (chg (mkStream text (List.length pre)) (mkLexer st b []) ReadChar u)
        = Ok (chg (mkStream text (List.length (pre ++ [c]))) (mkLexer st1 b1 new)
                (match new with [] => ReadChar | _ => ReadToken end) u)).
      { unfold m_advance. change (ms_state (chg _ _ ReadChar u)) with ReadChar. cbn iota.
        change (ms_in (chg (mkStream text (List.length pre)) (mkLexer st b []) ReadChar u)) with (mkStream text (List.length pre)).
        unfold atEnd, read. cbn [st_text st_pos].
        assert (NE : nth_error text (List.length pre) = Some c) by (rewrite T, nth_error_app2, Nat.sub_diag by lia; reflexivity).
        assert (LT : List.length pre < List.length text) by (rewrite T, app_length; cbn; lia).
        rewrite (proj2 (Nat.eqb_neq _ _)) by lia. rewrite NE. cbn [bind snd fst].
        change (ms_lex (set_in (chg _ (mkLexer st b []) ReadChar u) _)) with (mkLexer st b []). rewrite W.
        rewrite app_length, Nat.add_1_r. reflexivity. }
      destruct new as [|t new].
      + destruct (IH (pre ++ [c]) u st1 b1 st' b' ts2 T' F2 Q) as [k HK]. exists (Datatypes.S k). intros n.
        cbn [Nat.add resume]. change (ms_state (chg _ _ ReadChar u)) with ReadChar. cbn iota. rewrite ADV. cbn [bind]. apply HK.
      + set (o := t :: new) in *.
        destruct (foldM (tok_step K) o u) as [u1| | | |] eqn:FO.
        1: destruct (IH (pre ++ [c]) u1 st1 b1 st' b' ts2 T' F2 (quiet_app o ts2 u u1 Q FO)) as [k HK].
        1: exists (Datatypes.S (3 * List.length o + Datatypes.S k)).
        2-5: exists (Datatypes.S (3 * List.length o)).
        all: intros n; cbn [Nat.add resume]; change (ms_state (chg _ _ ReadChar u)) with ReadChar; cbn iota; rewrite ADV;
          cbn [bind]; change (match o with [] => ReadChar | _ => ReadToken end) with ReadToken;
          rewrite foldM_app, FO, <- ?Nat.add_assoc, tokens_run by exact (quiet_front o ts2 u Q); rewrite FO; try reflexivity.
        cbn [bind Nat.add resume]. change (ms_state (chg _ _ ReadToken u1)) with ReadToken. cbn iota.
        unfold m_advance at 1. change (ms_state (chg _ _ ReadToken u1)) with ReadToken. cbn iota.
        change (l_out (ms_lex (chg _ (mkLexer st1 b1 []) ReadToken u1))) with (@nil token). cbn [bind]. apply HK.
  Qed.

  (** The page of a text, from its tokens *)
  Lemma typeset_tokens s text l ts : l_out (ms_lex s) = [] -> feed ct (ms_lex s) text = (l, None) -> l_out l = ts ->
    quiet_on ts s -> exists k, forall n, k <= n -> typeset K n s text = page_of_tokens K ts s.
  Proof.
    intros O F L Q. destruct (ms_lex s) as [st b o] eqn:LX. cbn in O. subst o. destruct l as [st' b' ts']. cbn in L. subst ts'.
    destruct (chars_run text text [] s st b st' b' ts eq_refl F Q) as [k HK].
    assert (S0 : start s text = chg (mkStream text 0) (mkLexer st b []) ReadChar s).
    { unfold start, chg. rewrite <- LX. destruct s; reflexivity. }
    exists (k + 1). intros n LE. unfold typeset. rewrite S0. replace n with (k + Datatypes.S (n - k - 1)) by lia.
    cbn [List.length] in HK. rewrite HK. unfold page_of_tokens.
    destruct (foldM (tok_step K) ts s) as [u| | | |]; try reflexivity. cbn [bind resume].
    set (i := mkStream text (List.length text)). set (lx := mkLexer st' b' []).
    change (ms_state (chg i lx ReadChar u)) with ReadChar. cbn iota. unfold m_advance.
    change (ms_state (chg i lx ReadChar u)) with ReadChar. cbn iota.
    change (atEnd (ms_in (chg i lx ReadChar u))) with (Nat.eqb (List.length text) (List.length text)). rewrite Nat.eqb_refl.
    rewrite finish_modes_chg. change (ms_modes (chg i lx ReadChar u)) with (ms_modes u).
    destruct (finish_modes K (List.length (ms_modes u) - 1) u) as [v| | | |]; try reflexivity. cbn [bind rmap].
    assert (R : forall m, resume K m (set_mstate (chg i lx ReadChar v) Idle) = Ok (set_mstate (chg i lx ReadChar v) Idle))
      by (intros [|m]; reflexivity).
    rewrite R. reflexivity.
  Qed.
End Quiet.
