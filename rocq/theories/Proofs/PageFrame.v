(** Digesting tokens neither reads nor changes the input, the lexer and the
    state of the loop. *)
From Coq Require Import List Ascii String ZArith Bool Arith Lia.
From Verif.Base Require Import Result Num.
From Verif.Model Require Import Unicode Token Lexer Macro Dimen DimenParser Glue Box
  ListBuilders LineBreaks MathList MathParser MathTypeset MathFrontend PageEditor Preprocessor.
From Verif.Spec Require Import PageEditorSpec.
From Verif.Proofs Require Import PageMachine PageRun.
Import ListNotations.
Local Open Scope nat_scope.

Section Frame.
  Context {N : Num}.
  Variable K : host N.
  Variables (i : stream) (l : lexer) (st : mstate).
  Notation machine := (machine N).

  Definition chg (s : machine) : machine := set_mstate (set_lex (set_in s i) l) st.
  Definition natural (f : machine -> result machine) : Prop :=
    forall s, f (chg s) = rmap chg (f s).

  Lemma rmap_bind_chg {A} (r : result A) (f g : A -> result machine) :
    (forall a, f a = rmap chg (g a)) -> bind r f = rmap chg (bind r g).
  Proof. intros H. destruct r; cbn; auto. Qed.
  Lemma bind_chg (r : result machine) (f g : machine -> result machine) :
    (forall a, f (chg a) = rmap chg (g a)) -> bind (rmap chg r) f = rmap chg (bind r g).
  Proof. intros H. destruct r; cbn; auto. Qed.

  Lemma m_beginGroup_chg : natural m_beginGroup.
  Proof. intros s. unfold m_beginGroup. cbn. destruct (ms_mem s); reflexivity. Qed.
  Lemma m_endGroup_chg : natural m_endGroup.
  Proof. intros s. unfold m_endGroup. cbn. destruct (ms_mem s); [reflexivity|]. now apply rmap_bind_chg. Qed.
  Lemma enter_h_chg r : natural (fun s => enter_h s r).
  Proof.
    intros s. unfold enter_h. apply rmap_bind_chg. intros _. cbn. destruct (ms_modes s); reflexivity.
  Qed.
  Lemma h_output_chg m : natural (fun s => h_output K s m).
  Proof.
    intros s. unfold h_output. destruct (h_routine m); [reflexivity| |].
    - apply rmap_bind_chg. intros me. now apply rmap_bind_chg.
    - cbn. destruct (tl (ms_modes s)) as [|[| |] r]; reflexivity.
  Qed.
  Lemma h_main_chg m t : natural (fun s => h_main K s m t).
  Proof.
    intros s. unfold h_main. destruct t as [c k|n|z]; [| |reflexivity].
    - destruct k; try reflexivity.
      + unfold h_beginGroup. apply (m_beginGroup_chg (set_cur s _)).
      + unfold h_endGroup.
        change (set_cur (chg s) ?x) with (chg (set_cur s x)). rewrite m_endGroup_chg. apply bind_chg.
        intros a. destruct (_ && _)%bool; [apply h_output_chg|reflexivity].
      + now apply rmap_bind_chg.
      + apply rmap_bind_chg. intros b. destruct b; [|reflexivity]. apply rmap_bind_chg. intros x. now apply rmap_bind_chg.
      + apply rmap_bind_chg. intros b. destruct b; [|reflexivity]. apply rmap_bind_chg. intros x. now apply rmap_bind_chg.
    - destruct (cs_is n "par"); [apply h_output_chg|].
      destruct (cs_is n "kern"); [now apply rmap_bind_chg|].
      destruct (cs_is n "hbox"); [apply (enter_h_chg RParent (set_cur s (MH m)))|].
      destruct (cs_is n "lower"); reflexivity.
  Qed.
  Lemma h_write_chg m t : natural (fun s => h_write K s m t).
  Proof.
    intros s. unfold h_write. destruct (h_state m).
    - apply h_main_chg.
    - unfold h_mathshift. destruct (mathshift t); [|reflexivity].
      change (set_cur (chg s) ?x) with (chg (set_cur s x)). rewrite h_output_chg. now apply bind_chg.
    - unfold h_kern. destruct t as [c q|n|z]; [| |reflexivity]; apply rmap_bind_chg; intros x.
      + destruct (kp_done x); [|reflexivity]. now apply rmap_bind_chg.
      + apply (h_main_chg _ _ (set_cur s _)).
    - unfold h_lowering. apply rmap_bind_chg. intros x.
      destruct (_ || _)%bool; [|reflexivity]. apply rmap_bind_chg. intros y. apply rmap_bind_chg. intros us.
      apply rmap_bind_chg. intros v. destruct (isControlSequence t); [|reflexivity]. apply (h_main_chg _ _ (set_cur s _)).
  Qed.
  Lemma m_finish_chg ms bu p : natural (fun s => m_finish K s ms bu p).
  Proof.
    intros s. unfold m_finish. apply rmap_bind_chg. intros q. unfold m_output. cbn [ms_modes chg set_mstate set_lex set_in].
    destruct (tl (ms_modes s)) as [|[| |] r]; try reflexivity; apply rmap_bind_chg; intros x;
      apply rmap_bind_chg; intros y; [|reflexivity]. now apply rmap_bind_chg.
  Qed.
  Lemma m_call_chg bu p c : natural (fun s => m_call s bu p c).
  Proof. intros s. unfold m_call. now apply rmap_bind_chg. Qed.
  Lemma m_write_chg ms bu p t : natural (fun s => m_write K s ms bu p t).
  Proof.
    intros s. unfold m_write. destruct ms; [|destruct (mathshift t); [apply m_finish_chg|reflexivity]].
    unfold m_main. destruct t as [c k|n|z]; [| |reflexivity]; [|now apply rmap_bind_chg].
    destruct k; try reflexivity; try apply m_call_chg.
    - rewrite m_beginGroup_chg. apply bind_chg. intros a. apply m_call_chg.
    - rewrite m_call_chg. apply bind_chg. intros a. apply m_endGroup_chg.
    - cbn [ms_modes chg set_mstate set_lex set_in]. destruct (tl (ms_modes s)) as [|q r]; [reflexivity|].
      destruct (mode_kind q); try reflexivity. apply m_finish_chg.
    - apply rmap_bind_chg. intros b. destruct b; [|reflexivity]. apply rmap_bind_chg. intros x. now apply rmap_bind_chg.
    - apply rmap_bind_chg. intros b. destruct b; [|reflexivity]. apply rmap_bind_chg. intros x. now apply rmap_bind_chg.
  Qed.
  Lemma v_main_chg b t : natural (fun s => v_main K s b t).
  Proof.
    intros s. unfold v_main.
    assert (E : (do s1 <- enter_h (set_cur (chg s) (MV VMain b)) RVertical; Ok (insert s1 t))
                = rmap chg (do s1 <- enter_h (set_cur s (MV VMain b)) RVertical; Ok (insert s1 t))).
    { change (set_cur (chg s) ?x) with (chg (set_cur s x)). rewrite enter_h_chg. now apply bind_chg. }
    destruct t as [c k|n|z].
    - destruct (mathshift _); [reflexivity|exact E].
    - destruct (cs_is n "par"); [reflexivity|]. destruct (cs_is n "kern"); [now apply rmap_bind_chg|reflexivity].
    - destruct (mathshift _); [reflexivity|exact E].
  Qed.
  Lemma v_write_chg vs b t : natural (fun s => v_write K s vs b t).
  Proof.
    intros s. unfold v_write. destruct vs; [apply v_main_chg| |].
    - unfold v_mathshift. destruct (mathshift t); [reflexivity|].
      change (set_cur (chg s) ?x) with (chg (set_cur s x)). rewrite enter_h_chg. apply bind_chg. intros a.
      rewrite enter_h_chg. now apply bind_chg.
    - unfold v_kern. destruct t as [c q|n|z]; [| |reflexivity]; apply rmap_bind_chg; intros x.
      + destruct (kp_done x); [|reflexivity]. now apply rmap_bind_chg.
      + apply v_main_chg.
  Qed.
  Lemma mode_write_chg t : natural (fun s => mode_write K s t).
  Proof.
    intros s. unfold mode_write. cbn [ms_modes chg set_mstate set_lex set_in].
    destruct (ms_modes s) as [|[vs b|m|ms bu p] r]; [reflexivity|apply v_write_chg|apply h_write_chg|apply m_write_chg].
  Qed.
  Lemma digestToken_chg s :
    digestToken K (chg s) = rmap (fun x => (chg (fst x), snd x)) (digestToken K s).
  Proof.
    unfold digestToken. change (ms_tokens (chg s)) with (ms_tokens s).
    destruct (ms_tokens s) as [|t r]; [reflexivity|].
    change (set_tokens (chg s) r) with (chg (set_tokens s r)).
    pose proof (mode_write_chg t (set_tokens s r)) as E. cbv beta in E. rewrite E.
    destruct (mode_write K (set_tokens s r) t) as [a| | | |]; cbn; try reflexivity.
    destruct (ms_leave a); reflexivity.
  Qed.
  Lemma digest_chg n : natural (digest K n).
  Proof.
    induction n as [|n IH]; intros s; [reflexivity|]. cbn [digest]. rewrite digestToken_chg.
    destruct (digestToken K s) as [[a b]| | | |]; cbn; try reflexivity. destruct b; [apply IH|reflexivity].
  Qed.

  Lemma as_main_chg s t : as_main K (chg s) t = rmap (fun x => (chg (fst x), snd x)) (as_main K s t).
  Proof.
    unfold as_main. destruct t as [c k|n|z]; try reflexivity.
    destruct (cs_is n "parshape"); [unfold unitSystem, mem; cbn; now destruct (ms_mem s)|].
    destruct (cs_is n "font"); [reflexivity|]. cbn [ms_fonts chg set_mstate set_lex set_in].
    destruct (find_font n (ms_fonts s)); [|reflexivity]. unfold change_mem. cbn. now destruct (ms_mem s).
  Qed.
  Lemma as_write_chg s t : as_write K (chg s) t = rmap (fun x => (chg (fst x), snd x)) (as_write K s t).
  Proof.
    unfold as_write. cbn [ms_as chg set_mstate set_lex set_in]. destruct (ms_as s) as [|us p|f].
    - apply as_main_chg.
    - unfold as_parshape. destruct (match t with TChar c _ => _ | _ => _ end) as [q| | | |]; cbn [bind rmap]; try reflexivity.
      destruct (_ || _)%bool; [|reflexivity].
      destruct (pp_finish _ _ _) as [ps| | | |]; cbn [bind rmap]; try reflexivity.
      unfold change_mem. change (ms_mem (chg s)) with (ms_mem s).
      destruct (ms_mem s) as [|m r]; cbn [bind]; [reflexivity|].
      destruct (isControlSequence t); [|reflexivity].
      apply (as_main_chg (set_as (set_mem s (set_parshape m ps :: r)) AMain)).
    - unfold as_font. destruct (match t with TCs n => _ | _ => _ end) as [q| | | |]; cbn [bind rmap]; try reflexivity.
      destruct (fp_isFinished q); [|reflexivity]. change (ms_loads (chg s)) with (ms_loads s).
      destruct (k_load K (ms_loads s) (fp_name q) (fp_spec q)); reflexivity.
  Qed.
  Lemma sendToken_chg : natural (sendToken K).
  Proof.
    intros s. unfold sendToken. change (ms_pre (chg s)) with (ms_pre s).
    destruct (p_output (ms_pre s)) as [|t r]; [reflexivity|].
    change (set_pre (chg s) (set_output (ms_pre s) r)) with (chg (set_pre s (set_output (ms_pre s) r))).
    rewrite as_write_chg. destruct (as_write K _ t) as [[a o]| | | |]; reflexivity.
  Qed.
  Lemma digest_fuel_chg s : digest_fuel (chg s) = digest_fuel s. Proof. reflexivity. Qed.
End Frame.
