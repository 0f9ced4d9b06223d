(** What is digested does not depend on the definitions and on what waits in
    the preprocessor. *)
From Coq Require Import List Ascii String ZArith Bool Arith Lia.
From Verif.Base Require Import Result Num.
From Verif.Model Require Import Unicode Token Lexer Macro Dimen DimenParser Glue Box
  ListBuilders LineBreaks MathList MathParser MathTypeset MathFrontend PageEditor Preprocessor.
From Verif.Spec Require Import PageEditorSpec.
From Verif.Proofs Require Import PageMachine PageRun.
Import ListNotations.
Local Open Scope nat_scope.

Section Other.
  Context {N : Num}.
  Variable K : host N.
  Notation machine := (machine N).
  Variable f : Preprocessor.pstate -> Preprocessor.pstate.
  Hypothesis f_begin : forall p, f (beginGroup p) = beginGroup (f p).
  Hypothesis f_end : forall p, endGroup (f p) = rmap f (endGroup p).
  Hypothesis f_output : forall p, p_output (f p) = p_output p.
  Hypothesis f_set : forall p o, f (set_output p o) = set_output (f p) o.

  Definition chp (s : machine) : machine := set_pre s (f (ms_pre s)).
  Definition natural_p (f0 : machine -> result machine) : Prop :=
    forall s, f0 (chp s) = rmap chp (f0 s).

  Lemma rmap_bind_chp {A} (r : result A) (f0 g : A -> result machine) :
    (forall a, f0 a = rmap chp (g a)) -> bind r f0 = rmap chp (bind r g).
  Proof. intros H. destruct r; cbn; auto. Qed.
  Lemma bind_chp (r : result machine) (f0 g : machine -> result machine) :
    (forall a, f0 (chp a) = rmap chp (g a)) -> bind (rmap chp r) f0 = rmap chp (bind r g).
  Proof. intros H. destruct r; cbn; auto. Qed.

  Lemma m_beginGroup_chp : natural_p m_beginGroup.
  Proof. intros s. unfold m_beginGroup, chp. cbn. rewrite <- f_begin. destruct (ms_mem s); reflexivity. Qed.
  Lemma m_endGroup_chp : natural_p m_endGroup.
  Proof.
    intros s. unfold m_endGroup. cbn. destruct (ms_mem s); [reflexivity|]. rewrite f_end.
    destruct (endGroup (ms_pre s)); reflexivity.
  Qed.
  Lemma enter_h_chp r : natural_p (fun s => enter_h s r).
  Proof.
    intros s. unfold enter_h. apply rmap_bind_chp. intros _. cbn. destruct (ms_modes s); reflexivity.
  Qed.
  Lemma h_output_chp m : natural_p (fun s => h_output K s m).
  Proof.
    intros s. unfold h_output. destruct (h_routine m); [reflexivity| |].
    - apply rmap_bind_chp. intros me. now apply rmap_bind_chp.
    - cbn. destruct (tl (ms_modes s)) as [|[| |] r]; reflexivity.
  Qed.
  Lemma h_main_chp m t : natural_p (fun s => h_main K s m t).
  Proof.
    intros s. unfold h_main. destruct t as [c k|n|z]; [| |reflexivity].
    - destruct k; try reflexivity.
      + unfold h_beginGroup. apply (m_beginGroup_chp (set_cur s _)).
      + unfold h_endGroup.
        change (set_cur (chp s) ?x) with (chp (set_cur s x)). rewrite m_endGroup_chp. apply bind_chp.
        intros a. destruct (_ && _)%bool; [apply h_output_chp|reflexivity].
      + now apply rmap_bind_chp.
      + apply rmap_bind_chp. intros b. destruct b; [|reflexivity]. apply rmap_bind_chp. intros x. now apply rmap_bind_chp.
      + apply rmap_bind_chp. intros b. destruct b; [|reflexivity]. apply rmap_bind_chp. intros x. now apply rmap_bind_chp.
    - destruct (cs_is n "par"); [apply h_output_chp|].
      destruct (cs_is n "kern"); [now apply rmap_bind_chp|].
      destruct (cs_is n "hbox"); [apply (enter_h_chp RParent (set_cur s (MH m)))|].
      destruct (cs_is n "lower"); reflexivity.
  Qed.
  Lemma h_write_chp m t : natural_p (fun s => h_write K s m t).
  Proof.
    intros s. unfold h_write. destruct (h_state m).
    - apply h_main_chp.
    - unfold h_mathshift. destruct (mathshift t); [|reflexivity].
      change (set_cur (chp s) ?x) with (chp (set_cur s x)). rewrite h_output_chp. now apply bind_chp.
    - unfold h_kern. destruct t as [c q|n|z]; [| |reflexivity]; apply rmap_bind_chp; intros x.
      + destruct (kp_done x); [|reflexivity]. now apply rmap_bind_chp.
      + apply (h_main_chp _ _ (set_cur s _)).
    - unfold h_lowering. apply rmap_bind_chp. intros x.
      destruct (_ || _)%bool; [|reflexivity]. apply rmap_bind_chp. intros y. apply rmap_bind_chp. intros us.
      apply rmap_bind_chp. intros v. destruct (isControlSequence t); [|reflexivity]. apply (h_main_chp _ _ (set_cur s _)).
  Qed.
  Lemma m_finish_chp ms bu p : natural_p (fun s => m_finish K s ms bu p).
  Proof.
    intros s. unfold m_finish. apply rmap_bind_chp. intros q. unfold m_output. cbn [ms_modes chp set_pre].
    destruct (tl (ms_modes s)) as [|[| |] r]; try reflexivity; apply rmap_bind_chp; intros x;
      apply rmap_bind_chp; intros y; [|reflexivity]. now apply rmap_bind_chp.
  Qed.
  Lemma m_call_chp bu p c : natural_p (fun s => m_call s bu p c).
  Proof. intros s. unfold m_call. now apply rmap_bind_chp. Qed.
  Lemma m_write_chp ms bu p t : natural_p (fun s => m_write K s ms bu p t).
  Proof.
    intros s. unfold m_write. destruct ms; [|destruct (mathshift t); [apply m_finish_chp|reflexivity]].
    unfold m_main. destruct t as [c k|n|z]; [| |reflexivity]; [|now apply rmap_bind_chp].
    destruct k; try reflexivity; try apply m_call_chp.
    - rewrite m_beginGroup_chp. apply bind_chp. intros a. apply m_call_chp.
    - rewrite m_call_chp. apply bind_chp. intros a. apply m_endGroup_chp.
    - cbn [ms_modes chp set_pre]. destruct (tl (ms_modes s)) as [|q r]; [reflexivity|].
      destruct (mode_kind q); try reflexivity. apply m_finish_chp.
    - apply rmap_bind_chp. intros b. destruct b; [|reflexivity]. apply rmap_bind_chp. intros x. now apply rmap_bind_chp.
    - apply rmap_bind_chp. intros b. destruct b; [|reflexivity]. apply rmap_bind_chp. intros x. now apply rmap_bind_chp.
  Qed.
  Lemma v_main_chp b t : natural_p (fun s => v_main K s b t).
  Proof.
    intros s. unfold v_main.
    assert (E : (do s1 <- enter_h (set_cur (chp s) (MV VMain b)) RVertical; Ok (insert s1 t))
                = rmap chp (do s1 <- enter_h (set_cur s (MV VMain b)) RVertical; Ok (insert s1 t))).
    { change (set_cur (chp s) ?x) with (chp (set_cur s x)). rewrite enter_h_chp. now apply bind_chp. }
    destruct t as [c k|n|z].
    - destruct (mathshift _); [reflexivity|exact E].
    - destruct (cs_is n "par"); [reflexivity|]. destruct (cs_is n "kern"); [now apply rmap_bind_chp|reflexivity].
    - destruct (mathshift _); [reflexivity|exact E].
  Qed.
  Lemma v_write_chp vs b t : natural_p (fun s => v_write K s vs b t).
  Proof.
    intros s. unfold v_write. destruct vs; [apply v_main_chp| |].
    - unfold v_mathshift. destruct (mathshift t); [reflexivity|].
      change (set_cur (chp s) ?x) with (chp (set_cur s x)). rewrite enter_h_chp. apply bind_chp. intros a.
      rewrite enter_h_chp. now apply bind_chp.
    - unfold v_kern. destruct t as [c q|n|z]; [| |reflexivity]; apply rmap_bind_chp; intros x.
      + destruct (kp_done x); [|reflexivity]. now apply rmap_bind_chp.
      + apply v_main_chp.
  Qed.
  Lemma mode_write_chp t : natural_p (fun s => mode_write K s t).
  Proof.
    intros s. unfold mode_write. cbn [ms_modes chp set_pre].
    destruct (ms_modes s) as [|[vs b|m|ms bu p] r]; [reflexivity|apply v_write_chp|apply h_write_chp|apply m_write_chp].
  Qed.
  Lemma digestToken_chp s :
    digestToken K (chp s) = rmap (fun x => (chp (fst x), snd x)) (digestToken K s).
  Proof.
    unfold digestToken. change (ms_tokens (chp s)) with (ms_tokens s).
    destruct (ms_tokens s) as [|t r]; [reflexivity|].
    change (set_tokens (chp s) r) with (chp (set_tokens s r)).
    pose proof (mode_write_chp t (set_tokens s r)) as E. cbv beta in E. rewrite E.
    destruct (mode_write K (set_tokens s r) t) as [a| | | |]; cbn; try reflexivity.
    destruct (ms_leave a); reflexivity.
  Qed.
  Lemma digest_chp n : natural_p (digest K n).
  Proof.
    induction n as [|n IH]; intros s; [reflexivity|]. cbn [digest]. rewrite digestToken_chp.
    destruct (digestToken K s) as [[a b]| | | |]; cbn; try reflexivity. destruct b; [apply IH|reflexivity].
  Qed.

  Lemma as_main_chp s t : as_main K (chp s) t = rmap (fun x => (chp (fst x), snd x)) (as_main K s t).
  Proof.
    unfold as_main. destruct t as [c k|n|z]; try reflexivity.
    destruct (cs_is n "parshape"); [unfold unitSystem, mem; cbn; now destruct (ms_mem s)|].
    destruct (cs_is n "font"); [reflexivity|]. cbn [ms_fonts chp set_pre].
    destruct (find_font n (ms_fonts s)); [|reflexivity]. unfold change_mem. cbn. now destruct (ms_mem s).
  Qed.
  Lemma as_write_chp s t : as_write K (chp s) t = rmap (fun x => (chp (fst x), snd x)) (as_write K s t).
  Proof.
    unfold as_write. cbn [ms_as chp set_pre]. destruct (ms_as s) as [|us p|fp].
    - apply as_main_chp.
    - unfold as_parshape. destruct (match t with TChar c _ => _ | _ => _ end) as [q| | | |]; cbn [bind rmap]; try reflexivity.
      destruct (_ || _)%bool; [|reflexivity].
      destruct (pp_finish _ _ _) as [ps| | | |]; cbn [bind rmap]; try reflexivity.
      unfold change_mem. change (ms_mem (chp s)) with (ms_mem s).
      destruct (ms_mem s) as [|m r]; cbn [bind]; [reflexivity|].
      destruct (isControlSequence t); [|reflexivity].
      apply (as_main_chp (set_as (set_mem s (set_parshape m ps :: r)) AMain)).
    - unfold as_font. destruct (match t with TCs n => _ | _ => _ end) as [q| | | |]; cbn [bind rmap]; try reflexivity.
      destruct (fp_isFinished q); [|reflexivity]. change (ms_loads (chp s)) with (ms_loads s).
      destruct (k_load K (ms_loads s) (fp_name q) (fp_spec q)); reflexivity.
  Qed.
  Lemma sendToken_chp : natural_p (sendToken K).
  Proof.
    intros s. unfold sendToken. change (ms_pre (chp s)) with (f (ms_pre s)). rewrite f_output.
    destruct (p_output (ms_pre s)) as [|t r]; [reflexivity|]. rewrite <- f_set.
    change (set_pre (chp s) (f (set_output (ms_pre s) r))) with (chp (set_pre s (set_output (ms_pre s) r))).
    rewrite as_write_chp. destruct (as_write K _ t) as [[a o]| | | |]; reflexivity.
  Qed.
  Lemma digest_fuel_chp s : digest_fuel (chp s) = digest_fuel s. Proof. reflexivity. Qed.
  Lemma mode_finish_chp : natural_p (mode_finish K).
  Proof.
    intros s. unfold mode_finish. change (ms_modes (chp s)) with (ms_modes s).
    destruct (ms_modes s) as [|[vs b|m|ms bu p] r]; [reflexivity|reflexivity|apply h_output_chp|apply m_finish_chp].
  Qed.
  Lemma finish_modes_chp n : natural_p (finish_modes K n).
  Proof.
    induction n as [|n IH]; intros s; cbn [finish_modes]; [apply mode_finish_chp|].
    rewrite mode_finish_chp. apply bind_chp. intros a. apply (IH (set_modes (set_leave a false) (tl (ms_modes a)))).
  Qed.
End Other.
