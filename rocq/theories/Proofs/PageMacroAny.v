(** Definitions anywhere in a text: the page is that of the tokens left. *)
From Coq Require Import List Ascii String ZArith Bool Arith Lia.
From Verif.Base Require Import Result Num.
From Verif.Model Require Import Unicode Token Lexer Macro Dimen DimenParser Glue Box
  ListBuilders LineBreaks MathList MathParser MathTypeset MathFrontend PageEditor Preprocessor.
From Verif.Spec Require Import LexerSpec MacroSpec PageEditorSpec PageTextSpec RichTextSpec PageMacroSpec.
From Verif.Proofs Require Import LexerProofs MacroProofs MacroExpand MacroMore
  PageStream PageMachine PageRun PageFrame PageFindings PageDeliver PageQuiet PageText PageOther PageMacro PageRich PageMacroDoc.
Import ListNotations.
Local Open Scope nat_scope.

(** ** Without any definition *)
Definition bare (p : pstate) : pstate := set_defs p (map (fun sc => mkScope (sc_id sc) []) (p_defs p)).
Lemma bare_begin p : bare (beginGroup p) = beginGroup (bare p). Proof. reflexivity. Qed.
Lemma bare_end p : endGroup (bare p) = rmap bare (endGroup p).
Proof. unfold endGroup, bare. cbn. destruct (p_defs p); reflexivity. Qed.
Lemma bare_find p n : find (bare p) n = None.
Proof. unfold find, bare. cbn. induction (p_defs p); cbn; auto. Qed.
Lemma bare_define p m q : define p m = Ok q -> bare q = bare p.
Proof. unfold define, bare. destruct (p_defs p) as [|sc r] eqn:E; [discriminate|]. intros H. injection H as <-. reflexivity. Qed.
Lemma bare_unexpandable p t : unexpandable p t -> unexpandable (bare p) t.
Proof. destruct t as [c k|n|z]; cbn; try tauto. intros (NP & _). split; [exact NP|apply bare_find]. Qed.

(** the scopes of a run that defines nothing *)
Definition below (d d' : list scope) : Prop :=
  exists es a b, d' = es ++ b /\ d = a ++ b /\ Forall (fun x => sc_macros x = []) es.
Lemma find_app_none n a b : find_ptr n (a ++ b) = None -> find_ptr n b = None.
Proof. induction a as [|x a IH]; cbn; [auto|]. destruct (table_find n (sc_macros x)); [discriminate|exact IH]. Qed.
Lemma below_find d d' n : below d d' -> find_ptr n d = None -> find_ptr n d' = None.
Proof.
  intros (es & a & b & -> & -> & F) H. apply find_app_none in H. induction F as [|x es E F IH]; [exact H|]. cbn. now rewrite E.
Qed.

Section Any.
  Context {N : Num}.
  Variable K : host N.
  Notation machine := (machine N).
  Notation strip := (chp bare).

  Lemma strip_step s t : clean s -> idle (ms_pre s) -> unexpandable (ms_pre s) t ->
    tok_step K (strip s) t = rmap strip (tok_step K s t).
  Proof.
    intros (C1 & C2 & C3) I U. unfold tok_step, pwrite. change (ms_pre (strip s)) with (bare (ms_pre s)).
    change (p_input (bare (ms_pre s))) with (p_input (ms_pre s)). rewrite C1.
    rewrite !process_unexpandable; try assumption; [|now apply bare_unexpandable]. cbn [bind].
    change (set_pre (strip s) (set_output (bare (ms_pre s)) [t])) with (strip (set_pre s (set_output (ms_pre s) [t]))).
    rewrite sendToken_chp by reflexivity.
    destruct (sendToken K (set_pre s (set_output (ms_pre s) [t]))) as [u| | | |]; try reflexivity. cbn [rmap bind].
    change (digest_fuel (strip u)) with (digest_fuel u). apply digest_chp; [reflexivity|apply bare_end].
  Qed.

  Lemma step_below d s t s' : steady s -> below d (p_defs (ms_pre s)) -> unexpandable (ms_pre s) t ->
    tok_step K s t = Ok s' -> steady s' /\ below d (p_defs (ms_pre s')).
  Proof.
    intros ST (es & a & b & D & D0 & F) U TS.
    destruct (step_unexpandable K s t s' ST U TS) as (ST' & _ & s1 & _ & _ & G & P1 & _).
    split; [exact ST'|]. rewrite <- P1 in D. destruct G as [[_ Q]|m r _ _ E|m r _ _ E].
    - exists es, a, b. rewrite Q. auto.
    - exists (mkScope (p_next (ms_pre s1)) [] :: es), a, b. rewrite E. cbn. rewrite D. repeat split; auto.
    - unfold endGroup in E. rewrite D in E. destruct es as [|x es]; cbn [app] in E.
      + destruct b as [|y b]; [discriminate|]. injection E as E. exists [], (a ++ [y]), b. rewrite <- E.
        repeat split; auto. now rewrite <- app_assoc.
      + injection E as E. exists es, a, b. rewrite <- E. repeat split; auto. now inversion F.
  Qed.

  Lemma plain_strip q us : Forall (unexpandable q) us -> forall s, steady s -> below (p_defs q) (p_defs (ms_pre s)) ->
    foldM (tok_step K) us (strip s) = rmap strip (foldM (tok_step K) us s).
  Proof.
    induction 1 as [|t us U F IH]; intros s ST B; [reflexivity|]. cbn [foldM].
    assert (U' : unexpandable (ms_pre s) t).
    { destruct t as [c k|n|z]; [exact Logic.I| |exact U]. destruct U as (NP & FN). split; [exact NP|]. unfold find in *.
      rewrite (below_find _ _ n B); [reflexivity|]. now destruct (find_ptr n (p_defs q)). }
    pose proof ST as (_ & _ & C & I & _). rewrite (strip_step s t C I U').
    destruct (tok_step K s t) as [s1| | | |] eqn:TS; try reflexivity. cbn [rmap bind].
    destruct (step_below _ s t s1 ST B U' TS) as (ST1 & B1). now apply IH.
  Qed.

  Lemma define_steady (s : machine) m p : steady s -> define (ms_pre s) m = Ok p -> steady (set_pre s p).
  Proof.
    intros (M & L & (C1 & C2 & C3) & (b & I) & ID & LE) D.
    pose proof (apply_ids (ms_pre s) (OpDefine m) p D ID) as ID'.
    unfold define in D. destruct (p_defs (ms_pre s)) as [|sc r] eqn:E; [discriminate|].
    injection D as <-. split; [exact M|]. split; [exact L|]. split; [now split|]. split; [exists b; exact I|].
    split; [exact ID'|]. cbn in *. exact LE.
  Qed.

  Lemma reads_strip s ts us u : reads K s ts us u -> steady s ->
    foldM (tok_step K) us (strip s) = Ok (strip u).
  Proof.
    induction 1 as [s|s t s1 ts us s2 U TS R IH|s c r ts us s2 E R IH|s m p ts us s2 W D R IH]; intros ST.
    - reflexivity.
    - cbn [foldM]. pose proof ST as (_ & _ & C & I & _). rewrite (strip_step s t C I U), TS. cbn [rmap bind].
      apply IH. now destruct (step_unexpandable K s t s1 ST U TS).
    - now apply IH.
    - rewrite <- IH by (now apply (define_steady s m p)). f_equal. unfold chp. cbn [ms_pre set_pre].
      rewrite (bare_define _ _ _ D). now destruct s.
  Qed.

  Lemma reads_digests s ts us u : reads K s ts us u -> digests K s ts u.
  Proof. induction 1; econstructor; eassumption. Qed.
  Lemma digests_reads s ts u : digests K s ts u -> exists us, reads K s ts us u.
  Proof.
    induction 1 as [s|s t s1 ts s2 U TS R [us IH]|s c r ts s2 E R [us IH]|s m p ts s2 W D R [us IH]];
      eexists; econstructor; eassumption.
  Qed.

  Lemma page_strip u : page_of K (strip u) = page_of K u.
  Proof.
    unfold page_of. rewrite finish_modes_chp. change (ms_modes (strip u)) with (ms_modes u).
    destruct (finish_modes K (List.length (ms_modes u) - 1) u); reflexivity.
  Qed.

  Lemma reads_page s ts us u : steady s -> reads K s ts us u -> Forall (unexpandable (ms_pre s)) us ->
    page_of_tokens K us s = page_of_tokens K [] u.
  Proof.
    intros ST R F. pose proof (reads_strip s ts us u R ST) as H.
    rewrite (plain_strip (ms_pre s) us F s ST) in H; [|exists [], [], (p_defs (ms_pre s)); auto].
    unfold page_of_tokens. destruct (foldM (tok_step K) us s) as [v| | | |]; try discriminate. cbn [rmap] in H.
    apply (f_equal (fun r => match r with Ok x => page_of K x | _ => Fuel end)) in H.
    change (page_of K (strip v) = page_of K (strip u)) in H. rewrite (page_strip v), (page_strip u) in H. exact H.
  Qed.
End Any.

Lemma typeset_reads {N : Num} (K : host N) f h s text ts us u : machine_new K f h = Ok s ->
  settled_text DefaultCatCodes text ts -> reads K s ts us u -> Forall (unexpandable (ms_pre s)) us ->
  exists k, forall n, k <= n -> typeset K n s text = page_of_tokens K us s.
Proof.
  intros NW SE R F. destruct (new_steady K f h s NW) as (ST & _).
  rewrite (reads_page K s ts us u ST R F). apply (typeset_settled K f h s text ts u NW SE). now apply reads_digests in R.
Qed.

Lemma typeset_reads_rich {N : Num} (K : host N) f h s text ts us u b : nonzero (n0 : N) = false -> machine_new K f h = Ok s ->
  settled_text DefaultCatCodes text ts -> reads K s ts us u -> Forall (unexpandable (ms_pre s)) us ->
  rich K (new_env K f h) us (new_page K) b -> (Z.of_nat (List.length us) < size_mod)%Z ->
  exists k, forall n, k <= n -> typeset K n s text = Ok (vbox (vb_result b)).
Proof.
  intros Z0 NW SE RD F R LE. destruct (new_rich K f h s NW) as (A & L).
  destruct (rich_run K Z0 _ _ _ _ R LE s A) as (_ & <- & _).
  now apply (typeset_reads K f h s text ts us u).
Qed.

(** ** Texts of characters *)
Lemma reads_chars {N : Num} (K : host N) cs ts us u : Forall (fun t => exists c k, t = TChar c k) cs ->
  forall s s1, foldM (tok_step K) cs s = Ok s1 -> reads K s1 ts us u -> reads K s (cs ++ ts) (cs ++ us) u.
Proof.
  induction 1 as [|t cs (c & k & ->) F IH]; intros s s1 H R; cbn [foldM] in H.
  - now injection H as ->.
  - apply bind_Ok in H as (s2 & TS & H). cbn [app]. eapply rd_token; [exact Logic.I|exact TS|]. now apply (IH s2 s1).
Qed.
