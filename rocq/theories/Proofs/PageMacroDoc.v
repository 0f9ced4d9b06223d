(** A document: definitions, then a text with calls. *)
From Coq Require Import List Ascii String ZArith Bool Arith Lia.
From Verif.Base Require Import Result Num.
From Verif.Model Require Import Unicode Token Lexer Macro Dimen DimenParser Glue Box
  ListBuilders LineBreaks MathList MathParser MathTypeset MathFrontend PageEditor Preprocessor.
From Verif.Spec Require Import LexerSpec MacroSpec PageEditorSpec PageTextSpec RichTextSpec PageMacroSpec.
From Verif.Proofs Require Import LexerProofs MacroProofs MacroExpand MacroMore
  PageStream PageMachine PageRun PageFrame PageFindings PageDeliver PageQuiet PageText PageOther PageMacro PageRich.
Import ListNotations.
Local Open Scope nat_scope.

(** ** The definitions, added below *)
Definition add_macros (ms : list macro) (sc : scope) : scope :=
  mkScope (sc_id sc)
    (match sc_macros sc with [] => [] | t => fold_left (fun t m => table_set (m_cs m) m t) ms t end).
Definition with_macros (ms : list macro) (p : pstate) : pstate := set_defs p (map (add_macros ms) (p_defs p)).

Lemma with_begin ms p : with_macros ms (beginGroup p) = beginGroup (with_macros ms p). Proof. reflexivity. Qed.
Lemma with_end ms p : endGroup (with_macros ms p) = rmap (with_macros ms) (endGroup p).
Proof. unfold endGroup, with_macros. cbn. destruct (p_defs p); reflexivity. Qed.

Lemma table_set_keeps n m t k : table_find k (table_set n m t) = None -> table_find k t = None.
Proof.
  induction t as [|[a x] t IH]; intros H; [reflexivity|]. cbn [table_set] in H. cbn [table_find].
  destruct (name_eqb n a) eqn:E; [cbn [table_find] in H; destruct (name_eqb k a); [discriminate|exact H]|].
  destruct (name_ltb n a); cbn [table_find] in H; [destruct (name_eqb k n); [discriminate|exact H]|].
  destruct (name_eqb k a); [discriminate|]. now apply IH.
Qed.
Lemma fold_set_keeps ms k : forall t, table_find k (fold_left (fun t m => table_set (m_cs m) m t) ms t) = None -> table_find k t = None.
Proof. induction ms as [|m ms IH]; intros t H; [exact H|]. cbn in H. apply IH in H. now apply table_set_keeps in H. Qed.
Lemma table_set_nonempty n m t : table_set n m t <> [].
Proof. destruct t as [|[a x] t]; cbn; [discriminate|]. destruct (name_eqb n a), (name_ltb n a); discriminate. Qed.

Lemma defines_with ms : forall p p' sc, p_defs p = [sc] -> sc_macros sc <> [] -> foldM define ms p = Ok p' ->
  p' = with_macros ms p.
Proof.
  induction ms as [|m ms IH]; intros p p' sc D NE H.
  - cbn in H. injection H as <-. unfold with_macros. rewrite D. cbn. unfold add_macros. cbn.
    destruct p as [a b c d e g], sc as [i t]; cbn in *. subst. destruct t; [congruence|reflexivity].
  - cbn in H. unfold define at 1 in H. rewrite D in H. cbn [bind] in H.
    apply (IH _ p' (mkScope (sc_id sc) (table_set (m_cs m) m (sc_macros sc)))) in H; [|reflexivity|apply table_set_nonempty]. rewrite H.
    unfold with_macros. rewrite D. cbn [p_defs set_defs map]. unfold add_macros. cbn [sc_macros sc_id].
    destruct (sc_macros sc) as [|x t] eqn:E2; [congruence|]. cbn [fold_left].
    destruct (table_set (m_cs m) m (x :: t)) eqn:E; [now destruct (table_set_nonempty _ _ _ E)|]. reflexivity.
Qed.

(** one scope below, the others empty *)
Definition one_scope (sc : scope) (d : list scope) : Prop := exists es, d = es ++ [sc] /\ Forall (fun x => sc_macros x = []) es.
Lemma find_scopes sc d n : one_scope sc d -> find_ptr n d = find_ptr n [sc].
Proof.
  intros (es & -> & F). induction F as [|x es E F IH]; [reflexivity|]. cbn [app find_ptr]. now rewrite E.
Qed.
Lemma scopes_with ms sc d : one_scope sc d -> one_scope (add_macros ms sc) (map (add_macros ms) d).
Proof.
  intros (es & -> & F). exists (map (add_macros ms) es). split; [now rewrite map_app|].
  induction F as [|x es E F IH]; cbn; constructor; [|exact IH]. unfold add_macros. now rewrite E.
Qed.
Lemma find_with ms sc p q n : one_scope sc (p_defs p) -> p_defs q = [sc] ->
  find (with_macros ms p) n = find (with_macros ms q) n.
Proof.
  intros O D. unfold find, with_macros. cbn [p_defs set_defs]. rewrite D. now rewrite (find_scopes _ _ n (scopes_with ms sc _ O)).
Qed.
Lemma find_without ms sc p n : one_scope sc (p_defs p) -> find (with_macros ms p) n = None -> find p n = None.
Proof.
  intros O. unfold find, with_macros. cbn [p_defs set_defs].
  rewrite (find_scopes _ _ n (scopes_with ms sc _ O)), (find_scopes _ _ n O). cbn [find_ptr]. unfold add_macros.
  destruct (sc_macros sc) eqn:E; [reflexivity|]. rewrite <- E. cbn [sc_macros].
  destruct (table_find n (fold_left _ ms _)) eqn:X; [discriminate|]. now apply fold_set_keeps in X as ->.
Qed.
Lemma expands_same p q : (forall n, find p n = find q n) -> p_br p = p_br q -> forall c r, expands p c r -> expands q c r.
Proof.
  intros F B. induction 1 as [n m ts args r NP FI C L I|l|a X|a b X X'|a ts r E IH].
  - eapply exp_macro; eauto. now rewrite <- F.
  - constructor.
  - rewrite B. now constructor.
  - rewrite B. now constructor.
  - now constructor.
Qed.

Section Document.
  Context {N : Num}.
  Variable K : host N.
  Notation machine := (machine N).
  Variable ms : list macro.
  Notation plus := (chp (with_macros ms)).

  Lemma plus_step s t : clean s -> idle (ms_pre s) -> unexpandable (with_macros ms (ms_pre s)) t -> unexpandable (ms_pre s) t ->
    tok_step K (plus s) t = rmap plus (tok_step K s t).
  Proof.
    intros (C1 & C2 & C3) I U U'. unfold tok_step, pwrite. change (ms_pre (plus s)) with (with_macros ms (ms_pre s)).
    change (p_input (with_macros ms (ms_pre s))) with (p_input (ms_pre s)). rewrite C1.
    rewrite !process_unexpandable; try assumption. cbn [bind].
    change (set_pre (plus s) (set_output (with_macros ms (ms_pre s)) [t])) with (plus (set_pre s (set_output (ms_pre s) [t]))).
    rewrite sendToken_chp by reflexivity.
    destruct (sendToken K (set_pre s (set_output (ms_pre s) [t]))) as [u| | | |]; try reflexivity. cbn [rmap bind].
    change (digest_fuel (plus u)) with (digest_fuel u). apply digest_chp; [reflexivity|apply with_end].
  Qed.

  Lemma mem_gone s t s' : steady s -> unexpandable (ms_pre s) t -> tok_step K s t = Ok s' -> ms_mem s = [] -> ms_mem s' = [].
  Proof.
    intros ST U TS E. destruct (step_unexpandable K s t s' ST U TS) as (_ & _ & s1 & _ & _ & G & _ & (_ & SB)).
    rewrite E in SB. destruct (ms_mem s1) eqn:M1; [|discriminate]. destruct G as [[Q _]|m r A _ _|m r A _ _]; congruence.
  Qed.

  Definition based (sc : scope) (s : machine) : Prop := steady s /\ one_scope sc (p_defs (ms_pre s)).
  (** either the scope below is still there, or there is none *)
  Lemma step_based sc s t s' : based sc s -> unexpandable (ms_pre s) t -> tok_step K s t = Ok s' ->
    p_br (ms_pre s') = p_br (ms_pre s) /\ (based sc s' \/ (steady s' /\ p_defs (ms_pre s') = [] /\ ms_mem s' = [])).
  Proof.
    intros (ST & es & D & F) U TS. destruct (step_unexpandable K s t s' ST U TS) as (ST' & B & s1 & _ & _ & G & P1 & _).
    split; [exact B|]. rewrite <- P1 in D. destruct G as [[_ Q]|m r _ _ E|m r _ _ E].
    - left. split; [exact ST'|]. exists es. rewrite Q. auto.
    - left. split; [exact ST'|]. exists (mkScope (p_next (ms_pre s1)) [] :: es). rewrite E. cbn. rewrite D. split; [reflexivity|].
      constructor; [reflexivity|exact F].
    - unfold endGroup in E. rewrite D in E. destruct es as [|x es]; cbn [app] in E; injection E as E.
      + right. pose proof ST' as (_ & _ & _ & _ & _ & LE). rewrite <- E in LE |- *. cbn in LE.
        split; [exact ST'|]. split; [reflexivity|]. now destruct (ms_mem s').
      + left. split; [exact ST'|]. exists es. rewrite <- E. split; [reflexivity|]. now inversion F.
  Qed.

  (** tokens nothing expands even with the definitions *)
  Lemma unexpandable_same p q t : (forall n, find p n = find q n) -> unexpandable p t -> unexpandable q t.
  Proof. intros F. destruct t as [c k|n|z]; cbn; try tauto. now rewrite F. Qed.
  Lemma unexpandable_without sc p t : one_scope sc (p_defs p) -> unexpandable (with_macros ms p) t -> unexpandable p t.
  Proof. intros O. destruct t as [c k|n|z]; cbn; try tauto. intros (NP & F). split; [exact NP|]. now apply (find_without ms sc). Qed.

  Lemma none_below q ts us : stands_for q ts us -> Forall (unexpandable q) us.
  Proof. induction 1; auto. Qed.

  Lemma gone sc q : forall us s u, steady s -> ms_mem s = [] -> p_defs (ms_pre s) = [] -> p_defs q = [sc] ->
    Forall (unexpandable (with_macros ms q)) us -> foldM (tok_step K) us s = Ok u -> ms_mem u = [].
  Proof.
    induction us as [|t us IH]; intros s u ST M D Q F H; [cbn in H; injection H as <-; exact M|].
    cbn in H. apply bind_Ok in H as (s1 & TS & H). inversion F as [|? ? U F']; subst.
    assert (U' : unexpandable (ms_pre s) t).
    { destruct t as [c k|n|z]; [exact Logic.I| |exact U]. destruct U as (NP & _). split; [exact NP|]. unfold find. now rewrite D. }
    destruct (step_unexpandable K s t s1 ST U' TS) as (ST1 & _ & _).
    pose proof (mem_gone s t s1 ST U' TS M) as M1.
    apply (IH s1 u ST1 M1); try assumption. destruct ST1 as (_ & _ & _ & _ & _ & LE). rewrite M1 in LE. now destruct (p_defs (ms_pre s1)).
  Qed.

  Lemma stands_digests sc q ts us : p_defs q = [sc] -> stands_for (with_macros ms q) ts us ->
    forall s u, based sc s -> p_br (ms_pre s) = p_br q -> foldM (tok_step K) us s = Ok u -> ms_mem u <> [] ->
    digests K (plus s) ts (plus u).
  Proof.
    intros Q. induction 1 as [|t ts us U SF IH|c r ts us E SF IH]; intros s u B BR H NE.
    - cbn in H. injection H as <-. constructor.
    - cbn in H. apply bind_Ok in H as (s1 & TS & H). pose proof B as (ST & O).
      assert (U1 : unexpandable (with_macros ms (ms_pre s)) t)
        by (apply (unexpandable_same (with_macros ms q)); [intros n; symmetry; now apply (find_with ms sc)|exact U]).
      pose proof (unexpandable_without sc _ t O U1) as U2.
      destruct (step_based sc s t s1 B U2 TS) as (BR1 & [B1|(ST1 & D1 & M1)]).
      + eapply dg_token; [exact U1| |apply IH; [exact B1|congruence|exact H|exact NE]].
        destruct ST as (_ & _ & C & I & _). rewrite plus_step by assumption. now rewrite TS.
      + destruct NE. apply (gone sc q us s1 u); try assumption. exact (none_below _ _ _ SF).
    - pose proof B as (ST & O). eapply dg_call; [|apply IH; eassumption].
      apply (expands_same (with_macros ms q)); [intros n; symmetry; now apply (find_with ms sc)|symmetry; exact BR|exact E].
  Qed.

  Lemma page_plus u : page_of K (plus u) = page_of K u.
  Proof.
    unfold page_of. rewrite finish_modes_chp. change (ms_modes (plus u)) with (ms_modes u).
    destruct (finish_modes K (List.length (ms_modes u) - 1) u); reflexivity.
  Qed.
End Document.

(** ** The tokens of a settled text *)
Lemma settled_feed text ts : settled_text DefaultCatCodes text ts ->
  (exists l, feed DefaultCatCodes lexer_init text = (l, None) /\ l_out l = ts) /\ ends_quietly lexer_init text.
Proof.
  intros (a & c & e & e' & -> & LA & LX & E1 & E2).
  destruct (feed DefaultCatCodes lexer_init (a ++ [c])) as [l x] eqn:F.
  assert (BT : between_tokens lexer_init NewLine) by reflexivity.
  destruct (lexer_tokenizes_lemma _ _ _ _ _ _ BT F) as (ts' & O & H). apply H in LX as (-> & EE). cbn [lexer_init l_out app] in O.
  destruct x as [[|]|]; cbn in EE; try congruence. split; [exists l; auto|].
  intros a1 c1 l1 EQ F1. apply app_inj_tail in EQ as (<- & <-). change (mkLexer _ _ _) with lexer_init in F1.
  destruct (lexer_tokenizes_lemma _ _ _ _ _ _ BT F1) as (ts1 & O1 & H1). apply H1 in LA as (-> & _). cbn [lexer_init l_out app] in O1.
  rewrite feed_app in F. change (mkLexer (l_state lexer_init) (l_buf lexer_init) []) with lexer_init in F1. rewrite F1 in F. cbn [feed] in F.
  destruct (write DefaultCatCodes l1 c) as [l2 [x|]]; [discriminate|]. injection F as ->. cbn [fst]. congruence.
Qed.

Lemma new_steady {N : Num} (K : host N) f h s : machine_new K f h = Ok s ->
  steady s /\ ms_lex s = lexer_init /\ exists sc, p_defs (ms_pre s) = [sc] /\ sc_macros sc <> [].
Proof.
  unfold machine_new. intros E.
  assert (X : (do macros <- format_parse pageeditor_format; foldM define macros pinit)
              = match Kdefs with Some p => Ok p | None => UB end) by (vm_compute; reflexivity).
  destruct (format_parse pageeditor_format) as [macros| | | |]; try discriminate. cbn [bind] in X, E. rewrite X in E.
  cbn [bind Kdefs] in E. injection E as <-. split; [|split; [reflexivity|eexists; split; [reflexivity|discriminate]]].
  split; [exact Logic.I|]. split; [reflexivity|]. split; [repeat split|]. split; [eexists; reflexivity|]. split; [|reflexivity].
  unfold ids_ok. cbn. split; repeat constructor; auto.
Qed.

Lemma new_pre {N : Num} (K : host N) f h s : machine_new K f h = Ok s -> Kdefs = Some (ms_pre s).
Proof.
  unfold machine_new. intros E.
  assert (X : (do macros <- format_parse pageeditor_format; foldM define macros pinit)
              = match Kdefs with Some p => Ok p | None => UB end) by (vm_compute; reflexivity).
  destruct (format_parse pageeditor_format) as [macros| | | |]; try discriminate. cbn [bind] in X, E. rewrite X in E.
  cbn [bind Kdefs] in E. injection E as <-. reflexivity.
Qed.

Lemma preamble_digests {N : Num} (K : host N) ms ts u : forall s p, Forall well_formed ms -> foldM define ms (ms_pre s) = Ok p ->
  digests K (set_pre s p) ts u -> digests K s (flat_map def_text ms ++ ts) u.
Proof.
  induction ms as [|m ms IH]; intros s p W D G; cbn in D.
  - injection D as <-. cbn. now rewrite set_pre_id in G.
  - apply bind_Ok in D as (q & D1 & D). inversion W; subst. cbn [flat_map]. rewrite <- app_assoc.
    eapply dg_def; [eassumption|exact D1|]. now apply (IH (set_pre s q) p).
Qed.

Lemma typeset_settled {N : Num} (K : host N) f h s text ts u : machine_new K f h = Ok s ->
  settled_text DefaultCatCodes text ts -> digests K s ts u ->
  exists k, forall n, k <= n -> typeset K n s text = page_of_tokens K [] u.
Proof.
  intros NW SE D. destruct (new_steady K f h s NW) as (ST & L & _). destruct (settled_feed _ _ SE) as (F & Q).
  rewrite <- L in F, Q. apply (typeset_digests K s text ts u ST); try assumption. now rewrite L.
Qed.

Lemma document_digests {N : Num} (K : host N) f h s ms p ts us u : machine_new K f h = Ok s ->
  Forall well_formed ms -> foldM define ms (ms_pre s) = Ok p -> stands_for p ts us ->
  foldM (tok_step K) us s = Ok u -> ms_mem u <> [] ->
  exists u', digests K s (flat_map def_text ms ++ ts) u' /\ page_of_tokens K [] u' = page_of_tokens K us s.
Proof.
  intros NW W D SF FO NE. destruct (new_steady K f h s NW) as (ST & L & sc & DE & NZ).
  exists (chp (with_macros ms) u). split.
  - apply (preamble_digests K ms ts _ s p W D). pose proof (defines_with ms _ _ sc DE NZ D) as ->.
    change (set_pre s (with_macros ms (ms_pre s))) with (chp (with_macros ms) s).
    apply (stands_digests K ms sc (ms_pre s) ts us DE SF); try assumption; [|reflexivity].
    split; [exact ST|]. exists []. rewrite DE. split; [reflexivity|constructor].
  - unfold page_of_tokens at 2. rewrite FO. cbn [bind]. apply (page_plus K ms u).
Qed.

Lemma typeset_document {N : Num} (K : host N) f h s ms p ts us u text : machine_new K f h = Ok s ->
  Forall well_formed ms -> foldM define ms (ms_pre s) = Ok p -> stands_for p ts us ->
  settled_text DefaultCatCodes text (flat_map def_text ms ++ ts) ->
  foldM (tok_step K) us s = Ok u -> ms_mem u <> [] ->
  exists k, forall n, k <= n -> typeset K n s text = page_of_tokens K us s.
Proof.
  intros NW W D SF SE FO NE. destruct (document_digests K f h s ms p ts us u NW W D SF FO NE) as (u' & DG & <-).
  now apply (typeset_settled K f h s text (flat_map def_text ms ++ ts) u').
Qed.

Lemma typeset_document_rich {N : Num} (K : host N) f h s ms p ts us b text : nonzero (n0 : N) = false -> machine_new K f h = Ok s ->
  Forall well_formed ms -> foldM define ms (ms_pre s) = Ok p -> stands_for p ts us ->
  settled_text DefaultCatCodes text (flat_map def_text ms ++ ts) ->
  rich K (new_env K f h) us (new_page K) b -> (Z.of_nat (List.length us) < size_mod)%Z ->
  exists k, forall n, k <= n -> typeset K n s text = Ok (vbox (vb_result b)).
Proof.
  intros Z0 NW W D SF SE R LE. destruct (new_rich K f h s NW) as (A & L).
  destruct (rich_run K Z0 _ _ _ _ R LE s A) as (_ & <- & u & FO & NE).
  now apply (typeset_document K f h s ms p ts us u text).
Qed.
