(** Why the page editor crashes: the machine. *)
From Coq Require Import List Ascii String ZArith QArith Qcanon Bool Arith Lia.
From Verif.Base Require Import Result Num.
From Verif.Model Require Import Unicode Token Lexer Macro Dimen DimenParser Glue Box
  ListBuilders LineBreaks MathList MathParser MathTypeset MathFrontend PageEditor Preprocessor.
From Verif.Spec Require Import MacroSpec MathSpec EquationOkSpec LineBreakSpec PageEditorSpec EscapeSpec CrashSpec.
From Verif.Proofs Require Import LexerProofs MacroExpand MacroSafe MathParserSafe EquationProofs EquationOk LineBreakMore PageMachine PageText PageRun PageCrash.
From Verif.Proofs Require PageEnds TypesetNoThrow TypesetFails.
From Verif.Spec Require TypesetSpec TypesetOkSpec EquationSpec.
From Verif.Proofs Require MathProofs.
From Verif.Proofs Require TypesetOk LineBreakSafe.
Import ListNotations.
Local Open Scope nat_scope.

(** * the preprocessor *)
Lemma word_idle s c s' : processControlSeq s c = Ok s' -> p_output s' <> p_output s -> p_frames s' = p_frames s.
Proof.
  unfold processControlSeq. intros H NE.
  repeat match type of H with
  | (if ?b then _ else _) = _ => destruct b; [injection H as <-; now elim NE|]
  end.
  destruct (find_ptr c (p_defs s)) as [[id m]|].
  - destruct (m_param m); apply bind_Ok in H as (x & _ & H); injection H as <-; now elim NE.
  - injection H as <-. reflexivity.
Qed.
Lemma process_idle s t s' : frames_ok (p_defs s) (p_frames s) -> process s t = Ok s' -> p_output s' <> p_output s -> p_frames s' = [FIdle].
Proof.
  unfold process. intros FO H NE. destruct FO as [FO|(f & r & FO & FR & cs & _ & B)]; rewrite FO in H.
  - destruct t as [c k|n|z]; try discriminate H.
    + injection H as <-. exact FO.
    + rewrite (word_idle _ _ _ H NE). exact FO.
  - destruct f; try (destruct FR; fail).
    + exfalso; apply NE. unfold readMacro in H. destruct s0.
      * destruct t; try discriminate. now injection H as <-.
      * destruct (is_value t "{"%char); [now injection H as <-|].
        destruct t; try now injection H as <-.
        destruct (negb _); [discriminate|]. now injection H as <-.
      * destruct (is_value t "{"%char); [now injection H as <-|].
        destruct (is_value t "}"%char); [|now injection H as <-].
        destruct (rm_nesting d =? 0)%Z; [|now injection H as <-].
        apply bind_Ok in H as (s1 & D & H). apply define_output in D. apply leave_output in H. congruence.
    + exfalso; apply NE. unfold expandMacro in H. apply bind_Ok in H as (m & _ & H). apply bind_Ok in H as ([sub' d'] & _ & H).
      destruct (_ =? _)%nat; [|now injection H as <-].
      apply bind_Ok in H as (e & _ & H). now apply leave_output in H.
    + exfalso; apply NE. unfold branch in H.
      destruct (is_if t); [now injection H as <-|].
      destruct (is_else t). { destruct (_ =? _)%nat; now injection H as <-. }
      destruct (is_fi t); [|now injection H as <-].
      destruct (_ =? _)%nat; [|now injection H as <-]. now apply leave_output in H.
    + exfalso; apply NE. unfold formCs in H. destruct t; try discriminate; [now injection H as <-|].
      destruct (name_eqb _ _); [|discriminate]. now apply leave_output in H.
    + exfalso; apply NE. destruct t; try discriminate. now injection H as <-.
    + destruct t as [c k|n|z]; try discriminate H. unfold expandafter_expanding in H.
      apply bind_Ok in H as (s1 & P & H).
      assert (O : p_output s1 <> p_output s).
      { destruct (_ =? _)%nat; [apply leave_output in H; cbn in H; congruence|injection H as ->; exact NE]. }
      pose proof (word_idle (set_top s (FAfterInserting cs0)) n s1 P O) as F1. cbn in F1. rewrite FO in F1. cbn [tl] in F1.
      rewrite F1, FO in H. cbn [List.length] in H. rewrite Nat.eqb_refl in H.
      unfold leave in H. cbn in H. rewrite F1, B in H. cbn [leave_frames] in H. rewrite leave_frames_ok in H. cbn in H. injection H as <-. reflexivity.
Qed.
Lemma switch_tok_ok l c k l' : write_switch l c k = (l', None) -> Forall tok_ok (l_out l) -> Forall tok_ok (l_out l').
Proof.
  intros H F. assert (P : forall t, tok_ok t -> Forall tok_ok (l_out l ++ [t])) by (intros t T; apply Forall_app; auto).
  unfold write_switch in H. destruct k; try discriminate H; try (injection H as <-; first [exact F | apply P; exact Logic.I]).
  - injection H as <-. destruct (l_state l); try exact F; apply P; exact Logic.I.
  - destruct (l_state l); injection H as <-; try exact F; apply P; exact Logic.I.
Qed.
Lemma lexer_tok_ok ct l c l' : write ct l c = (l', None) -> Forall tok_ok (l_out l) -> Forall tok_ok (l_out l').
Proof.
  intros H F. assert (P : forall t, tok_ok t -> Forall tok_ok (l_out l ++ [t])) by (intros t T; apply Forall_app; auto).
  unfold write in H. destruct (l_state l); try exact (switch_tok_ok _ _ _ _ H F).
  - unfold parseCS in H. destruct (cat_eqb (ct c) EndOfLine).
    + destruct (l_buf l); injection H as <-; apply P; exact Logic.I.
    + destruct (negb _); [|injection H as <-; exact F]. destruct (l_buf l).
      * injection H as <-. apply P; exact Logic.I.
      * refine (switch_tok_ok _ _ _ _ H _). apply P; exact Logic.I.
  - unfold parseP in H. destruct (cat_eqb (ct c) ParamChar); [injection H as <-; apply P; exact Logic.I|].
    unfold produceParamToken in H. destruct ((49 <=? char_code c) && (char_code c <=? 57))%Z eqn:D; [|discriminate H].
    injection H as <-. cbn. apply P. cbn. apply andb_prop in D as [_ D]. apply Z.leb_le in D. lia.
  - unfold parseCOM in H. injection H as <-. destruct (cat_eqb _ _); exact F.
Qed.
Definition settled (q : pstate) : Prop := inv q /\ ids_ok q.
Lemma settled_begin q : settled q -> p_frames q = [FIdle] -> settled (beginGroup q).
Proof.
  intros [(A & (D1 & D2 & D3) & F) I] FI. pose proof (apply_ids q OpBegin (beginGroup q) eq_refl I) as I'.
  split; [|exact I']. split; [exact A|]. split.
  - split; [discriminate|]. split; [exact (proj1 I')|]. cbn. constructor; [constructor|exact D3].
  - left. exact FI.
Qed.
Lemma settled_end q q' : settled q -> p_frames q = [FIdle] -> endGroup q = Ok q' -> p_defs q' <> [] -> settled q'.
Proof.
  intros [(A & (D1 & D2 & D3) & F) I] FI H NE. pose proof (apply_ids q OpEnd q' H I) as I'.
  unfold endGroup in H. destruct (p_defs q) as [|sc d] eqn:E; [discriminate H|]. injection H as <-.
  split; [|exact I']. split; [exact A|]. split.
  - split; [exact NE|]. split; [exact (proj1 I')|]. exact (Forall_inv_tail D3).
  - left. exact FI.
Qed.
Lemma settled_process q t : settled q -> tok_ok t ->
  out (process q t) (fun q' => settled q' /\ (p_output q' <> p_output q -> p_frames q' = [FIdle])) (isParameterToken t = true /\ in_csname q).
Proof.
  intros [V I] T. pose proof (process_good q t V T) as G. apply out_cases.
  - intros q' H. destruct G as [G|(G & _)]; [|congruence]. rewrite H in G. split; [split; [exact G|]|].
    + apply process_defs, defs_step_ids in H as (A & B & _). unfold ids_ok. rewrite A, B. exact I.
    + apply (process_idle q t q' (proj2 (proj2 V)) H).
  - intros X. destruct G as [G|(_ & G)]; [|exact G]. exfalso. destruct X as [X|X]; rewrite X in G; exact G.
Qed.
(** no definitions are left *)
Definition plain_frame (f : frame) : Prop := match f with FExpanding _ _ | FIdle | FAfterInserting _ => False | _ => True end.
Definition inserts (l : list frame) : Prop := exists cs, l = map FAfterInserting cs ++ [FIdle].
Definition bare (q : pstate) : Prop :=
  p_defs q = [] /\ (p_frames q = [FIdle] \/ exists f r, p_frames q = f :: r /\ plain_frame f /\ inserts r).
Lemma bare_leave q f r : p_defs q = [] -> p_frames q = f :: r -> inserts r -> exists q', leave q = Ok q' /\ bare q'.
Proof.
  intros E F (cs & ->). unfold leave. rewrite F, leave_frames_ok. cbn [bind]. eexists. split; [reflexivity|].
  split; [exact E|left; reflexivity].
Qed.
Lemma bare_word q n : p_defs q = [] -> exists q', processControlSeq q n = Ok q' /\ p_defs q' = [] /\
  (p_frames q' = p_frames q \/ exists f, plain_frame f /\ p_frames q' = f :: p_frames q).
Proof.
  intros E. unfold processControlSeq.
  repeat match goal with |- context [if ?b then _ else _] => destruct b; [eexists; split; [reflexivity|]; split; [exact E|right; eexists; split; [|reflexivity]; exact Logic.I]|] end.
  rewrite E. cbn [find_ptr]. eexists. split; [reflexivity|]. split; [exact E|left; reflexivity].
Qed.
Lemma bare_process q t : bare q -> out (process q t) bare (isParameterToken t = true /\ in_csname q \/ defines q t).
Proof.
  intros [E [F|(f & r & F & PF & B)]]; unfold process; rewrite F.
  - destruct t as [c k|n|z]; [split; [exact E|left; exact F]| |exact Logic.I].
    destruct (bare_word q n E) as (q' & -> & E' & H). split; [exact E'|]. rewrite F in H.
    destruct H as [H|(f & PF & H)]; [left; exact H|right]. exists f, [FIdle]. split; [exact H|]. split; [exact PF|]. exists []. reflexivity.
  - assert (TOP : forall f, plain_frame f -> bare (set_top q f)).
    { intros f' P. split; [exact E|]. right. exists f', r. unfold set_top. cbn. rewrite F. auto. }
    assert (LEAVE : forall q', p_defs q' = p_defs q -> p_frames q' = p_frames q -> out (leave q') bare (isParameterToken t = true /\ in_csname q \/ defines q t)).
    { intros q' D' F'. rewrite E in D'. rewrite F in F'. destruct (bare_leave q' f r D' F' B) as (x & -> & X). exact X. }
    destruct f as [|sub d|sub d|d|n| |c|c]; try destruct PF.
    + unfold readMacro. destruct sub.
      * destruct t; try exact Logic.I. apply TOP. exact Logic.I.
      * destruct (is_value t "{"%char); [apply TOP; exact Logic.I|]. destruct t as [? ?|?|z]; try (apply TOP; exact Logic.I).
        destruct (negb _); [exact Logic.I|]. apply TOP. exact Logic.I.
      * destruct (is_value t "{"%char); [apply TOP; exact Logic.I|]. destruct (is_value t "}"%char) eqn:V; [|apply TOP; exact Logic.I].
        destruct (Z.eqb_spec (rm_nesting d) 0) as [Z0|_]; [|apply TOP; exact Logic.I].
        unfold define. rewrite E. right. destruct t as [c k|?|?]; try discriminate V. apply Ascii.eqb_eq in V. exists d, r, c, k. auto.
    + unfold branch. destruct (is_if t); [apply TOP; exact Logic.I|]. destruct (is_else t).
      { destruct (Nat.eqb _ _); apply TOP; exact Logic.I. }
      destruct (is_fi t); [|apply TOP; exact Logic.I]. destruct (Nat.eqb _ _); [|apply TOP; exact Logic.I]. apply LEAVE; reflexivity.
    + unfold formCs. destruct t as [c k|m|z].
      * apply TOP. exact Logic.I.
      * destruct (name_eqb _ _); [apply LEAVE; reflexivity|exact Logic.I].
      * left. split; [reflexivity|]. exists n, r. exact F.
    + destruct t; try exact Logic.I. apply TOP. exact Logic.I.
    + destruct t as [? ?|n|?]; try exact Logic.I. unfold expandafter_expanding.
      destruct (bare_word (set_top q (FAfterInserting c)) n E) as (q' & -> & E' & H). cbn [bind].
      unfold set_top in H. cbn in H. rewrite F in *. cbn [tl List.length] in *.
      assert (B' : inserts (FAfterInserting c :: r)). { destruct B as [cs ->]. exists (c :: cs). reflexivity. }
      destruct H as [H|(f & PF & H)]; rewrite H; cbn [List.length].
      * rewrite Nat.eqb_refl. destruct (bare_leave (enter q' FIdle) FIdle (FAfterInserting c :: r)) as (x & -> & X); [exact E'|cbn; rewrite H; reflexivity|exact B'|exact X].
      * destruct (Nat.eqb_spec (Datatypes.S (Datatypes.S (List.length r))) (Datatypes.S (List.length r))) as [X|_]; [lia|].
        split; [exact E'|]. right. exists f, (FAfterInserting c :: r). auto.
Qed.
Lemma defines_crash q t : p_defs q = [] -> defines q t -> process q t = UB.
Proof.
  intros E (d & r & c & k & F & Z0 & -> & ->). unfold process. rewrite F. cbn [readMacro is_value]. cbn. rewrite Z0. cbn. unfold define. rewrite E. reflexivity.
Qed.

Section Run.
  Context {N : Num}.
  Variable K : host N.
  Notation machine := (machine N).
  Notation mode := (mode N).

  (** * assignments *)
  Definition as_ok (a : astate N) : Prop :=
    match a with AParshape _ p => pp_st p = PLength -> pp_pending p <> None | _ => True end.
  Lemma eval_out (d : dparser) us (C : Prop) : (no_unit K d -> C) ->
    out (do dim <- dp_finish (N := N) (k_range K) d; d_eval dim us) (fun _ => True) C.
  Proof.
    intros H. apply out_any; [apply dp_finish_calm|]. intros x E. destruct (d_isFinite x) eqn:F.
    - destruct (d_eval_finite x us F) as [v ->]. exact Logic.I.
    - apply out_cases; [auto|]. intros _. apply H. apply no_unit_iff. eauto.
  Qed.
  Lemma eval_out_k {B} (d : dparser) us (f : N -> result B) Q (C : Prop) : (no_unit K d -> C) ->
    (forall v, out (f v) Q C) ->
    out (do dim <- dp_finish (N := N) (k_range K) d; do v <- d_eval dim us; f v) Q C.
  Proof.
    intros H G. apply out_any; [apply dp_finish_calm|]. intros x E. destruct (d_isFinite x) eqn:F.
    - destruct (d_eval_finite x us F) as [v ->]. apply G.
    - rewrite (d_eval_infinite x us F). apply H. apply no_unit_iff. eauto.
  Qed.
  Lemma pp_write_out us p c k (C : Prop) : as_ok (AParshape us p) ->
    (send_cause K (AParshape us p) [] (TChar c k) -> C) ->
    out (pp_write (k_range K) us p c) (fun p' => as_ok (AParshape us p')) C.
  Proof.
    intros A H. cbn in A. unfold pp_write. destruct (pp_st p) eqn:ST.
    - destruct (ceq c "="%char); [cbn; discriminate|]. destruct (is_digit c); [cbn; discriminate|exact Logic.I].
    - destruct (is_digit c) eqn:DG.
      + destruct (INT_MAX <? _)%Z eqn:L; [|cbn; discriminate]. apply H. apply Z.ltb_lt in L. eapply of_count; eauto.
      + destruct (ceq c " "%char); [|exact Logic.I]. cbn. destruct (pp_num p =? 0)%Z; discriminate.
    - apply out_any; [apply dp_write_calm|]. intros d W. destruct (dp_isFinished d) eqn:F; [|cbn; discriminate].
      apply eval_out_k; [|intros v; cbn; discriminate]. intros U. apply H. eapply of_shape; [reflexivity|constructor; eassumption|exact U|]. auto.
    - apply out_any; [apply dp_write_calm|]. intros d W. destruct (dp_isFinished d) eqn:F; [|cbn; intros _; exact (A eq_refl)].
      apply eval_out_k.
      + intros U. apply H. eapply of_shape; [reflexivity|constructor; eassumption|exact U|]. auto.
      + intros v. unfold pp_set_length. destruct (pp_pending p); [|destruct (A eq_refl eq_refl)]. cbn [bind].
        destruct (Z.eqb _ _); cbn; discriminate.
    - destruct (ceq c " "%char); [|exact Logic.I]. cbn. intros X. congruence.
  Qed.
  Lemma pp_finish_out us p n (C : Prop) : as_ok (AParshape us p) ->
    (send_cause K (AParshape us p) [] (TCs n) -> C) -> out (pp_finish (k_range K) us p) (fun _ => True) C.
  Proof.
    intros A H. cbn in A. unfold pp_finish. destruct (pp_st p) eqn:ST; try exact Logic.I.
    - destruct (Z.eqb _ _); exact Logic.I.
    - destruct (pp_num p =? pp_size p)%Z eqn:E; [|exact Logic.I]. apply Z.eqb_eq in E. apply eval_out_k.
      + intros U. apply H. eapply of_shape; [reflexivity|constructor|exact U|]. auto.
      + intros v. unfold pp_set_length. destruct (pp_pending p); [exact Logic.I|destruct (A eq_refl eq_refl)].
  Qed.
  Lemma send_any us p l t : send_cause K (AParshape us p) [] t -> send_cause K (AParshape us p) l t.
  Proof.
    intros H. inversion H as [us' p' c k E|us' p' t' d E|f c k f' E]; subst; try discriminate E.
    - eapply of_count; eauto.
    - eapply of_shape; eauto.
  Qed.
  Lemma change_mem_out (s : machine) f (C : Prop) : (ms_mem s = [] -> C) ->
    out (change_mem s f) (fun x => ms_as x = ms_as s /\ ms_mem x <> []) C.
  Proof. intros H. unfold change_mem. destruct (ms_mem s); [apply H; reflexivity|cbn; split; [reflexivity|discriminate]]. Qed.
  Lemma as_main_out (s : machine) t (C : Prop) : as_ok (ms_as s) -> (ms_mem s = [] -> send_needs K (ms_fonts s) AMain t -> C) ->
    out (as_main K s t) (fun x => as_ok (ms_as (fst x))) C.
  Proof.
    intros A H. unfold as_main. destruct t as [c k|n|z]; try exact A.
    destruct (cs_is n "parshape") eqn:PN.
    { apply cs_word in PN. eapply out_bind; [apply unit_out; intros Y; apply (H Y); rewrite PN; apply needs_shape|]. intros us _ _. cbn. discriminate. }
    destruct (cs_is n "font") eqn:FN; [exact Logic.I|]. destruct (find_font n (ms_fonts s)) as [f|] eqn:FF; [|exact A].
    eapply out_bind; [apply change_mem_out; intros Y; apply (H Y); apply (needs_font K _ n f); [intros ->; discriminate FN|exact FF]|]. intros x _ [X _]. cbn [out fst]. rewrite X. exact A.
  Qed.
  Lemma as_write_out (s : machine) t (C : Prop) : as_ok (ms_as s) -> no_param t -> (ms_mem s = [] -> send_needs K (ms_fonts s) (ms_as s) t -> C) ->
    (send_cause K (ms_as s) (ms_loads s) t -> C) -> out (as_write K s t) (fun x => as_ok (ms_as (fst x))) C.
  Proof.
    intros A T Hm H. unfold as_write. destruct (ms_as s) as [|us p|f] eqn:EA.
    - apply as_main_out; [rewrite EA; exact Logic.I|]. exact Hm.
    - unfold as_parshape. destruct t as [c k|n|z]; [| |discriminate T].
      + eapply out_bind; [apply (pp_write_out us p c k C A); intros X; apply H, send_any, X|].
        intros p' PW A'. cbn [isControlSequence orb]. rewrite orb_false_r. destruct (pp_st p') eqn:ST; try exact A'.
        unfold pp_finish. rewrite ST. cbn [bind].
        eapply out_bind; [apply change_mem_out; intros Y; apply (Hm Y); apply (needs_last K _ us p c k p'); assumption|]. intros x _ _. exact Logic.I.
      + cbn [bind isControlSequence]. rewrite orb_true_r.
        eapply out_bind; [apply (pp_finish_out us p n C A); intros X; apply H, send_any, X|].
        intros ps PF _. eapply out_bind; [apply change_mem_out; intros Y; apply (Hm Y); apply (needs_word K _ us p n ps PF)|]. intros x _ [_ X]. cbn [isControlSequence].
        apply as_main_out; [exact Logic.I|]. intros Y _. destruct (X Y).
    - unfold as_font. destruct t as [c k|n|z]; [| |discriminate T].
      + apply out_any; [unfold fp_write; destruct (fp_st f); try calm; destruct (Ascii.eqb _ _); calm|]. intros f' W.
        destruct (fp_isFinished f') eqn:F; [|exact Logic.I].
        eapply (out_bind _ _ (fun _ => True)).
        * apply out_cases; [auto|]. intros X. apply H. eapply of_font; eauto.
        * intros x _ _. exact Logic.I.
      + apply out_any; [unfold fp_write_cs; destruct (fp_st f); calm|]. intros f' W.
        assert (F : fp_isFinished f' = false). { unfold fp_write_cs in W. destruct (fp_st f); try discriminate W. injection W as <-. reflexivity. }
        rewrite F. exact Logic.I.
  Qed.

  (** * the machine *)
  Definition at_rest (u : machine) : Prop :=
    match ms_state u with
    | SendToken => p_output (ms_pre u) <> [] -> p_frames (ms_pre u) = [FIdle]
    | DigestToken => ms_tokens u <> [] -> p_frames (ms_pre u) = [FIdle]
    | _ => True
    end.
  Definition deep (u : machine) : Prop :=
    linked (ms_modes u) /\ as_ok (ms_as u) /\ Forall tok_ok (l_out (ms_lex u)) /\ st_pos (ms_in u) <= List.length (st_text (ms_in u)) /\
    (ms_mem u = [] /\ bare (ms_pre u) \/ settled (ms_pre u) /\ at_rest u).
  Lemma deep_steady u : invariant u -> deep u -> steady u.
  Proof. intros (A & B & C & D & _) (E & _). repeat split; assumption. Qed.
  Lemma step_out u : invariant u -> deep u -> out (m_advance K u) deep (cause K u \/ groups_gone K u).
  Proof.
    intros V W. pose proof (deep_steady u V W) as S. pose proof V as (M & F & LEN & NT & NO & ST).
    pose proof W as (LK & AS & TO & POS & PRE).
    unfold m_advance. destruct (ms_state u) eqn:ES.
    - exact W.
    - destruct (atEnd (ms_in u)) eqn:AE.
      + assert (L1 : List.length (ms_modes u) = Datatypes.S (List.length (ms_modes u) - 1)) by (destruct (ms_modes u); [destruct M|cbn; lia]).
        apply (out_bind _ _ (fun x => steady x /\ still u x /\ quiet u x)).
        * apply out_cases.
          -- intros x X. pose proof (finish_out K (List.length (ms_modes u) - 1) u True S L1 (fun _ _ _ _ => Logic.I) (fun _ _ _ => Logic.I)) as Y. rewrite X in Y.
             split; [exact Y|].
             apply finish_modes_spec in X as (X1 & X2 & _); auto.
          -- intros X. refine (out_crash _ _ _ (finish_out K _ u _ S L1 _ _) X); [intros s' FS M0 FN; right; unfold groups_gone; rewrite ES; eauto|].
             intros s' FS FC. left. unfold cause. rewrite ES. eauto.
        * intros x _ (X & Y & Z1 & Z2). destruct Y as (Y1 & Y2 & Y3 & _). cbn [out]. unfold deep, at_rest. cbn.
          destruct X as (_ & X & _). rewrite Z1, Z2, Y1, Y2, Y3. split; [exact X|]. split; [exact AS|]. split; [exact TO|]. split; [exact POS|].
          destruct PRE as [[PRE PB]|[PRE _]]; auto.
      + unfold read. unfold atEnd in AE. apply Nat.eqb_neq in AE.
        destruct (nth_error (st_text (ms_in u)) (st_pos (ms_in u))) as [c|] eqn:NE; [|apply nth_error_None in NE; lia].
        cbn [bind fst snd]. change (ms_lex (set_in u _)) with (ms_lex u).
        destruct (write DefaultCatCodes (ms_lex u) c) as [l [e|]] eqn:LW; [exact Logic.I|]. cbn [out].
        unfold deep, at_rest. cbn. split; [exact LK|]. split; [exact AS|]. split; [exact (lexer_tok_ok _ _ _ _ LW TO)|]. split; [lia|].
        destruct PRE as [PRE|[PRE _]]; [left; exact PRE|right]. split; [exact PRE|]. destruct (l_out l); exact Logic.I.
    - destruct (l_out (ms_lex u)) as [|t r] eqn:EL.
      + cbn [out]. unfold deep, at_rest. cbn. rewrite EL. split; [exact LK|]. split; [exact AS|]. split; [exact TO|]. split; [exact POS|].
        destruct PRE as [PRE|[PRE _]]; auto.
      + cbn [ms_pre set_lex]. destruct ST as (_ & PO & PI). unfold pwrite. rewrite PI.
        destruct PRE as [PRE|[PRE _]].
        * destruct PRE as [PRE PB]. apply out_bind with (P := bare).
          -- apply out_cases; [intros q H; pose proof (bare_process (ms_pre u) t PB) as X; rewrite H in X; exact X|].
             intros X. destruct (out_crash _ _ _ (bare_process (ms_pre u) t PB) X) as [[X1 X2]|X1].
             ++ left. unfold cause. rewrite ES. exists t, r. auto.
             ++ right. unfold groups_gone. rewrite ES. split; [exact PRE|]. exists t, r. auto.
          -- intros q _ Q. cbn [out]. unfold deep, at_rest. cbn.
             split; [exact LK|]. split; [exact AS|]. split; [exact (Forall_inv_tail TO)|]. split; [exact POS|]. left. split; assumption.
        * eapply out_bind.
          -- apply out_cases; [intros q H; pose proof (settled_process (ms_pre u) t PRE (Forall_inv TO)) as X; rewrite H in X; exact X|].
             intros X. destruct (out_crash _ _ _ (settled_process (ms_pre u) t PRE (Forall_inv TO)) X) as [X1 X2].
             left. unfold cause. rewrite ES. exists t, r. auto.
          -- intros q _ [Q1 Q2]. cbn [out]. unfold deep, at_rest. cbn.
             split; [exact LK|]. split; [exact AS|]. split; [exact (Forall_inv_tail TO)|]. split; [exact POS|]. right. split; [exact Q1|].
             intros X. apply Q2. rewrite PO. exact X.
    - destruct ST as (_ & PO). unfold Preprocessor.advance.
      destruct PRE as [PRE|[PRE _]].
      + destruct PRE as [PRE PB]. destruct (p_input (ms_pre u)) as [|t r] eqn:EI.
        * cbn [bind out]. unfold deep, at_rest. cbn. rewrite PO, EI.
          split; [exact LK|]. split; [exact AS|]. split; [exact TO|]. split; [exact POS|]. left. auto.
        * assert (PB' : bare (set_input (ms_pre u) r)) by exact PB.
          apply out_bind with (P := bare).
          -- apply out_cases; [intros q H; pose proof (bare_process _ t PB') as X; rewrite H in X; exact X|].
             intros X. destruct (out_crash _ _ _ (bare_process _ t PB') X) as [[X1 X2]|X1].
             ++ left. unfold cause. rewrite ES. exists t, r. auto.
             ++ right. unfold groups_gone. rewrite ES. split; [exact PRE|]. exists t, r. auto.
          -- intros q _ Q. cbn [out]. unfold deep, at_rest. cbn.
             split; [exact LK|]. split; [exact AS|]. split; [exact TO|]. split; [exact POS|]. left. split; assumption.
      + destruct (p_input (ms_pre u)) as [|t r] eqn:EI.
        * cbn [bind out]. unfold deep, at_rest. cbn. rewrite PO, EI.
          split; [exact LK|]. split; [exact AS|]. split; [exact TO|]. split; [exact POS|]. right. auto.
        * assert (PRE' : settled (set_input (ms_pre u) r)).
          { destruct PRE as [(A & B & C) D]. rewrite EI in A. split; [|exact D]. split; [exact (Forall_inv_tail A)|]. split; assumption. }
          assert (TT : tok_ok t). { destruct PRE as [(A & _) _]. rewrite EI in A. exact (Forall_inv A). }
          eapply out_bind.
          -- apply out_cases; [intros q H; pose proof (settled_process _ t PRE' TT) as X; rewrite H in X; exact X|].
             intros X. destruct (out_crash _ _ _ (settled_process _ t PRE' TT) X) as [X1 X2].
             left. unfold cause. rewrite ES. exists t, r. auto.
          -- intros q _ [Q1 Q2]. cbn [out]. unfold deep, at_rest. cbn.
             split; [exact LK|]. split; [exact AS|]. split; [exact TO|]. split; [exact POS|]. right. split; [exact Q1|].
             cbn in Q2. rewrite PO in Q2. destruct (p_output q); [destruct (p_input q); exact Logic.I|exact Q2].
    - destruct ST as (TK & PO). unfold sendToken. destruct (p_output (ms_pre u)) as [|t r] eqn:EO.
      + cbn [bind out]. unfold deep, at_rest. cbn. split; [exact LK|]. split; [exact AS|]. split; [exact TO|]. split; [exact POS|].
        destruct PRE as [PRE|[PRE _]]; [auto|right]. split; [exact PRE|]. rewrite TK. congruence.
      + eapply (out_bind _ _ (fun x => deep (set_mstate x DigestToken))); [|intros x _ X; exact X].
        eapply (out_bind _ _ (fun x => as_ok (ms_as (fst x)))).
        * apply as_write_out; [exact AS|exact (Forall_inv NO)| |].
          { intros Y Z. right. unfold groups_gone. rewrite ES. split; [exact Y|]. exists t, r. auto. }
          intros X. left. unfold cause. rewrite ES. exists t, r. auto.
        * intros [s1 o] E X. cbn [fst snd] in *. apply as_write_spec in E as ((U1 & U2 & U3 & U4 & U5 & U6 & U7) & B & _). cbn in *.
          unfold deep, at_rest. cbn. rewrite U1, U2, U3, U5. split; [exact LK|]. split; [exact X|]. split; [exact TO|]. split; [exact POS|].
          destruct PRE as [[PRE PB]|[PRE AR]].
          -- left. destruct B as [_ B]. rewrite PRE in B. split; [destruct (ms_mem s1); [reflexivity|discriminate B]|exact PB].
          -- right. split.
             ++ destruct PRE as [P1 P2]. split; assumption.
             ++ intros _. unfold at_rest in AR. rewrite ES, EO in AR. apply AR. discriminate.
    - destruct ST as (TK & PO).
      apply (out_bind _ _ (fun x => steady x /\ done u x)).
      + apply out_cases.
        * intros x X. pose proof (digest_out K (digest_fuel u) u True S (fun _ _ _ _ _ _ => Logic.I)) as Y. rewrite X in Y. split; [exact Y|].
          apply (digest_ok K); auto.
        * intros X. refine (out_crash _ _ _ (digest_out K _ u _ S _) X). intros s' t r DG E [D|D].
          -- left. unfold cause. rewrite ES. exists s', t, r. auto.
          -- right. unfold groups_gone. rewrite ES. exists s', t, r. auto.
      + intros x DX (X & (Y1 & Y2 & Y3 & _) & GR & _). cbn [out]. unfold deep, at_rest. cbn. rewrite Y1, Y2, Y3.
        destruct X as (_ & XL & _ & _ & XM). split; [exact XL|]. split; [exact AS|]. split; [exact TO|]. split; [exact POS|].
        destruct PRE as [[PRE PB]|[PRE AR]].
        * left. destruct GR as [[G G2]|m r G _ _|m r G _ _]; [rewrite G2; split; [congruence|exact PB]|rewrite PRE in G; discriminate G|rewrite PRE in G; discriminate G].
        * unfold at_rest in AR. rewrite ES in AR.
          assert (G : ms_mem x = [] /\ bare (ms_pre x) \/ settled (ms_pre x)).
          { destruct (ms_tokens u) as [|t r] eqn:ET.
            - assert (x = u).
              { unfold digest_fuel in DX. replace (3 * List.length (ms_modes u) + 6) with (Datatypes.S (3 * List.length (ms_modes u) + 5)) in DX by lia.
                cbn [digest] in DX. unfold digestToken in DX. rewrite ET in DX. cbn in DX. injection DX as <-. reflexivity. }
              subst x. auto.
            - specialize (AR ltac:(discriminate)). destruct GR as [[_ G]|m q _ _ G|m q G1 G2 G].
              + rewrite G. auto.
              + right. rewrite G. apply settled_begin; assumption.
              + destruct (ms_mem x) as [|m' q'] eqn:EM.
                * left. split; [reflexivity|]. split; [destruct (p_defs (ms_pre x)); [reflexivity|discriminate XM]|]. left.
                  unfold endGroup in G. destruct (p_defs (ms_pre u)); [discriminate G|]. assert (ms_pre x = set_defs (ms_pre u) l) as -> by congruence. exact AR.
                * right. apply (settled_end (ms_pre u)); auto. intros Z. rewrite Z in XM. discriminate XM. }
          destruct G as [G|G]; [auto|right]. split; [exact G|]. destruct (p_input (ms_pre x)); exact Logic.I.
  Qed.
  Lemma new_deep f h s : machine_new K f h = Ok s -> deep s.
  Proof.
    intros H. apply (PageEnds.shape_new K) in H as (me & b & ->). unfold deep, at_rest. cbn.
    split; [exact Logic.I|]. split; [exact Logic.I|]. split; [constructor|]. split; [lia|]. right. split; [|exact Logic.I].
    assert (D : NoDup (map sc_id PageEnds.format_defs) /\ PageEnds.format_defs <> [] /\ Forall (fun s => table_ok (sc_macros s)) PageEnds.format_defs /\
      Forall (fun i => i < 1) (map sc_id PageEnds.format_defs)).
    { vm_compute. repeat split; repeat constructor; try (intros X; exact X); try discriminate; try lia; auto. }
    destruct D as (D1 & D2 & D3 & D4). split; [|split; assumption]. split; [constructor|]. split; [split; [exact D2|split; [exact D1|exact D3]]|]. left. reflexivity.
  Qed.
  Lemma reached_deep u : PageEditorSpec.reached K u -> deep u.
  Proof.
    induction 1 as [f h s H|s text R IH ES|s s' R IH H].
    - exact (new_deep f h s H).
    - destruct IH as (A & B & C & _ & D). unfold deep, at_rest in *. rewrite ES in D. cbn.
      split; [exact A|]. split; [exact B|]. split; [exact C|]. split; [lia|exact D].
    - pose proof (step_out s (reached_invariant K s R) IH) as X. rewrite H in X. exact X.
  Qed.
  Theorem crash_causes u : PageEditorSpec.reached K u -> crashes (m_advance K u) -> cause K u \/ groups_gone K u.
  Proof. intros R. exact (out_crash _ _ _ (step_out u (reached_invariant K u R) (reached_deep u R))). Qed.

  (** * each cause is one *)
  Lemma crash_bind_l {A B} (r : result A) (f : A -> result B) : crashes r -> crashes (do x <- r; f x).
  Proof. apply crash_bind. Qed.
  Lemma finish_crash (s : machine) st buf p m0 r y : ms_modes s = m0 :: r -> cannot_show K y p ->
    (y = T /\ exists h r', r = MH h :: r') \/ (y = D /\ exists vs b, r = [MV vs b]) -> crashes (m_finish K s st buf p).
  Proof.
    intros E (p' & l & FP & O & C) H. unfold m_finish. rewrite FP. cbn [bind]. unfold m_output. rewrite E. cbn [tl].
    destruct H as [(-> & h & r' & ->)|(-> & vs & b & ->)]; rewrite O; cbn [bind]; apply crash_bind; exact C.
  Qed.
  Lemma lines_crash (s : machine) m m0 r me more b : ms_modes s = m0 :: r -> low r -> h_routine m = RVertical -> ms_mem s = me :: more ->
    page_of r b -> bad_lines K me b (hb_result (h_list m)) -> crashes (h_output K s m).
  Proof.
    intros E L R M P B. unfold h_output. rewrite R, E. cbn [tl]. unfold mem. rewrite M. cbn [bind]. apply crash_bind.
    destruct (bottom_page r L) as (b' & P' & CB). rewrite (page_unique r b b' P P') in B.
    apply (CB (fun b => add_paragraph K me b (hb_result (h_list m)))). apply bad_lines_iff. exact B.
  Qed.
  Lemma finish_cause_crash (s : machine) : steady s -> finish_cause K (ms_modes s) (ms_mem s) ->
    tl (ms_modes s) <> [] /\ crashes (mode_finish K s).
  Proof.
    intros (MO & LK & _) H. unfold mode_finish. inversion H as [st buf p h r E C|st buf p vs b E C|h r me more b E R M P B]; rewrite E.
    - split; [discriminate|]. apply (finish_crash s st buf p _ (MH h :: r) T E C). left. eauto.
    - split; [discriminate|]. apply (finish_crash s st buf p _ [MV vs b] D E C). right. eauto.
    - split; [destruct P as (? & [|? ?] & ->); discriminate|]. rewrite E in MO. exact (lines_crash s h _ r me more b E MO R M P B).
  Qed.
  Lemma finish_needs_crash (s : machine) : steady s -> ms_mem s = [] -> finish_needs K (ms_modes s) ->
    tl (ms_modes s) <> [] /\ crashes (mode_finish K s).
  Proof.
    intros (MO & _) M H. unfold mode_finish. inversion H as [h r R E|st buf p vs b (p' & l & x & FP & O & X) E]; rewrite <- E in *.
    - split; [destruct r; [destruct MO|discriminate]|]. unfold h_output, mem. rewrite R, M. left. reflexivity.
    - split; [discriminate|]. unfold m_finish. rewrite FP. cbn [bind]. unfold m_output. rewrite <- E. cbn [tl]. rewrite O. cbn [bind]. rewrite X.
      cbn [bind]. unfold mem. rewrite M. left. reflexivity.
  Qed.
  Lemma finishes_steady (s s' : machine) : finishes K s s' -> steady s -> steady s'.
  Proof.
    induction 1 as [s|s s1 s' TL EX F IH]; intros S; [exact S|]. apply IH.
    destruct (mode_finish_ok K s s1 TL (proj1 S) EX) as (LV & _).
    pose proof (mode_finish_out K s True S TL (fun _ _ => Logic.I) (fun _ => Logic.I)) as W. rewrite EX in W.
    pose proof (wrote_steady s1 W) as Y. unfold after in Y. rewrite LV in Y. exact Y.
  Qed.
  Lemma finishes_crash (s s' : machine) : finishes K s s' -> forall n, steady s -> List.length (ms_modes s) = Datatypes.S n ->
    tl (ms_modes s') <> [] /\ crashes (mode_finish K s') -> crashes (finish_modes K n s).
  Proof.
    induction 1 as [s|s s1 s' TL EX F IH]; intros n S LN C.
    - destruct C as [TL X]. destruct n; [destruct (ms_modes s) as [|? [|]]; try discriminate LN; destruct (TL eq_refl)|].
      cbn [finish_modes]. apply crash_bind. exact X.
    - destruct n; [destruct (ms_modes s) as [|? [|]]; try discriminate LN; destruct (TL eq_refl)|].
      cbn [finish_modes]. rewrite EX. cbn [bind].
      destruct (mode_finish_ok K s s1 TL (proj1 S) EX) as (LV & MM & LL).
      apply IH; [| |exact C].
      + pose proof (mode_finish_out K s True S TL (fun _ _ => Logic.I) (fun _ => Logic.I)) as W. rewrite EX in W.
        pose proof (wrote_steady s1 W) as Y. unfold after in Y. rewrite LV in Y. exact Y.
      + cbn. rewrite LN in LL. destruct (ms_modes s1); cbn in *; lia.
  Qed.
  Lemma digest_cause_crash (s : machine) t r : steady s -> ms_tokens s = t :: r -> digest_cause K (ms_modes s) (ms_mem s) t ->
    crashes (digestToken K s).
  Proof.
    intros S ET C. unfold digestToken. rewrite ET. apply crash_bind. pose proof S as (MO & LK & _ & _ & LEN).
    unfold mode_write. change (ms_modes (set_tokens s r)) with (ms_modes s).
    inversion C as [m q buf c k E U -> KK F4 DB SG|h q d d' E HS CO NU|buf p q E (W & k & A & UB) NM|buf p h q c E -> CS|buf p st b c E -> CS|h q me more b xs E R M P EN B|h q m0 me more b E R M P (HS & RS & DP & c & ->) B];
      rewrite E in *; clear C.
    - assert (Y : is_utf8_char (buf ++ [byte c]) = Ok true) by (destruct F4 as (? & ? & ? & ? & _ & F4); exact F4).
      assert (X : crashes (decode_char (k_debug K) (k_signed K) (buf ++ [byte c]))) by (rewrite DB, SG; apply decode_crashes; exact F4).
      destruct m as [?|h|st b p]; try discriminate U; cbn [unfinished] in U.
      + unfold h_write. destruct (h_state h); try discriminate U. injection U as U. rewrite <- U in X, Y. unfold h_main.
        destruct KK as [-> | ->]; rewrite Y; cbn [bind]; apply crash_bind; exact X.
      + destruct st; try discriminate U. injection U as U. subst b. cbn [m_write]. unfold m_main.
        destruct KK as [-> | ->]; rewrite Y; cbn [bind]; apply crash_bind; exact X.
    - unfold h_write. rewrite HS. unfold h_lowering. apply no_unit_iff in NU as (x & FX & IX).
      destruct CO as [n|c k d' DW DF].
      + cbn [bind isControlSequence orb]. rewrite FX. cbn [bind]. unfold unitSystem, mem. destruct (ms_mem (set_tokens s r)); [left; reflexivity|]. cbn [bind].
        rewrite (d_eval_infinite x _ IX). right. reflexivity.
      + rewrite DW. cbn [bind isControlSequence orb]. rewrite DF, FX. cbn [bind]. unfold unitSystem, mem. destruct (ms_mem (set_tokens s r)); [left; reflexivity|]. cbn [bind].
        rewrite (d_eval_infinite x _ IX). right. reflexivity.
    - cbn [m_write]. unfold m_main. destruct A as [c|n y CC|c k x q' KK Y DX LT].
      + assert (NE := NM eq_refl). unfold m_beginGroup. cbn. destruct (ms_mem s) as [|m0 more] eqn:EM; [congruence|]. cbn. unfold PageEditor.m_call. rewrite UB. left. reflexivity.
      + unfold writeControlSequence. rewrite CC. cbn [bind]. rewrite UB. left. reflexivity.
      + apply Z.ltb_lt in LT. destruct KK as [-> | ->]; rewrite Y; cbn [bind]; rewrite DX; cbn [bind fst]; unfold MathFrontend.writeSymbol, writeChar; rewrite LT; first [rewrite UB|unfold do_call in *; rewrite UB]; left; reflexivity.
    - cbn [m_write]. unfold m_main. change (ms_modes (set_tokens s r)) with (ms_modes s). rewrite E. cbn [tl mode_kind].
      apply (finish_crash (set_tokens s r) MMain buf p _ (MH h :: q) T E CS). left. eauto.
    - cbn [m_write]. change (mathshift (TChar c MathShift)) with true. cbn iota.
      apply (finish_crash (set_tokens s r) MMathShift buf p _ [MV st b] D E CS). right. eauto.
    - assert (L : low q) by exact MO. unfold h_write. destruct EN as [HS|c HS|us k x HS FX|d x HS FX IX]; rewrite HS.
      + unfold h_main. change (cs_is (str "par") "par") with true. cbn iota. exact (lines_crash (set_tokens s r) h _ q me more b E L R M P B).
      + unfold h_mathshift. change (mathshift (TChar c MathShift)) with true. cbn iota. apply crash_bind.
        apply (lines_crash (set_cur (set_tokens s r) (MH (with_hstate h HMain))) (with_hstate h HMain) (MH (with_hstate h HMain)) q me more b); auto.
        unfold set_cur. cbn. rewrite E. reflexivity.
      + cbn [h_kern par]. rewrite FX. cbn [bind]. unfold h_main. change (cs_is (str "par") "par") with true. cbn iota.
        set (h' := with_hstate (with_hlist h (hb_push_kern (h_list h) x)) HMain).
        apply (lines_crash (set_cur (set_tokens s r) (MH h')) h' (MH h') q me more b); auto. unfold set_cur. cbn. rewrite E. reflexivity.
      + unfold h_lowering. cbn [par bind isControlSequence orb]. rewrite FX. cbn [bind]. unfold unitSystem, mem.
        change (ms_mem (set_tokens s r)) with (ms_mem s). rewrite M. cbn [bind].
        match goal with |- context [d_eval x ?us] => destruct (d_eval_finite x us IX) as [v ->] end. cbn [bind].
        unfold h_main. change (cs_is (str "par") "par") with true. cbn iota.
        set (h' := with_hstate (with_lower h v) HMain).
        apply (lines_crash (set_cur (set_tokens s r) (MH h')) h' (MH h') q me more b); auto. unfold set_cur. cbn. rewrite E. reflexivity.
    - assert (L : low q) by exact MO. unfold h_write. rewrite HS. unfold h_main, h_endGroup.
      set (h' := with_depth h ((h_depth h - 1) mod size_mod)).
      assert (RS' : h_restricted h' && (h_depth h' =? 0)%Z = true) by (unfold h'; cbn; rewrite RS, DP; reflexivity). rewrite RS'.
      unfold m_endGroup. change (ms_mem (set_cur (set_tokens s r) (MH h'))) with (ms_mem s). rewrite M.
      unfold endGroup. change (p_defs (ms_pre (set_cur (set_tokens s r) (MH h')))) with (p_defs (ms_pre s)).
      rewrite M in LEN. destruct (p_defs (ms_pre s)) as [|sc dd]; [discriminate LEN|]. cbn [bind].
      eapply (lines_crash _ h' (MH h') q me more b); auto. unfold set_cur. cbn. rewrite E. reflexivity.
  Qed.

  Lemma decode_complete d sg buf : is_utf8_char buf = Ok true -> (exists x, decode_char d sg buf = Ok x) \/ crashes (decode_char d sg buf).
  Proof.
    intros H. destruct (d && sg) eqn:DS.
    - apply andb_prop in DS as [-> ->]. destruct (complete_cases buf H) as (b0 & r & -> & X).
      destruct X as [[A ->]|[(A & B & b1 & -> & E1)|[(A & B & F & b1 & b2 & -> & E1 & E2)|(A & B & F & G & b1 & b2 & b3 & -> & E1 & E2 & E3)]]].
      + left. unfold decode_char. rewrite A. eauto.
      + left. unfold decode_char. rewrite A, B. destruct (cont_ok true true (Z.land (char_value true b0) 31) b1 [] E1) as [y ->]. eauto.
      + left. unfold decode_char. rewrite A, B, F. destruct (cont_ok true true (Z.land (char_value true b0) 15) b1 [b2] E1) as [y ->]. cbn [bind fst snd].
        destruct (cont_ok true true y b2 [] E2) as [z ->]. eauto.
      + right. apply decode_crashes. exists b0, b1, b2, b3. auto.
    - assert (DS' : d = false \/ sg = false) by (destruct d, sg; auto; discriminate DS).
      left. destruct (complete_cases buf H) as (b0 & r & -> & X). unfold decode_char.
      destruct X as [[A ->]|[(A & B & b1 & -> & E1)|[(A & B & F & b1 & b2 & -> & E1 & E2)|(A & B & F & G & b1 & b2 & b3 & -> & E1 & E2 & E3)]]]; rewrite A; try rewrite B; try rewrite F; try rewrite G.
      + eauto.
      + destruct (cont_ok d sg (Z.land (char_value sg b0) 31) b1 [] E1) as [y ->]. eauto.
      + destruct (cont_ok d sg (Z.land (char_value sg b0) 15) b1 [b2] E1) as [y ->]. cbn [bind fst snd].
        destruct (cont_ok d sg y b2 [] E2) as [z ->]. eauto.
      + destruct (cont4_ok d sg (Z.land (char_value sg b0) 7) b1 [b2; b3] E1 DS') as [y ->]. cbn [bind fst snd].
        destruct (cont4_ok d sg y b2 [b3] E2 DS') as [z ->]. cbn [bind fst snd].
        destruct (cont4_ok d sg z b3 [] E3 DS') as [z' ->]. eauto.
  Qed.
  Lemma h_main_needs (s : machine) m t : ms_mem s = [] -> list_needs m t -> crashes (h_main K s m t).
  Proof.
    intros M H. assert (U : unitSystem K s = UB) by (unfold unitSystem, mem; rewrite M; reflexivity).
    assert (ME : mem s = UB) by (unfold mem; rewrite M; reflexivity).
    destruct H as [R| | |c k KK Y|c|c]; unfold h_main.
    - change (cs_is (str "par") "par") with true. cbn iota. cbn [par]. unfold h_output. rewrite R, ME. left. reflexivity.
    - change (cs_is (str "kern") "par") with false. change (cs_is (str "kern") "kern") with true. cbn iota. rewrite U. left. reflexivity.
    - change (cs_is (str "hbox") "par") with false. change (cs_is (str "hbox") "kern") with false. change (cs_is (str "hbox") "hbox") with true. cbn iota.
      unfold enter_h. change (mem (set_cur s (MH m))) with (mem s). rewrite ME. left. reflexivity.
    - destruct (decode_complete (k_debug K) (k_signed K) _ Y) as [[x X]|X].
      + destruct KK as [-> | ->]; rewrite Y; cbn [bind]; rewrite X; cbn [bind]; rewrite ME; left; reflexivity.
      + destruct KK as [-> | ->]; rewrite Y; cbn [bind]; apply crash_bind; exact X.
    - rewrite ME. left. reflexivity.
    - unfold h_endGroup, m_endGroup. change (ms_mem (set_cur s ?x)) with (ms_mem s). rewrite M. left. reflexivity.
  Qed.
  Lemma unset_crash (s : machine) t r : steady s -> ms_tokens s = t :: r -> unset K (ms_modes s) (ms_mem s) t -> crashes (digestToken K s).
  Proof.
    intros S ET C. unfold digestToken. rewrite ET. apply crash_bind. pose proof S as (MO & LK & _ & _ & LEN).
    unfold mode_write. change (ms_modes (set_tokens s r)) with (ms_modes s).
    destruct C as [[M C]|(h & q & m & E & R & (HS & RS & DP & c & ->) & M)].
    - assert (ME : forall x : machine, ms_mem x = ms_mem s -> mem x = UB) by (intros x X; unfold mem; rewrite X, M; reflexivity).
      assert (U : forall x : machine, ms_mem x = ms_mem s -> unitSystem K x = UB) by (intros x X; unfold unitSystem; rewrite (ME x X); reflexivity).
      inversion C as [b c k NK E|b E|us k b x FX E|b t' NM E|h q t' HS L E|h q c HS R E|us k x h q n HS FX L E|d d' x h q t' HS CO FX E|buf p p' q c EP E|buf p st b c (p' & l & x & FP & O & X) E]; subst t; rewrite <- E in *.
      + cbn [v_write]. unfold v_main. destruct (mathshift (TChar c k)) eqn:MS; [destruct k; try discriminate MS; congruence|].
        unfold enter_h. rewrite ME by reflexivity. left. reflexivity.
      + cbn [v_write]. unfold v_main. change (cs_is (str "kern") "par") with false. change (cs_is (str "kern") "kern") with true. cbn iota. rewrite U by reflexivity. left. reflexivity.
      + cbn [v_write]. unfold v_kern. rewrite FX. cbn [bind]. unfold v_main. change (cs_is (str "kern") "par") with false. change (cs_is (str "kern") "kern") with true. cbn iota. rewrite U by reflexivity. left. reflexivity.
      + cbn [v_write]. unfold v_mathshift, mathshift. rewrite NM. unfold enter_h. rewrite ME by reflexivity. left. reflexivity.
      + unfold h_write. rewrite HS. apply h_main_needs; [exact M|exact L].
      + unfold h_write. rewrite HS. unfold h_mathshift. change (mathshift (TChar c MathShift)) with true. cbn iota. apply crash_bind.
        unfold h_output. change (h_routine (with_hstate h HMain)) with (h_routine h). rewrite R, ME by reflexivity. left. reflexivity.
      + unfold h_write. rewrite HS. unfold h_kern. rewrite FX. cbn [bind]. apply h_main_needs; [exact M|]. inversion L; subst; [apply need_par; assumption|apply need_kern|apply need_hbox].
      + unfold h_write. rewrite HS. unfold h_lowering. destruct CO as [n|c k d' DW DF].
        * cbn [bind isControlSequence orb]. rewrite FX. cbn [bind]. rewrite U by reflexivity. left. reflexivity.
        * rewrite DW. cbn [bind isControlSequence orb]. rewrite DF, FX. cbn [bind]. rewrite U by reflexivity. left. reflexivity.
      + cbn [m_write]. unfold m_main, PageEditor.m_call. rewrite EP. cbn [bind]. unfold m_endGroup. change (ms_mem (set_cur (set_tokens s r) ?x)) with (ms_mem s). rewrite M. left. reflexivity.
      + cbn [m_write]. change (mathshift (TChar c MathShift)) with true. cbn iota. unfold m_finish. rewrite FP. cbn [bind]. unfold m_output.
        change (ms_modes (set_tokens s r)) with (ms_modes s). rewrite <- E. cbn [tl]. rewrite O. cbn [bind]. rewrite X. cbn [bind]. rewrite ME by reflexivity. left. reflexivity.
    - rewrite E. unfold h_write. rewrite HS. unfold h_main, h_endGroup.
      set (h' := with_depth h ((h_depth h - 1) mod size_mod)).
      assert (RS' : h_restricted h' && (h_depth h' =? 0)%Z = true) by (unfold h'; cbn; rewrite RS, DP; reflexivity). rewrite RS'.
      unfold m_endGroup. change (ms_mem (set_cur (set_tokens s r) (MH h'))) with (ms_mem s). rewrite M.
      unfold endGroup. change (p_defs (ms_pre (set_cur (set_tokens s r) (MH h')))) with (p_defs (ms_pre s)).
      rewrite M in LEN. destruct (p_defs (ms_pre s)) as [|sc dd]; [discriminate LEN|]. cbn [bind].
      unfold h_output. change (h_routine h') with (h_routine h). rewrite R. left. reflexivity.
  Qed.
  Lemma send_needs_crash (s : machine) t r : ms_mem s = [] -> p_output (ms_pre s) = t :: r -> send_needs K (ms_fonts s) (ms_as s) t -> crashes (sendToken K s).
  Proof.
    intros M E C. unfold sendToken. rewrite E. apply crash_bind. unfold as_write.
    change (ms_as (set_pre s (set_output (ms_pre s) r))) with (ms_as s).
    assert (U : forall x : machine, ms_mem x = ms_mem s -> unitSystem K x = UB) by (intros x X; unfold unitSystem, mem; rewrite X, M; reflexivity).
    assert (CM : forall (x : machine) f, ms_mem x = ms_mem s -> change_mem x f = UB) by (intros x f X; unfold change_mem; rewrite X, M; reflexivity).
    inversion C as [EA|n f NF FF EA|us p c k p' PW PF EA|us p n ps PF EA]; subst t.
    - unfold as_main. change (cs_is (str "parshape") "parshape") with true. cbn iota. rewrite U by reflexivity. left. reflexivity.
    - unfold as_main. destruct (cs_is n "parshape"); [rewrite U by reflexivity; left; reflexivity|].
      destruct (cs_is n "font") eqn:FN; [apply cs_word in FN; congruence|].
      change (ms_fonts (set_pre s (set_output (ms_pre s) r))) with (ms_fonts s). rewrite FF, CM by reflexivity. left. reflexivity.
    - unfold as_parshape. rewrite PW. cbn [bind]. rewrite PF. cbn [orb]. unfold pp_finish. rewrite PF. cbn [bind]. rewrite CM by reflexivity. left. reflexivity.
    - unfold as_parshape. cbn [bind isControlSequence]. rewrite orb_true_r, PF. cbn [bind]. rewrite CM by reflexivity. left. reflexivity.
  Qed.
  Lemma digests_steady (s s' : machine) : digests K s s' -> steady s -> steady s'.
  Proof.
    induction 1 as [s|s s1 s' E F IH]; intros S; [exact S|]. apply IH.
    pose proof (digestToken_out K s True S (fun _ _ _ _ => Logic.I)) as X. rewrite E in X. exact X.
  Qed.
  Lemma digests_crash (s s' : machine) : digests K s s' -> steady s -> crashes (digestToken K s') -> exists k, forall n, k <= n -> crashes (digest K n s).
  Proof.
    induction 1 as [s|s s1 s' E F IH]; intros S C.
    - exists 1. intros [|n] L; [lia|]. cbn [digest]. apply crash_bind. exact C.
    - assert (S1 : steady s1).
      { pose proof (digestToken_out K s True S (fun _ _ _ _ => Logic.I)) as X. rewrite E in X. exact X. }
      destruct (IH S1 C) as [k H]. exists (Datatypes.S k). intros [|n] L; [lia|]. cbn [digest]. rewrite E. cbn [bind fst snd]. apply H. lia.
  Qed.
  Lemma send_crash (s : machine) t r : p_output (ms_pre s) = t :: r -> send_cause K (ms_as s) (ms_loads s) t -> crashes (sendToken K s).
  Proof.
    intros E C. unfold sendToken. rewrite E. apply crash_bind. unfold as_write.
    change (ms_as (set_pre s (set_output (ms_pre s) r))) with (ms_as s).
    destruct C as [us p c k -> ST DG L|us p t d -> CO NU SH|f c k f' -> W F C].
    - unfold as_parshape. apply crash_bind. unfold pp_write. rewrite ST, DG. apply Z.ltb_lt in L. rewrite L. left. reflexivity.
    - apply no_unit_iff in NU as (x & FX & IX). unfold as_parshape. destruct CO as [n|c k d DW DF].
      + destruct SH as [ST NS]. cbn [bind isControlSequence]. rewrite orb_true_r. apply crash_bind.
        unfold pp_finish. rewrite ST, NS, Z.eqb_refl, FX. cbn [bind]. rewrite (d_eval_infinite x us IX). right. reflexivity.
      + apply crash_bind. unfold pp_write. destruct SH as [-> | ->]; rewrite DW; cbn [bind]; rewrite DF, FX; cbn [bind]; rewrite (d_eval_infinite x us IX); right; reflexivity.
    - unfold as_font. rewrite W. cbn [bind]. rewrite F. apply crash_bind. exact C.
  Qed.
  Lemma csname_crash q t : isParameterToken t = true -> in_csname q -> process q t = UB.
  Proof. intros P (n & b & E). unfold process. rewrite E. destruct t; try discriminate P. reflexivity. Qed.
  Lemma digest_crash u s : ms_state u = DigestToken -> invariant u -> deep u -> digests K u s -> crashes (digestToken K s) ->
    crashes (do s <- digest K (digest_fuel u) u; Ok (set_mstate s (match p_input (ms_pre s) with _ :: _ => Preprocess | [] => ReadToken end))).
  Proof.
    intros ES V W DG C. pose proof (deep_steady u V W) as S. pose proof V as (M & F & _ & _ & _ & ST). rewrite ES in ST.
    apply crash_bind. destruct (digests_crash u s DG S C) as [k H].
    destruct ST as [TK _]. destruct (ms_tokens u) as [|t0 r0] eqn:TU.
    - exfalso. specialize (H (Datatypes.S k) ltac:(lia)). cbn [digest] in H. unfold digestToken in H. rewrite TU in H. cbn in H. destruct H as [H|H]; discriminate H.
    - destruct r0; [|cbn in TK; lia]. pose proof (quick_one K u t0 TU F M) as Q.
      destruct (Q (digest_fuel u) ltac:(unfold digest_fuel; lia)) as [Q1 _].
      destruct (Q (Nat.max k (digest_fuel u)) ltac:(unfold digest_fuel; lia)) as [Q2 _].
      rewrite Q1, <- Q2. apply H. lia.
  Qed.
  Theorem cause_crashes u : PageEditorSpec.reached K u -> cause K u -> crashes (m_advance K u).
  Proof.
    intros R C. pose proof (reached_invariant K u R) as V. pose proof (reached_deep u R) as W. pose proof (deep_steady u V W) as S.
    pose proof V as (M & F & _ & _ & _ & ST). unfold cause in C. unfold m_advance. destruct (ms_state u) eqn:ES.
    - destruct C.
    - destruct C as (-> & s & FS & FC). apply crash_bind. apply (finishes_crash u s FS); [exact S| |].
      + destruct (ms_modes u); [destruct M|cbn; lia].
      + apply finish_cause_crash; [exact (finishes_steady u s FS S)|exact FC].
    - destruct C as (t & r & E & P & Q). destruct ST as (_ & _ & PI). rewrite E. cbn [ms_pre set_lex]. unfold pwrite. rewrite PI, (csname_crash _ t P Q). left. reflexivity.
    - destruct C as (t & r & E & P & Q). unfold Preprocessor.advance. rewrite E, (csname_crash (set_input (ms_pre u) r) t P Q). left. reflexivity.
    - destruct C as (t & r & E & C). apply crash_bind. exact (send_crash u t r E C).
    - destruct C as (s & t & r & DG & ET & C). apply (digest_crash u s ES V W DG). exact (digest_cause_crash s t r (digests_steady u s DG S) ET C).
  Qed.
  Theorem gone_crashes u : PageEditorSpec.reached K u -> groups_gone K u -> crashes (m_advance K u).
  Proof.
    intros R C. pose proof (reached_invariant K u R) as V. pose proof (reached_deep u R) as W. pose proof (deep_steady u V W) as S.
    pose proof V as (M & F & LEN & _ & _ & ST). unfold groups_gone in C. destruct (ms_state u) eqn:ES.
    - destruct C.
    - destruct C as (AE & s & FS & M0 & FN). unfold m_advance. rewrite ES, AE. apply crash_bind. apply (finishes_crash u s FS); [exact S| |].
      + destruct (ms_modes u); [destruct M|cbn; lia].
      + apply finish_needs_crash; [exact (finishes_steady u s FS S)|exact M0|exact FN].
    - destruct C as (M0 & t & r & E & Q). destruct ST as (_ & _ & PI). unfold m_advance. rewrite ES, E. cbn [ms_pre set_lex]. unfold pwrite. rewrite PI.
      rewrite M0 in LEN. rewrite defines_crash; [left; reflexivity|destruct (p_defs (ms_pre u)); [reflexivity|discriminate LEN]|exact Q].
    - destruct C as (M0 & t & r & E & Q). unfold m_advance, Preprocessor.advance. rewrite ES, E. rewrite M0 in LEN.
      rewrite (defines_crash (set_input (ms_pre u) r)); [left; reflexivity|cbn; destruct (p_defs (ms_pre u)); [reflexivity|discriminate LEN]|exact Q].
    - destruct C as (M0 & t & r & E & C). unfold m_advance. rewrite ES. apply crash_bind. exact (send_needs_crash u t r M0 E C).
    - destruct C as (s & t & r & DG & ET & C). pose proof (digest_crash u s ES V W DG (unset_crash s t r (digests_steady u s DG S) ET C)) as X.
      unfold m_advance. rewrite ES. exact X.
  Qed.

  (** * formulas *)
  Lemma linked_parser (l : list mode) st buf p : linked l -> In (MM st buf p) l -> good_parser p.
  Proof.
    induction l as [|m l IH]; intros L [].
    - subst m. apply L.
    - apply IH; [|assumption]. destruct m; apply L.
  Qed.
  Lemma foldM_mono {A B} (f g : A -> B -> result A) (l : list B) : (forall a b x, f a b = Ok x -> g a b = Ok x) ->
    forall a x, foldM f l a = Ok x -> foldM g l a = Ok x.
  Proof.
    intros H. induction l as [|b l IH]; intros a x E; [exact E|]. cbn [foldM] in *. apply bind_Ok in E as (y & Y & E).
    rewrite (H _ _ _ Y). cbn [bind]. apply IH, E.
  Qed.
  Lemma node_mono (f g : nat -> result (list (mnode N))) : (forall i x, f i = Ok x -> g i = Ok x) ->
    forall n x, node_val f n = Ok x -> node_val g n = Ok x.
  Proof.
    intros H n x.
    assert (FI : forall r y, field_of f r = Ok y -> field_of g r = Ok y).
    { intros [[y|i]|] z E; cbn [field_of] in *; try exact E. apply bind_Ok in E as (l & L & E). rewrite (H _ _ L). exact E. }
    destruct n as [ty nu sp sb|y|a b|a b|cells cols|y]; cbn [node_val]; intros E; try exact E.
    - apply bind_Ok in E as (a & A & E). apply bind_Ok in E as (b & B & E). apply bind_Ok in E as (c & C & E).
      rewrite (FI _ _ A), (FI _ _ B), (FI _ _ C). exact E.
    - apply bind_Ok in E as (p & A & E). apply bind_Ok in E as (q & B & E). rewrite (H _ _ A), (H _ _ B). exact E.
    - apply bind_Ok in E as (p & A & E). apply bind_Ok in E as (q & B & E). rewrite (H _ _ A), (H _ _ B). exact E.
    - apply bind_Ok in E as (l & L & E).
      rewrite (foldM_mono _ (fun l i => do x <- g i; Ok (l ++ [x])) cells) with (x := l) (2 := L); [exact E|].
      intros l0 i y Y. apply bind_Ok in Y as (z & Z & Y). rewrite (H _ _ Z). exact Y.
  Qed.
  Lemma output_mono fuel fuel' p l : fuel <= fuel' -> output (N := N) fuel p = Ok l -> output fuel' p = Ok l.
  Proof.
    unfold output. generalize 0. revert fuel' l. induction fuel as [|n IH]; intros [|m] l i L E; try discriminate E; [lia|].
    cbn [list_val] in *. refine (foldM_mono _ _ _ _ _ _ E). intros a b x X. apply bind_Ok in X as (y & Y & X).
    rewrite (node_mono _ (list_val (mp_heap p) m)) with (x := y) (2 := Y); [exact X|]. intros j z Z. apply (IH m z j); [lia|exact Z].
  Qed.
  Lemma finished_parser p p' : good_parser p -> do_call p CFinish = Ok p' -> exists ts, output_is p' ts /\
    TypesetOkSpec.unboxed_list (map (EquationSpec.value (N := N)) ts) = true /\ TypesetOkSpec.fine (map (EquationSpec.value (N := N)) ts) = showable ts.
  Proof.
    intros (l & F & E) H.
    assert (F' : Forall code_call (l ++ [CFinish])) by (apply Forall_app; split; [exact F|constructor; [exact Logic.I|constructor]]).
    assert (E' : calls (l ++ [CFinish]) mp_init = Ok p') by (apply calls_snoc; eauto).
    destruct (output_exists _ _ F' E') as [ts R]. exists ts. split; [exact R|]. exact (output_fine (N := N) _ _ _ F' E' R).
  Qed.
  Theorem cannot_show_why u s st buf p y : TypesetOkSpec.char_engine (k_math K) -> TypesetOkSpec.self_equal N ->
    PageEditorSpec.reached K u -> digests K u s \/ finishes K u s -> In (MM st buf p) (ms_modes s) -> cannot_show K y p ->
    exists p' ts, do_call p CFinish = Ok p' /\ output_is p' ts /\ showable ts = false.
  Proof.
    intros HE HN R DF IN (p' & l & FP & O & C).
    pose proof (deep_steady u (reached_invariant K u R) (reached_deep u R)) as S.
    assert (S' : steady s) by (destruct DF as [DF|DF]; [exact (digests_steady u s DF S)|exact (finishes_steady u s DF S)]).
    destruct (finished_parser p p' (linked_parser _ _ _ _ (proj1 (proj2 S')) IN) FP) as (ts & RT & U & FI).
    exists p', ts. split; [exact FP|]. split; [exact RT|]. destruct (showable ts) eqn:SH; [|reflexivity]. exfalso.
    destruct (output_value (N := N) p' ts RT) as [k Hk].
    pose proof (output_mono (k_fuel K) (Nat.max k (k_fuel K)) p' l ltac:(lia) O) as O2. rewrite Hk in O2 by lia. assert (l = map EquationSpec.value ts) as -> by congruence.
    pose proof (TypesetOk.mlist2hlist_safe (k_math K) HE HN (k_fuel K) default_penalties y _ FI) as X.
    destruct C as [C|C]; rewrite C in X; exact X.
  Qed.
End Run.
Theorem shows_not {N : Num} (K : host N) u s st buf p y p' ts : PageEditorSpec.reached K u -> digests K u s \/ finishes K u s -> In (MM st buf p) (ms_modes s) ->
  do_call p CFinish = Ok p' -> output_is p' ts -> showable ts = false ->
  exists k, forall K' : host N, k <= k_fuel K' -> cannot_show K' y p.
Proof.
  intros R DF IN FP RT SH.
  pose proof (deep_steady u (reached_invariant K u R) (reached_deep K u R)) as S.
  assert (S' : steady s) by (destruct DF as [DF|DF]; [exact (digests_steady K u s DF S)|exact (finishes_steady K u s DF S)]).
  destruct (finished_parser (N := N) p p' (linked_parser _ _ _ _ (proj1 (proj2 S')) IN) FP) as (ts' & RT' & U & FI).
  assert (ts' = ts) as -> by exact (proj1 (proj2 (proj2 (MathProofs.reads_once (mp_heap p')))) _ _ RT' _ RT).
  destruct (output_value (N := N) p' ts RT) as [k Hk].
  exists (k + Datatypes.S (TypesetSpec.list_size (map (EquationSpec.value (N := N)) ts))). intros K' L. exists p', (map EquationSpec.value ts).
  split; [exact FP|]. split; [apply Hk; lia|].
  destruct (TypesetNoThrow.typeset_no_exception (k_math K') (k_fuel K') default_penalties y (map EquationSpec.value ts) ltac:(lia) (unboxed_known _ U)) as [Q1 Q2].
  assert (Q3 := TypesetFails.typesets_fine (k_math K') (k_fuel K') default_penalties y (map EquationSpec.value ts)).
  destruct (mlist2hlist (k_math K') (k_fuel K') default_penalties y (map EquationSpec.value ts)) as [x| | | |]; try congruence; try (left; reflexivity); try (right; reflexivity).
  specialize (Q3 x U eq_refl). congruence.
Qed.

(** * a text *)
Section Text.
  Context {N : Num}.
  Variable K : host N.
  Lemma run_reached_from s tr u : PageEditorSpec.reached K s -> run K s tr u -> PageEditorSpec.reached K u.
  Proof. intros H R. induction R as [|s s1 tr s2 A R IH]; [exact H|]. apply IH. exact (rc_step K _ _ H A). Qed.
  Lemma new_idle f h s : machine_new K f h = Ok s -> ms_state s = Idle.
  Proof.
    unfold machine_new. intros H. apply bind_Ok in H as (a & _ & H). apply bind_Ok in H as (b & _ & H).
    injection H as <-. reflexivity.
  Qed.
  Lemma run_reached f h s text tr u : machine_new K f h = Ok s -> run K (start s text) tr u -> PageEditorSpec.reached K u.
  Proof.
    intros E. apply run_reached_from. apply rc_start; [exact (rc_new K _ _ _ E)|exact (new_idle _ _ _ E)].
  Qed.
  Lemma resume_crash n : forall s, crashes (resume K n s) -> exists tr u, run K s tr u /\ crashes (m_advance K u).
  Proof.
    assert (ST : forall n s, crashes (do x <- m_advance K s; resume K n x) ->
      (forall s, crashes (resume K n s) -> exists tr u, run K s tr u /\ crashes (m_advance K u)) ->
      exists tr u, run K s tr u /\ crashes (m_advance K u)).
    { intros k s H IH. destruct (m_advance K s) as [x| | | |] eqn:A; cbn [bind] in H.
      - destruct (IH x H) as (tr & u & R & C). exists (x :: tr), u. split; [exact (run_step K _ _ _ _ A R)|exact C].
      - destruct H as [H|H]; discriminate H.
      - exists [], s. split; [apply run_nil|rewrite A; left; reflexivity].
      - exists [], s. split; [apply run_nil|rewrite A; right; reflexivity].
      - destruct H as [H|H]; discriminate H. }
    induction n as [|n IH]; intros s H; cbn [resume] in H; destruct (ms_state s) eqn:E;
      try (destruct H as [H|H]; discriminate H); exact (ST n s H IH).
  Qed.
  Lemma idle_run s tr u : run K s tr u -> ms_state s = Idle -> u = s.
  Proof.
    intros R. induction R as [s|s s1 tr s2 A R IH]; intros E; [reflexivity|].
    unfold m_advance in A. rewrite E in A. assert (s1 = s) as -> by congruence. exact (IH E).
  Qed.
  Lemma resume_run s tr u : run K s tr u -> crashes (m_advance K u) -> ms_state u <> Idle ->
    forall m, List.length tr + 1 <= m -> crashes (resume K m s).
  Proof.
    intros R C NI. induction R as [s|s s1 tr s2 A R IH]; intros [|m] L; cbn [List.length] in L; try lia; cbn [resume].
    - destruct (ms_state s) eqn:E; try congruence;
        (destruct C as [C|C]; rewrite C; [left|right]; reflexivity).
    - specialize (IH C NI m ltac:(lia)). rewrite A. cbn [bind].
      destruct (ms_state s) eqn:E; try exact IH. exfalso. apply NI.
      rewrite (idle_run s (s1 :: tr) s2 (run_step K _ _ _ _ A R) E). exact E.
  Qed.
  Lemma resume_ok n : forall s x, resume K n s = Ok x -> exists tr, run K s tr x.
  Proof.
    induction n as [|n IH]; intros s x H; cbn [resume] in H; destruct (ms_state s) eqn:E; try discriminate H;
      try (injection H as <-; exists []; constructor);
      (apply bind_Ok in H as (y & A & H); destruct (IH y x H) as (tr & R); exists (y :: tr); econstructor; eassumption).
  Qed.
  Theorem text_crashes f h s text n : machine_new K f h = Ok s -> crashes (typeset K n s text) ->
    exists tr u, run K (start s text) tr u /\ crashes (m_advance K u) /\ (cause K u \/ groups_gone K u).
  Proof.
    intros E H. unfold typeset in H. destruct (resume K n (start s text)) as [x| | | |] eqn:X; cbn [bind] in H;
      try (destruct H as [H|H]; discriminate H).
    - exfalso. destruct (resume_ok _ _ _ X) as (tr & R).
      pose proof (deep_steady x (reached_invariant K x (run_reached _ _ _ _ _ _ E R)) (reached_deep K x (run_reached _ _ _ _ _ _ E R))) as S.
      destruct S as [S _]. destruct (ms_modes x) as [|[]]; destruct H as [H|H]; try discriminate H. destruct S.
    - destruct (resume_crash n (start s text)) as (tr & u & R & C); [rewrite X; left; reflexivity|].
      exists tr, u. split; [exact R|]. split; [exact C|]. exact (crash_causes K u (run_reached _ _ _ _ _ _ E R) C).
    - destruct (resume_crash n (start s text)) as (tr & u & R & C); [rewrite X; right; reflexivity|].
      exists tr, u. split; [exact R|]. split; [exact C|]. exact (crash_causes K u (run_reached _ _ _ _ _ _ E R) C).
  Qed.
  Theorem cause_text f h s text tr u : machine_new K f h = Ok s -> run K (start s text) tr u -> cause K u \/ groups_gone K u ->
    exists n, forall m, n <= m -> crashes (typeset K m s text).
  Proof.
    intros E R C. exists (List.length tr + 1). intros m L.
    assert (X : crashes (resume K m (start s text))).
    { assert (CR : crashes (m_advance K u)).
      { destruct C as [C|C]; [exact (cause_crashes K u (run_reached _ _ _ _ _ _ E R) C)|exact (gone_crashes K u (run_reached _ _ _ _ _ _ E R) C)]. }
      refine (resume_run _ _ _ R CR _ m L). intros Q. unfold cause, groups_gone in C. rewrite Q in C. destruct C as [[]|[]]. }
    unfold typeset. destruct X as [X|X]; rewrite X; [left|right]; reflexivity.
  Qed.
End Text.

(** * ordinary paragraphs *)
Theorem lines_fine (K : host QcNum) (me : memory QcNum) (b : vbuilder QcNum) l pm : k_pows K = QcPows -> Forall ordinary l ->
  (forall n, (0 < linelength (paragraph me (vb_prevdepth b)) n)%Qc) -> penalties_within l pm -> (0 <= pm)%Z ->
  (Z.of_nat (List.length l + 3) * (666100 + pm * pm) < int_max)%Z -> ~ bad_lines K me b l.
Proof.
  intros E O L PW P0 B (NE & X). rewrite E in X.
  set (P := paragraph me (vb_prevdepth b)) in *.
  assert (U : LineBreaks.create QcPows P (prepare P l) = UB).
  { apply create_ub_iff; [|exact X]. unfold prepare. destruct l; [congruence|]. destruct (drop_last_glue _); discriminate. }
  assert (S : (exists out, LineBreaks.create QcPows P (prepare P l) = Ok out) \/ LineBreaks.create QcPows P (prepare P l) = Throw).
  { assert (EB : line_bound P (Z.max 100 (p_tolerance P)) pm = (666100 + pm * pm)%Z).
    { unfold line_bound. change (p_tolerance P) with 800%Z. change (p_linepenalty P) with 10%Z. change (p_adjdemerits P) with 10000%Z.
      change (Z.max 100 800) with 800%Z. change (Z.abs 10) with 10%Z. change (Z.abs 10000) with 10000%Z. lia. }
    apply (LineBreakSafe.create_safe_lemma P l pm NE O L).
    - change (p_leftskip P) with (mkGlue (N := QcNum) n0 n0 n0 Normal Normal). cbn [g_space]. apply Qcle_refl.
    - change (p_rightskip P) with (mkGlue (N := QcNum) n0 n0 n0 Normal Normal). cbn [g_space]. apply Qcle_refl.
    - reflexivity.
    - reflexivity.
    - change (p_tolerance P) with 800%Z. unfold int_max. lia.
    - exact PW.
    - exact P0.
    - rewrite EB. exact B. }
  destruct S as [[out S]|S]; congruence.
Qed.
