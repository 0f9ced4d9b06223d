(** The loop of the typesetting machine: shape of the modes, tokens in flight,
    groups. *)
From Coq Require Import List Ascii String ZArith Bool Arith Lia.
From Verif.Base Require Import Result Num.
From Verif.Model Require Import Unicode Token Lexer Macro Dimen DimenParser Glue Box
  ListBuilders LineBreaks MathList MathParser MathTypeset MathFrontend PageEditor Preprocessor.
From Verif.Spec Require Import PageEditorSpec.
From Verif.Proofs Require Import MacroExpand.
Import ListNotations.
Local Open Scope nat_scope.

Ltac inv_bind H := repeat (let x := fresh "x" in let E := fresh "E" in
  apply bind_Ok in H as (x & E & H)).
Ltac break_match_in H :=
  match type of H with
  | context [match ?x with _ => _ end] => destruct x eqn:?
  end.

(** ** What one token makes of the preprocessor's output *)
Definition no_param (t : token) : Prop := isParameterToken t = false.
Definition emits (s s' : Preprocessor.pstate) : Prop :=
  p_output s' = p_output s \/ exists t, p_output s' = p_output s ++ [t] /\ no_param t.

Lemma leave_output s s' : leave s = Ok s' -> p_output s' = p_output s.
Proof.
  unfold leave. destruct (p_frames s); [discriminate|]. intros H. inv_bind H. now injection H as <-.
Qed.
Lemma define_output s m s' : define s m = Ok s' -> p_output s' = p_output s.
Proof. unfold define. destruct (p_defs s); [discriminate|]. intros [= <-]. reflexivity. Qed.
Lemma processControlSeq_output s c s' : processControlSeq s c = Ok s' -> emits s s'.
Proof.
  unfold processControlSeq. intros H.
  repeat match type of H with
  | (if ?b then _ else _) = _ => destruct b; [injection H as <-; now left|]
  end.
  destruct (find_ptr c (p_defs s)) as [[id m]|].
  - destruct (m_param m); apply bind_Ok in H as (x & _ & H); injection H as <-; now left.
  - injection H as <-. right. eexists. split; [reflexivity|]. reflexivity.
Qed.
Lemma process_output s t s' : process s t = Ok s' -> emits s s'.
Proof.
  unfold process. destruct (p_frames s) as [|f fs]; [discriminate|]. intros H. destruct f.
  - destruct t; try discriminate.
    + injection H as <-. right. eexists. split; [reflexivity|]. reflexivity.
    + now apply processControlSeq_output in H.
  - left. unfold readMacro in H. destruct s0.
    + destruct t; try discriminate. now injection H as <-.
    + destruct (is_value t "{"%char); [now injection H as <-|].
      destruct t; try now injection H as <-.
      destruct (negb _); [discriminate|]. now injection H as <-.
    + destruct (is_value t "{"%char); [now injection H as <-|].
      destruct (is_value t "}"%char); [|now injection H as <-].
      destruct (rm_nesting d =? 0)%Z; [|now injection H as <-].
      apply bind_Ok in H as (s1 & D & H). apply define_output in D. apply leave_output in H. congruence.
  - left. unfold expandMacro in H. apply bind_Ok in H as (m & _ & H). apply bind_Ok in H as ([sub' d'] & _ & H).
    destruct (_ =? _)%nat; [|now injection H as <-].
    apply bind_Ok in H as (e & _ & H). now apply leave_output in H.
  - left. unfold branch in H.
    destruct (is_if t); [now injection H as <-|].
    destruct (is_else t). { destruct (_ =? _)%nat; now injection H as <-. }
    destruct (is_fi t); [|now injection H as <-].
    destruct (_ =? _)%nat; [|now injection H as <-]. now apply leave_output in H.
  - left. unfold formCs in H. destruct t; try discriminate; [now injection H as <-|].
    destruct (name_eqb _ _); [|discriminate]. now apply leave_output in H.
  - destruct t; try discriminate. injection H as <-. now left.
  - destruct t; try discriminate. unfold expandafter_expanding in H.
    apply bind_Ok in H as (s1 & P & H). apply processControlSeq_output in P.
    destruct (_ =? _)%nat; [|now injection H as <-]. apply leave_output in H.
    unfold emits in *. cbn in H, P. now rewrite H.
  - injection H as <-. now left.
Qed.

Section Machine.
  Context {N : Num}.
  Variable K : host N.
  Notation machine := (machine N).
  Notation mode := (mode N).

  (** ** The modes: vertical at the bottom, formulas only on top, and only the
      top one in the middle of something *)
  Fixpoint low (l : list mode) : Prop :=
    match l with
    | [MV VMain _] => True
    | MH h :: r => h_state h = HMain /\ low r
    | _ => False
    end.
  Definition modes_ok (l : list mode) : Prop :=
    match l with
    | [MV _ _] => True
    | MH _ :: r => low r
    | MM _ _ _ :: r => low r
    | _ => False
    end.
  Lemma low_ok l : low l -> modes_ok l.
  Proof. destruct l as [|[[]| |] [|? ?]]; cbn; tauto. Qed.

  Lemma change_bottom_low f l : forall l', low l -> change_bottom f l = Ok l' ->
    low l' /\ List.length l' = List.length l.
  Proof.
    induction l as [|m l IH]; intros l' L H; [destruct L|].
    destruct m as [st b|h|st bu p]; [| |destruct L].
    - destruct l; [|destruct st; destruct L]. cbn in H. inv_bind H. injection H as <-. now destruct st.
    - destruct L as [HS L]. cbn [change_bottom] in H.
      assert (X : change_bottom f (MH h :: l) = (do r <- change_bottom f l; Ok (MH h :: r))).
      { destruct l; [destruct L|reflexivity]. }
      cbn [change_bottom] in X. rewrite X in H. inv_bind H. injection H as <-.
      destruct (IH _ L E) as [A B]. cbn. now rewrite B.
  Qed.

  (** ** What does not change while a token is digested *)
  Definition still (s s' : machine) : Prop :=
    ms_in s' = ms_in s /\ ms_lex s' = ms_lex s /\ ms_as s' = ms_as s /\ ms_fonts s' = ms_fonts s /\
    ms_loads s' = ms_loads s /\ ms_state s' = ms_state s.
  Definition quiet (s s' : machine) : Prop := ms_mem s' = ms_mem s /\ ms_pre s' = ms_pre s.
  Inductive grouping (s s' : machine) : Prop :=
  | gp_none : quiet s s' -> grouping s s'
  | gp_open m r : ms_mem s = m :: r -> ms_mem s' = m :: m :: r -> ms_pre s' = beginGroup (ms_pre s) -> grouping s s'
  | gp_close m r : ms_mem s = m :: r -> ms_mem s' = r -> endGroup (ms_pre s) = Ok (ms_pre s') -> grouping s s'.

  (** without unfolding the setters, whose normal forms are large *)
  Definition alike (s s' : machine) : Prop := still s s' /\ quiet s s'.
  Lemma alike_refl s : alike s s. Proof. repeat split. Qed.
  Lemma alike_tokens s s' x : alike s s' -> alike s (set_tokens s' x). Proof. exact (fun H => H). Qed.
  Lemma alike_modes s s' x : alike s s' -> alike s (set_modes s' x). Proof. exact (fun H => H). Qed.
  Lemma alike_leave s s' x : alike s s' -> alike s (set_leave s' x). Proof. exact (fun H => H). Qed.
  Lemma alike_insert s s' x : alike s s' -> alike s (insert s' x). Proof. exact (fun H => H). Qed.
  Lemma alike_enter s s' x : alike s s' -> alike s (m_enter s' x). Proof. exact (fun H => H). Qed.
  Lemma alike_enter_m s s' : alike s s' -> alike s (enter_m s'). Proof. exact (fun H => H). Qed.
  Lemma alike_cur s s' x : alike s s' -> alike s (set_cur s' x). Proof. exact (fun H => H). Qed.
  Lemma alike_both s x y : alike s x -> alike s y -> alike x y.
  Proof. unfold alike, still, quiet. intuition congruence. Qed.
  Lemma still_refl s : still s s. Proof. repeat split. Qed.
  Lemma still_trans a b c : still a b -> still b c -> still a c.
  Proof. unfold still. intuition congruence. Qed.
  Lemma quiet_trans a b c : quiet a b -> quiet b c -> quiet a c.
  Proof. unfold quiet. intuition congruence. Qed.
  Lemma quiet_grouping a b c : quiet a b -> grouping b c -> grouping a c.
  Proof.
    intros [A B] [[C D]|m r C D E|m r C D E].
    - apply gp_none. split; congruence.
    - eapply gp_open; [rewrite <- A; exact C|exact D|congruence].
    - eapply gp_close; [rewrite <- A; exact C|exact D|congruence].
  Qed.
  Lemma grouping_quiet a b c : grouping a b -> quiet b c -> grouping a c.
  Proof.
    intros [[C D]|m r C D E|m r C D E] [A B].
    - apply gp_none. split; congruence.
    - eapply gp_open; [exact C|congruence|congruence].
    - eapply gp_close; [exact C|congruence|congruence].
  Qed.

  (** the state after [digestToken] has looked at the flag *)
  Definition after (s : machine) : machine :=
    if ms_leave s then set_leave (set_modes s (tl (ms_modes s))) false else s.
  Lemma digestToken_cons s t r : ms_tokens s = t :: r ->
    digestToken K s = do s <- mode_write K (set_tokens s r) t;
      Ok (after s, match ms_tokens (after s) with [] => false | _ => true end).
  Proof. intros E. unfold digestToken. rewrite E. reflexivity. Qed.
  Lemma after_fields s : still s (after s) /\ quiet s (after s) /\ ms_tokens (after s) = ms_tokens s /\
    ms_leave (after s) = false.
  Proof. unfold after. destruct (ms_leave s) eqn:E; repeat split; auto. Qed.

  (** a write that leaves the pending tokens alone *)
  Definition calm (s s' : machine) : Prop :=
    still s s' /\ grouping s s' /\ ms_tokens s' = ms_tokens s /\ modes_ok (ms_modes (after s')).

  Lemma calm_keep s m r : ms_modes s = m :: r -> ms_leave s = false -> forall m', modes_ok (m' :: r) ->
    calm s (set_cur s m').
  Proof.
    intros E L m' M. unfold calm. split; [repeat split|]. split; [apply gp_none; split; reflexivity|].
    split; [reflexivity|]. unfold after, set_cur. cbn. rewrite L, E. exact M.
  Qed.
  Lemma calm_leave s l : low (tl l) -> calm s (set_leave (set_modes s l) true).
  Proof.
    intros M. split; [repeat split|]. split; [apply gp_none; split; reflexivity|].
    split; [reflexivity|]. unfold after. cbn. now apply low_ok.
  Qed.

  Lemma m_beginGroup_spec s s' : m_beginGroup s = Ok s' ->
    still s s' /\ grouping s s' /\ ms_tokens s' = ms_tokens s /\ ms_modes s' = ms_modes s /\ ms_leave s' = ms_leave s.
  Proof.
    unfold m_beginGroup. cbn. destruct (ms_mem s) as [|m r] eqn:E; [discriminate|]. intros [= <-].
    split; [repeat split|]. split; [eapply gp_open; [exact E|reflexivity|reflexivity]|]. auto.
  Qed.
  Lemma m_endGroup_spec s s' : m_endGroup s = Ok s' ->
    still s s' /\ grouping s s' /\ ms_tokens s' = ms_tokens s /\ ms_modes s' = ms_modes s /\ ms_leave s' = ms_leave s.
  Proof.
    unfold m_endGroup. destruct (ms_mem s) as [|m r] eqn:E; [discriminate|]. intros H. inv_bind H.
    injection H as <-. split; [repeat split|]. split; [eapply gp_close; [exact E|reflexivity|exact E0]|]. auto.
  Qed.

  (** ** Horizontal mode *)
  Lemma h_output_spec s m r s' : tl (ms_modes s) = r -> low r -> h_output K s m = Ok s' ->
    exists r', s' = set_leave (set_modes s (MH m :: r')) true /\ low r' /\ List.length r' = List.length r.
  Proof.
    intros T L H. unfold h_output in H. rewrite T in H. destruct (h_routine m); [discriminate| |].
    - inv_bind H. injection H as <-. eexists. split; [reflexivity|]. eapply change_bottom_low; eauto.
    - destruct r as [|[| |] r]; try discriminate. injection H as <-. eexists. split; [reflexivity|].
      destruct L as [A B]. cbn. split; [|reflexivity]. split; [|exact B].
      unfold h_write_box. destruct (nonzero _); cbn; exact A.
  Qed.
  Lemma h_output_calm s m m0 r s' : ms_modes s = m0 :: r -> low r -> h_output K s m = Ok s' -> calm s s'.
  Proof.
    intros E L H. destruct (h_output_spec s m r s') as (r' & -> & L' & _); auto; [now rewrite E|].
    now apply calm_leave.
  Qed.

  (** [\hbox] makes a new mode, which needs the present one to be in its main state *)
  Lemma h_main_calm s m m0 r t s' : ms_modes s = m0 :: r -> low r -> ms_leave s = false ->
    h_state m = HMain -> h_main K s m t = Ok s' -> calm s s'.
  Proof.
    intros E L F HS H. unfold h_main in H. destruct t as [c k|n|z]; [| |discriminate].
    - assert (KEEP : forall m', calm s (set_cur s (MH m'))) by (intros; now apply (calm_keep _ _ _ E)).
      destruct k; try (injection H as <-; apply KEEP).
      + unfold h_beginGroup in H. apply m_beginGroup_spec in H as (A & B & C & D & G).
        cbn in D, G. rewrite E in D. cbn [tl] in D.
        split; [exact A|]. split; [eapply quiet_grouping; [|exact B]; split; reflexivity|]. split; [exact C|]. unfold after. rewrite G, F, D. exact L.
      + unfold h_endGroup in H. inv_bind H. rename x into s1.
        apply m_endGroup_spec in E0 as (A & B & C & D & G). cbn in D, G. rewrite E in D. cbn [tl] in D.
        destruct (_ && _)%bool.
        * destruct (h_output_spec s1 (with_depth m ((h_depth m - 1) mod size_mod)%Z) r s')
            as (r' & -> & L' & _); [now rewrite D|exact L|exact H|].
          split; [eapply still_trans; [exact A|repeat split]|].
          split; [eapply grouping_quiet; [eapply quiet_grouping; [|exact B]; split; reflexivity|split; reflexivity]|]. split; [exact C|].
          unfold after. cbn. now apply low_ok.
        * injection H as <-. split; [exact A|]. split; [eapply quiet_grouping; [|exact B]; split; reflexivity|]. split; [exact C|].
          unfold after. rewrite G, F, D. exact L.
      + inv_bind H. injection H as <-. apply KEEP.
      + inv_bind H. destruct x; [|injection H as <-; apply KEEP]. inv_bind H. injection H as <-. apply KEEP.
      + inv_bind H. destruct x; [|injection H as <-; apply KEEP]. inv_bind H. injection H as <-. apply KEEP.
    - destruct (cs_is n "par"); [eapply h_output_calm; eauto|].
      destruct (cs_is n "kern"). { inv_bind H. injection H as <-. now apply (calm_keep _ _ _ E). }
      destruct (cs_is n "hbox").
      { unfold enter_h in H. inv_bind H. cbn in H. injection H as <-.
        split; [repeat split|]. split; [apply gp_none; split; reflexivity|]. split; [reflexivity|].
        unfold after. cbn. rewrite F. cbn. rewrite E. cbn. auto. }
      destruct (cs_is n "lower"); [|discriminate]. injection H as <-. now apply (calm_keep _ _ _ E).
  Qed.

  Lemma calm_from s s0 s' m r : ms_modes s = m :: r -> still s s0 -> quiet s s0 -> ms_tokens s0 = ms_tokens s ->
    calm s0 s' -> calm s s'.
  Proof.
    intros E A B C (D & G & T & M). split; [eapply still_trans; eauto|].
    split; [eapply quiet_grouping; eauto|]. split; [congruence|exact M].
  Qed.

  Lemma h_write_calm s m r t s' : ms_modes s = MH m :: r -> low r -> ms_leave s = false ->
    h_state m <> HMathShift -> h_write K s m t = Ok s' -> calm s s'.
  Proof.
    intros E L F HS H. unfold h_write in H. destruct (h_state m) eqn:ES; [| |clear HS|clear HS].
    - eapply h_main_calm; eauto.
    - now contradict HS.
    - unfold h_kern in H. destruct t as [c q|n|z]; [| |discriminate].
      + inv_bind H. destruct (kp_done x); [|injection H as <-; now apply (calm_keep _ _ _ E)].
        inv_bind H. injection H as <-. now apply (calm_keep _ _ _ E).
      + inv_bind H. eapply (calm_from s); [exact E| | | |eapply h_main_calm; [| | | |exact H]].
        * repeat split.
        * split; reflexivity.
        * reflexivity.
        * unfold set_cur. cbn. rewrite E. reflexivity.
        * exact L.
        * exact F.
        * reflexivity.
    - unfold h_lowering in H. inv_bind H. clear E0.
      destruct (isControlSequence t || dp_isFinished x)%bool; [|injection H as <-; now apply (calm_keep _ _ _ E)].
      inv_bind H. destruct (isControlSequence t); [|injection H as <-; now apply (calm_keep _ _ _ E)].
      eapply (calm_from s); [exact E| | | |eapply h_main_calm; [| | | |exact H]].
      + repeat split.
      + split; reflexivity.
      + reflexivity.
      + unfold set_cur. cbn. rewrite E. reflexivity.
      + exact L.
      + exact F.
      + reflexivity.
  Qed.

  (** ** Math mode *)
  Lemma m_output_spec s st bu p r s' : tl (ms_modes s) = r -> low r -> m_output K s st bu p = Ok s' ->
    exists r', s' = set_leave (set_modes s (MM st bu p :: r')) true /\ low r' /\ List.length r' = List.length r.
  Proof.
    intros T L H. unfold m_output in H. rewrite T in H. destruct r as [|[vs b|h|] r]; try discriminate.
    - inv_bind H. injection H as <-. eexists. split; [reflexivity|]. cbn. destruct vs, r; cbn in L; tauto.
    - inv_bind H. injection H as <-. eexists. split; [reflexivity|]. cbn in *. tauto.
  Qed.
  Lemma m_finish_calm s st bu p m r s' : ms_modes s = m :: r -> low r -> m_finish K s st bu p = Ok s' -> calm s s'.
  Proof.
    intros E L H. unfold m_finish in H. inv_bind H.
    destruct (m_output_spec s st bu x r s') as (r' & -> & L' & _); auto; [now rewrite E|].
    now apply calm_leave.
  Qed.
  Lemma m_write_calm s st bu p r t s' : ms_modes s = MM st bu p :: r -> low r -> ms_leave s = false ->
    m_write K s st bu p t = Ok s' -> calm s s'.
  Proof.
    intros E L F H. unfold m_write in H. destruct st.
    - unfold m_main in H.
      assert (KEEP : forall st b p, calm s (set_cur s (MM st b p))) by (intros; now apply (calm_keep _ _ _ E)).
      destruct t as [c k|n|z]; [| |discriminate]; [|inv_bind H; injection H as <-; apply KEEP].
      destruct k; try (injection H as <-; apply KEEP);
        try (unfold m_call in H; inv_bind H; injection H as <-; apply KEEP).
      + inv_bind H. apply m_beginGroup_spec in E0 as (A & B & C & D & G). unfold m_call in H. inv_bind H.
        injection H as <-. split; [eapply still_trans; [exact A|repeat split]|].
        split; [eapply grouping_quiet; [eapply quiet_grouping; [|exact B]; split; reflexivity|split; reflexivity]|]. split; [exact C|].
        unfold after, set_cur. cbn. rewrite G, F, D, E. exact L.
      + inv_bind H. unfold m_call in E0. inv_bind E0. injection E0 as <-.
        apply m_endGroup_spec in H as (A & B & C & D & G). split; [exact A|]. split; [eapply quiet_grouping; [|exact B]; split; reflexivity|].
        split; [exact C|]. unfold after. rewrite G. unfold set_cur. cbn. rewrite F, D. unfold set_cur. cbn.
        rewrite E. exact L.
      + rewrite E in H. cbn [tl] in H. destruct r as [|q r]; [discriminate|].
        destruct (mode_kind q); try (injection H as <-; apply KEEP). eapply m_finish_calm; eauto.
      + inv_bind H. destruct x; [|injection H as <-; apply KEEP]. inv_bind H. injection H as <-. apply KEEP.
      + inv_bind H. destruct x; [|injection H as <-; apply KEEP]. inv_bind H. injection H as <-. apply KEEP.
    - destruct (mathshift t); [|discriminate]. eapply m_finish_calm; eauto.
  Qed.

  (** ** The loop [while (digestToken())] *)
  Definition done (s s' : machine) : Prop :=
    still s s' /\ grouping s s' /\ ms_tokens s' = [] /\ ms_leave s' = false /\ modes_ok (ms_modes s').
  Definition quick (k : nat) (s : machine) (P : machine -> Prop) : Prop :=
    forall n, k <= n -> digest K n s = digest K k s /\ (forall s', digest K n s = Ok s' -> P s') /\
      forall x, loop_or K x n s = digest K n s.

  Lemma quick_step k s P :
    (forall s1 b, digestToken K s = Ok (s1, b) -> if b then quick k s1 P else P s1) -> quick (Datatypes.S k) s P.
  Proof.
    intros H n L. destruct n as [|n]; [lia|]. cbn [digest loop_or].
    destruct (digestToken K s) as [[s1 b]| | | |] eqn:E; cbn; try (split; [reflexivity|split; [discriminate|reflexivity]]).
    specialize (H _ _ eq_refl). destruct b; [|split; [reflexivity|split; [now intros s' [= <-]|reflexivity]]].
    exact (H n ltac:(lia)).
  Qed.
  Lemma quick_more k k' s P : k <= k' -> quick k s P -> quick k' s P.
  Proof.
    intros L Q n M. destruct (Q n ltac:(lia)) as [A B]. destruct (Q k' L) as [C _]. split; [congruence|exact B].
  Qed.
  Lemma quick_impl k s (P Q : machine -> Prop) : (forall x, P x -> Q x) -> quick k s P -> quick k s Q.
  Proof. intros I H n L. destruct (H n L) as (A & B & C). split; [exact A|split; [auto|exact C]]. Qed.

  Ltac alike := repeat match goal with
    | |- alike ?s ?s => apply alike_refl
    | |- alike _ (set_tokens _ _) => apply alike_tokens
    | |- alike _ (set_modes _ _) => apply alike_modes
    | |- alike _ (set_leave _ _) => apply alike_leave
    | |- alike _ (insert _ _) => apply alike_insert
    | |- alike _ (m_enter _ _) => apply alike_enter
    | |- alike _ (enter_m _) => apply alike_enter_m
    | |- alike _ (set_cur _ _) => apply alike_cur
    end.
  Lemma done_alike s0 s s1 s' : alike s0 s -> alike s0 s1 -> done s1 s' -> done s s'.
  Proof.
    intros A B (C & D & E). destruct (alike_both _ _ _ A B) as [S Q].
    split; [eapply still_trans; eauto|]. split; [eapply quiet_grouping; eauto|exact E].
  Qed.
  Lemma done_from s s1 s' : still s s1 -> quiet s s1 -> done s1 s' -> done s s'.
  Proof.
    intros A B (C & D & E). split; [eapply still_trans; eauto|]. split; [eapply quiet_grouping; eauto|exact E].
  Qed.

  (** the last token, quietly *)
  Lemma quick_calm s t : ms_tokens s = [t] ->
    (forall s', mode_write K (set_tokens s []) t = Ok s' -> calm (set_tokens s []) s') -> quick 1 s (done s).
  Proof.
    intros T H. apply quick_step. intros s1 b D. rewrite (digestToken_cons _ _ _ T) in D. inv_bind D.
    injection D as <- <-. destruct (H _ E) as (A & B & C & M). destruct (after_fields x) as (A' & B' & C' & M').
    cbn in C. rewrite C', C. split; [eapply still_trans; [exact A|exact A']|].
    split; [|repeat split; auto; congruence].
    eapply grouping_quiet; [|exact B']. eapply quiet_grouping; [|exact B]. split; reflexivity.
  Qed.
  (** a token that leaves others to do *)
  Lemma quick_cons k s t r P : ms_tokens s = t :: r ->
    (forall x, mode_write K (set_tokens s r) t = Ok x -> ms_tokens (after x) <> [] /\ quick k (after x) P) ->
    quick (Datatypes.S k) s P.
  Proof.
    intros T H. apply quick_step. intros s1 b D. rewrite (digestToken_cons _ _ _ T) in D. inv_bind D.
    injection D as <- <-. destruct (H _ E) as [A B]. destruct (ms_tokens (after x)); [now contradict A|exact B].
  Qed.

  (** a dollar sign, twice *)
  Lemma mathshift_dollar t : mathshift t = true -> exists c, t = TChar c MathShift.
  Proof. destruct t as [c k|n|z]; cbn; try discriminate. destruct k; try discriminate. eauto. Qed.

  Lemma quick_dollars n : forall r s c c', List.length r = n -> ms_modes s = r -> low r -> ms_leave s = false ->
    ms_tokens s = [TChar c MathShift; TChar c' MathShift] ->
    quick (2 * n) s (done s).
  Proof.
    induction n as [|n IH]; intros r s c c' LEN E L F T; (destruct r as [|m r]; [destruct L|]); [discriminate|].
    injection LEN as LEN. destruct m as [st b|h|]; [| |destruct L].
    - destruct r; [|destruct st; destruct L]. destruct st; try now destruct L. cbn in LEN. subst n.
      change (2 * 1) with 2. apply (quick_cons 1 s _ _ _ T).
      intros x H. unfold mode_write in H. cbn in H. rewrite E in H. cbn in H. injection H as <-.
      set (x := after _). assert (X : x = set_cur (set_tokens s [TChar c' MathShift]) (MV VMathShift b)).
      { unfold x, after. cbn. now rewrite F. }
      split; [rewrite X; discriminate|].
      apply (quick_impl _ _ (done x)). { intros ?. apply done_from; rewrite X; repeat split. }
      apply (quick_calm x (TChar c' MathShift)); [now rewrite X|]. intros s' H. rewrite X in H |- *.
      unfold mode_write in H. cbn in H. injection H as <-.
      split; [repeat split|]. split; [apply gp_none; split; reflexivity|]. split; [reflexivity|].
      unfold after. cbn. rewrite F. cbn. rewrite E. cbn. exact I.
    - destruct L as [HS L].
      replace (2 * Datatypes.S n) with (Datatypes.S (Datatypes.S (2 * n))) by lia.
      apply (quick_cons _ s _ _ _ T). intros x H. unfold mode_write in H. cbn in H. rewrite E in H.
      unfold h_write in H. rewrite HS in H. cbn in H. injection H as <-.
      set (x := after _).
      assert (X : x = set_cur (set_tokens s [TChar c' MathShift]) (MH (with_hstate h HMathShift))).
      { unfold x, after. cbn. now rewrite F. }
      split; [rewrite X; discriminate|].
      apply (quick_cons _ x (TChar c' MathShift) []); [now rewrite X|]. intros y H.
      unfold mode_write in H. rewrite X in H. cbn in H. inv_bind H.
      eapply (h_output_spec _ _ r) in E0 as (r' & -> & L' & LEN'); [|cbn; now rewrite E|exact L].
      injection H as <-. set (y := after _).
      split; [discriminate|].
      apply (quick_impl _ _ (done y)). { intros ?. apply done_from; repeat split. }
      apply (IH r' y c' c'); try reflexivity; [congruence|exact L'].
  Qed.

  (** ** One token *)
  Lemma quick_one s t : ms_tokens s = [t] -> ms_leave s = false -> modes_ok (ms_modes s) ->
    quick (2 * List.length (ms_modes s) + 3) s (done s).
  Proof.
    intros T F M. destruct (ms_modes s) as [|m r] eqn:E; [destruct M|].
    destruct m as [st b|h|st bu p].
    - (* vertical *)
      destruct r; [|destruct M]. change (2 * List.length [MV st b] + 3) with 5.
      assert (KEEP : forall b st, calm (set_tokens s []) (set_cur (set_tokens s []) (MV st b))).
      { intros b0 st0. apply (calm_keep (set_tokens s []) (MV st b) []); auto. }
      destruct st.
      + destruct t as [c k|n|z].
        * destruct (mathshift (TChar c k)) eqn:D.
          { apply (quick_more 1); [lia|]. apply (quick_calm s _ T). intros s' H.
            unfold mode_write in H. cbn in H. rewrite E in H. cbn [v_write v_main] in H. rewrite D in H.
            injection H as <-. apply KEEP. }
          apply (quick_more 2); [lia|]. apply (quick_cons 1 s _ _ _ T). intros x H.
          unfold mode_write in H. cbn in H. rewrite E in H. cbn [v_write v_main] in H. rewrite D in H.
          inv_bind H. unfold enter_h in E0. inv_bind E0. cbn in E0. injection E0 as <-. injection H as <-.
          set (x := after _). split; [unfold x, after; cbn; rewrite F; discriminate|].
          apply (quick_impl _ _ (done x)).
          { intros ?. apply done_from; unfold x, after; cbn; rewrite F; repeat split. }
          apply (quick_calm x (TChar c k)); [unfold x, after; cbn; rewrite F; reflexivity|].
          intros s' H. unfold x, after in H |- *. cbn in H |- *. rewrite F in H |- *.
          eapply h_main_calm; [| | | |exact H]; cbn; try reflexivity; try (rewrite E; exact I). exact F.
        * apply (quick_more 1); [lia|]. apply (quick_calm s _ T). intros s' H.
          unfold mode_write in H. cbn in H. rewrite E in H. cbn [v_write v_main] in H.
          destruct (cs_is n "par"); [injection H as <-; apply KEEP|].
          destruct (cs_is n "kern"); [|discriminate]. inv_bind H. injection H as <-. apply KEEP.
        * apply (quick_more 2); [lia|]. apply (quick_cons 1 s _ _ _ T). intros x H.
          unfold mode_write in H. cbn in H. rewrite E in H. cbn in H.
          inv_bind H. unfold enter_h in E0. inv_bind E0. cbn in E0. injection E0 as <-. injection H as <-.
          set (x := after _). split; [unfold x, after; cbn; rewrite F; discriminate|].
          apply (quick_impl _ _ (done x)).
          { intros ?. apply done_from; unfold x, after; cbn; rewrite F; repeat split. }
          apply (quick_calm x (TParam z)); [unfold x, after; cbn; rewrite F; reflexivity|].
          intros s' H. unfold x, after in H. cbn in H. rewrite F in H. discriminate.
      + destruct (mathshift t) eqn:D.
        * apply (quick_more 1); [lia|]. apply (quick_calm s _ T). intros s' H.
          unfold mode_write in H. cbn in H. rewrite E in H. cbn [v_write] in H. unfold v_mathshift in H.
          rewrite D in H. injection H as <-.
          split; [repeat split|]. split; [apply gp_none; split; reflexivity|]. split; [reflexivity|].
          unfold after. cbn. rewrite F. cbn. rewrite E. cbn. exact I.
        * apply (quick_more 4); [lia|]. apply (quick_cons 3 s _ _ _ T). intros x H.
          unfold mode_write in H. cbn in H. rewrite E in H. cbn [v_write] in H. unfold v_mathshift in H.
          rewrite D in H. inv_bind H. unfold enter_h in E0, E1. inv_bind E0. cbn in E0. injection E0 as <-.
          inv_bind E1. cbn in E1. injection E1 as <-. injection H as <-.
          set (x := after _).
          match goal with x := after ?y |- _ => assert (X : x = y) by (unfold x, after; cbn; now rewrite F) end. clearbody x.
          split; [rewrite X; discriminate|].
          apply (quick_impl _ _ (done x)). { intros ?. apply done_from; rewrite X; repeat split. }
          apply (quick_cons 2 x the_dollar [t]); [now rewrite X|]. intros y H.
          rewrite X in H. unfold mode_write in H. cbn in H. injection H as <-.
          set (y := after _).
          match goal with y := after ?z |- _ => assert (Y : y = z) by (unfold y, after; cbn; now rewrite F) end. clearbody y.
          split; [rewrite Y; discriminate|].
          apply (quick_impl _ _ (done y)). { intros ?. apply (done_alike s); rewrite ?Y, ?X; alike. }
          apply (quick_cons 1 y t []); [now rewrite Y|]. intros z H.
          rewrite Y in H. unfold mode_write in H. cbn in H. unfold h_mathshift in H. rewrite D in H.
          injection H as <-. set (z := after _).
          match goal with z := after ?w |- _ => assert (Z : z = w) by (unfold z, after; cbn; now rewrite F) end. clearbody z.
          split; [rewrite Z; discriminate|].
          apply (quick_impl _ _ (done z)). { intros ?. apply (done_alike s); rewrite ?Z, ?Y; alike. }
          apply (quick_calm z t); [now rewrite Z|]. intros s' H. rewrite Z in H |- *.
          eapply m_write_calm; [| | |exact H]; cbn; try reflexivity; [|exact F]. rewrite E. cbn. auto.
      + apply (quick_more 1); [lia|]. apply (quick_calm s _ T). intros s' H.
        unfold mode_write in H. cbn in H. rewrite E in H. cbn [v_write] in H. unfold v_kern in H.
        destruct t as [c q|n|z]; [| |discriminate].
        * inv_bind H. destruct (kp_done x); [|injection H as <-; apply KEEP]. inv_bind H. injection H as <-. apply KEEP.
        * inv_bind H. cbn [v_main] in H. destruct (cs_is n "par"); [injection H as <-; apply KEEP|].
          destruct (cs_is n "kern"); [|discriminate]. inv_bind H. injection H as <-. apply KEEP.
    - (* horizontal *)
      cbn [modes_ok] in M. cbn [List.length].
      assert (W : mode_write K (set_tokens s []) t = h_write K (set_tokens s []) h t).
      { unfold mode_write. cbn. now rewrite E. }
      destruct (h_state h) eqn:HS.
      1,3,4: apply (quick_more 1); [lia|]; apply (quick_calm s _ T); intros s' H; rewrite W in H;
        eapply h_write_calm; [exact E|exact M|exact F| |exact H]; congruence.
      destruct (mathshift t) eqn:D.
      + apply (quick_more (Datatypes.S (2 * List.length r))); [lia|]. apply (quick_cons _ s _ _ _ T). intros x H.
        rewrite W in H. unfold h_write in H. rewrite HS in H. unfold h_mathshift in H. rewrite D in H. inv_bind H.
        eapply (h_output_spec _ _ r) in E0 as (r' & -> & L' & LEN); [|cbn; now rewrite E|exact M].
        injection H as <-. set (y := after _). split; [discriminate|]. rewrite <- LEN.
        apply (quick_impl _ _ (done y)). { intros ?. apply done_from; repeat split. }
        apply mathshift_dollar in D as [c ->]. apply (quick_dollars _ r' y c c); try reflexivity. exact L'.
      + apply (quick_more 2); [lia|]. apply (quick_cons 1 s _ _ _ T). intros x H. rewrite W in H.
        unfold h_write in H. rewrite HS in H. unfold h_mathshift in H. rewrite D in H. injection H as <-.
        set (x := after _).
        match goal with x := after ?y |- _ => assert (X : x = y) by (unfold x, after; cbn; now rewrite F) end.
        split; [rewrite X; discriminate|].
        apply (quick_impl _ _ (done x)). { intros ?. apply done_from; rewrite X; repeat split. }
        apply (quick_calm x t); [now rewrite X|]. intros s' H. rewrite X in H |- *.
        eapply m_write_calm; [| | |exact H]; cbn; try reflexivity; [|exact F]. rewrite E. cbn. auto.
    - (* math *)
      cbn [modes_ok] in M. apply (quick_more 1); [cbn; lia|]. apply (quick_calm s _ T). intros s' H.
      unfold mode_write in H. cbn in H. rewrite E in H. eapply m_write_calm; [exact E|exact M|exact F|exact H].
  Qed.
End Machine.
