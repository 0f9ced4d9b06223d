(** Invariants of the steps of the typesetting machine. *)
From Coq Require Import List Ascii String ZArith Bool Arith Lia.
From Verif.Base Require Import Result Num.
From Verif.Model Require Import Unicode Token Lexer Macro Dimen DimenParser Glue Box
  ListBuilders LineBreaks MathList MathParser MathTypeset MathFrontend PageEditor Preprocessor.
From Verif.Spec Require Import PageEditorSpec.
From Verif.Proofs Require Import MacroExpand PageMachine.
Import ListNotations.
Local Open Scope nat_scope.

Section Run.
  Context {N : Num}.
  Variable K : host N.
  Notation machine := (machine N).
  Notation mode := (mode N).

  Definition same_below {A} (l l' : list A) : Prop := tl l' = tl l /\ List.length l' = List.length l.
  Lemma same_below_refl {A} (l : list A) : same_below l l. Proof. now split. Qed.

  Inductive stacks (s s' : machine) : Prop :=
  | sk_same : same_below (ms_mem s) (ms_mem s') -> same_below (p_defs (ms_pre s)) (p_defs (ms_pre s')) -> stacks s s'
  | sk_open m r sc : ms_mem s = m :: r -> ms_mem s' = m :: m :: r -> sc_macros sc = [] ->
      p_defs (ms_pre s') = sc :: p_defs (ms_pre s) -> stacks s s'
  | sk_close m r sc d : ms_mem s = m :: r -> ms_mem s' = r ->
      p_defs (ms_pre s) = sc :: d -> p_defs (ms_pre s') = d -> stacks s s'.

  Lemma grouping_stacks s s' : grouping s s' -> stacks s s'.
  Proof.
    intros [[A B]|m r A B C|m r A B C].
    - apply sk_same; [rewrite A|rewrite B]; apply same_below_refl.
    - eapply sk_open; [exact A|exact B| |rewrite C; reflexivity]. reflexivity.
    - unfold endGroup in C. destruct (p_defs (ms_pre s)) as [|sc d] eqn:E; [discriminate|]. injection C as C.
      eapply sk_close; [exact A|exact B|exact E|now rewrite <- C].
  Qed.
  Lemma defs_below s s' : defs_step s s' -> same_below (p_defs s) (p_defs s').
  Proof.
    intros D. apply defs_step_ids in D as (_ & A & B). split; [exact B|].
    apply (f_equal (@List.length _)) in A. now rewrite !map_length in A.
  Qed.

  (** ** The state between two steps *)
  Definition idle_pre (s : machine) : Prop := p_output (ms_pre s) = [] /\ p_input (ms_pre s) = [].
  Definition invariant (s : machine) : Prop :=
    modes_ok (ms_modes s) /\ ms_leave s = false /\ List.length (ms_mem s) = List.length (p_defs (ms_pre s)) /\
    Forall no_param (ms_tokens s) /\ Forall no_param (p_output (ms_pre s)) /\
    match ms_state s with
    | SendToken => ms_tokens s = [] /\ List.length (p_output (ms_pre s)) <= 1
    | DigestToken => List.length (ms_tokens s) <= 1 /\ p_output (ms_pre s) = []
    | Preprocess => ms_tokens s = [] /\ p_output (ms_pre s) = []
    | ReadChar | ReadToken => ms_tokens s = [] /\ idle_pre s
    | Idle => ms_tokens s = [] /\ idle_pre s /\ exists st b, ms_modes s = [MV st b]
    end.

  Lemma stacks_length s s' : stacks s s' -> List.length (ms_mem s) = List.length (p_defs (ms_pre s)) ->
    List.length (ms_mem s') = List.length (p_defs (ms_pre s')).
  Proof.
    intros [[_ A] [_ B]|m r sc A B C D|m r sc d A B C D] L.
    - congruence.
    - rewrite B, D. rewrite A in L. cbn in *. lia.
    - rewrite B, D. rewrite A, C in L. cbn in *. lia.
  Qed.

  (** ** Assignments *)
  Definition untouched (s s' : machine) : Prop :=
    ms_in s' = ms_in s /\ ms_lex s' = ms_lex s /\ ms_pre s' = ms_pre s /\ ms_tokens s' = ms_tokens s /\
    ms_modes s' = ms_modes s /\ ms_leave s' = ms_leave s /\ ms_state s' = ms_state s.
  Lemma untouched_trans a b c : untouched a b -> untouched b c -> untouched a c.
  Proof. unfold untouched. intuition congruence. Qed.
  Lemma below_trans {A} (a b c : list A) : same_below a b -> same_below b c -> same_below a c.
  Proof. unfold same_below. intuition congruence. Qed.
  Lemma change_mem_spec s f s' : change_mem s f = Ok s' ->
    untouched s s' /\ same_below (ms_mem s) (ms_mem s') /\ ms_as s' = ms_as s.
  Proof.
    unfold change_mem. destruct (ms_mem s) as [|m r] eqn:E; [discriminate|]. intros [= <-].
    repeat split; cbn.
  Qed.
  Lemma as_main_spec s t s' o : as_main K s t = Ok (s', o) ->
    untouched s s' /\ same_below (ms_mem s) (ms_mem s') /\ (o = [] \/ o = [t]).
  Proof.
    unfold as_main. intros H. destruct t as [c k|n|z]; try (injection H as <- <-; repeat split; auto).
    destruct (cs_is n "parshape"). { inv_bind H. injection H as <- <-. repeat split; auto. }
    destruct (cs_is n "font"). { injection H as <- <-. repeat split; auto. }
    destruct (find_font n (ms_fonts s)); [|injection H as <- <-; repeat split; auto].
    inv_bind H. injection H as <- <-. apply change_mem_spec in E as (A & B & _). auto.
  Qed.
  Lemma as_write_spec s t s' o : as_write K s t = Ok (s', o) ->
    untouched s s' /\ same_below (ms_mem s) (ms_mem s') /\ (o = [] \/ o = [t]).
  Proof.
    unfold as_write. intros H. destruct (ms_as s) as [|us p|f].
    - now apply as_main_spec.
    - unfold as_parshape in H. inv_bind H. clear E. destruct (_ || _)%bool.
      + inv_bind H. apply change_mem_spec in E0 as (A & B & _).
        destruct (isControlSequence t).
        * apply as_main_spec in H as (C & D & F).
          split; [eapply untouched_trans; [exact A|exact C]|]. split; [eapply below_trans; [exact B|exact D]|exact F].
        * injection H as <- <-. auto.
      + injection H as <- <-. repeat split; auto.
    - unfold as_font in H. inv_bind H. clear E. destruct (fp_isFinished x).
      + inv_bind H. injection H as <- <-. repeat split; auto.
      + injection H as <- <-. repeat split; auto.
  Qed.

  (** ** The end of the input *)
  Lemma mode_finish_spec s m r s' : ms_modes s = m :: r -> r <> [] -> modes_ok (m :: r) -> mode_finish K s = Ok s' ->
    still s s' /\ quiet s s' /\ ms_tokens s' = ms_tokens s /\
    exists m' r', ms_modes s' = m' :: r' /\ low r' /\ List.length r' = List.length r.
  Proof.
    intros E NE M H. unfold mode_finish in H. rewrite E in H. destruct m as [st b|h|st bu p].
    - destruct r; [now contradict NE|destruct M].
    - eapply (h_output_spec K _ _ r) in H as (r' & -> & L & LEN); [|now rewrite E|exact M].
      split; [repeat split|]. split; [repeat split|]. split; [reflexivity|]. cbn. eauto.
    - unfold m_finish in H. inv_bind H.
      eapply (m_output_spec K _ _ _ _ r) in H as (r' & -> & L & LEN); [|now rewrite E|exact M].
      split; [repeat split|]. split; [repeat split|]. split; [reflexivity|]. cbn. eauto.
  Qed.
  Lemma finish_modes_spec n : forall s s', List.length (ms_modes s) = Datatypes.S n -> modes_ok (ms_modes s) ->
    ms_leave s = false -> finish_modes K n s = Ok s' ->
    still s s' /\ quiet s s' /\ ms_tokens s' = ms_tokens s /\ ms_leave s' = false /\
    exists st b, ms_modes s' = [MV st b].
  Proof.
    induction n as [|n IH]; intros s s' LEN M F H; cbn [finish_modes] in H.
    - destruct (ms_modes s) as [|m r] eqn:E; [discriminate|]. destruct r; [|discriminate].
      destruct m; cbn in M; try now destruct M. unfold mode_finish in H. rewrite E in H. injection H as <-.
      split; [repeat split|]. split; [repeat split|]. eauto 6.
    - inv_bind H. destruct (ms_modes s) as [|m r] eqn:E'; [discriminate|]. injection LEN as LEN.
      destruct (mode_finish_spec s m r x E') as (A & B & C & m' & r' & D & L & LEN'); auto.
      { intros ->. discriminate. }
      rewrite D in H. cbn [tl] in H.
      apply IH in H as (A' & B' & C' & D'); [| | |reflexivity].
      + split; [eapply still_trans; [exact A|exact A']|]. split; [eapply quiet_trans; [exact B|exact B']|].
        cbn in C'. split; [congruence|exact D'].
      + cbn. congruence.
      + cbn. now apply low_ok.
  Qed.

  (** ** One step *)
  Lemma digest_ok s s' : modes_ok (ms_modes s) -> ms_leave s = false -> List.length (ms_tokens s) <= 1 ->
    digest K (digest_fuel s) s = Ok s' -> done s s'.
  Proof.
    intros M F L H. destruct (ms_tokens s) as [|t r] eqn:T.
    - assert (digest_fuel s = Datatypes.S (3 * List.length (ms_modes s) + 5)) as X by (unfold digest_fuel; lia).
      rewrite X in H. cbn [digest] in H. unfold digestToken in H. rewrite T in H. cbn in H. injection H as <-.
      repeat split; auto. apply gp_none. now split.
    - destruct r; [|cbn in L; lia]. eapply (quick_one K s t T F M (digest_fuel s)); [unfold digest_fuel; lia|exact H].
  Qed.

  Lemma emits_nil s s' : p_output s = [] -> emits s s' -> List.length (p_output s') <= 1 /\ Forall no_param (p_output s').
  Proof. intros E [->|(t & -> & P)]; rewrite E; cbn; [auto|]. split; [lia|auto]. Qed.

  Lemma step_invariant s s' : invariant s -> m_advance K s = Ok s' -> invariant s' /\ stacks s s'.
  Proof.
    intros (M & F & LEN & NT & NO & ST) H. unfold m_advance in H.
    destruct (ms_state s) eqn:ES.
    - injection H as <-. split; [|apply sk_same; apply same_below_refl].
      unfold invariant. rewrite ES. auto 10.
    - (* ReadChar *)
      destruct ST as (T & O & I).
      destruct (atEnd (ms_in s)).
      + inv_bind H. injection H as <-.
        apply finish_modes_spec in E as (A & [B1 B2] & C & D & st & b & G); auto.
        2:{ destruct (ms_modes s); [destruct M|cbn; lia]. }
        split; [|apply sk_same; cbn; rewrite ?B1, ?B2; apply same_below_refl].
        unfold invariant, idle_pre. cbn. rewrite G, B1, B2, C, T. cbn. rewrite T in NT. eauto 15.
      + inv_bind H. destruct (write DefaultCatCodes (ms_lex (set_in s (snd x))) (fst x)) as [l [e|]]; [discriminate|].
        injection H as <-. split; [|apply sk_same; apply same_below_refl].
        unfold invariant, idle_pre. cbn. destruct (l_out l); auto 10.
    - (* ReadToken *)
      destruct ST as (T & O & I).
      destruct (l_out (ms_lex s)) as [|t r].
      + injection H as <-. split; [|apply sk_same; apply same_below_refl].
        unfold invariant, idle_pre. cbn. auto 10.
      + inv_bind H. injection H as <-. cbn in E. pose proof (pwrite_defs _ _ _ E) as D. apply defs_below in D.
        unfold pwrite in E. rewrite I in E. apply process_output in E. apply emits_nil in E as [E1 E2]; [|exact O].
        split.
        * unfold invariant. cbn. repeat split; auto. destruct D as [_ D]. congruence.
        * apply sk_same; cbn; [apply same_below_refl|exact D].
    - (* Preprocess *)
      destruct ST as (T & O). inv_bind H. injection H as <-.
      pose proof (advance_defs _ _ E) as D. apply defs_below in D.
      assert (G : List.length (p_output x) <= 1 /\ Forall no_param (p_output x)).
      { unfold Preprocessor.advance in E. destruct (p_input (ms_pre s)).
        - injection E as <-. rewrite O. cbn. auto.
        - apply process_output in E. apply (emits_nil _ _ O E). }
      destruct G as [G1 G2]. split.
      + unfold invariant. cbn. split; [exact M|]. split; [exact F|]. split; [destruct D; congruence|].
        split; [exact NT|]. split; [exact G2|].
        destruct (p_output x) as [|o os] eqn:EO.
        * destruct (p_input x) eqn:EI; cbn; [|auto]. unfold idle_pre. cbn. auto.
        * auto.
      + apply sk_same; cbn; [apply same_below_refl|exact D].
    - (* SendToken *)
      destruct ST as (T & O). inv_bind H. injection H as <-. unfold sendToken in E.
      destruct (p_output (ms_pre s)) as [|t r] eqn:EO.
      + injection E as <-. split; [|apply sk_same; apply same_below_refl].
        unfold invariant. cbn. rewrite EO, T. cbn. repeat split; auto.
      + destruct r; [|cbn in O; lia]. inv_bind E. destruct x0 as [s1 o]. cbn in E. injection E as <-.
        apply as_write_spec in E0 as ((U1 & U2 & U3 & U4 & U5 & U6 & U7) & B & C). cbn in *.
        split.
        * unfold invariant. cbn. rewrite U3, U4, U5, U6, T. cbn.
          inversion NO as [|? ? P1 P2]; subst.
          split; [exact M|]. split; [exact F|]. split; [destruct B; congruence|].
          destruct C as [->| ->]; cbn; auto 10.
        * apply sk_same; cbn; [exact B|]. rewrite U3. apply same_below_refl.
    - (* DigestToken *)
      destruct ST as (T & O). inv_bind H. injection H as <-. apply digest_ok in E as (A & B & C & D & G); auto.
      pose proof (grouping_stacks _ _ B) as SK.
      assert (PO : p_output (ms_pre x) = []).
      { destruct B as [[_ B]|? ? _ _ B|? ? _ _ B].
        - now rewrite B.
        - rewrite B. exact O.
        - unfold endGroup in B. destruct (p_defs (ms_pre s)); [discriminate|]. injection B as B. now rewrite <- B. }
      split.
      + unfold invariant. cbn. rewrite C, PO. repeat split; auto.
        * eapply stacks_length; eauto.
        * destruct (p_input (ms_pre x)) eqn:EI; cbn; auto. unfold idle_pre. cbn. auto.
      + destruct SK as [X Y|? ? ? X Y Z W|? ? ? ? X Y Z W]; [apply sk_same|eapply sk_open|eapply sk_close]; cbn; eauto.
  Qed.

  (** ** Reachable states *)
  Lemma foldM_define_output l : forall p p', foldM define l p = Ok p' ->
    p_output p' = p_output p /\ p_input p' = p_input p /\ List.length (p_defs p') = List.length (p_defs p).
  Proof.
    induction l as [|m l IH]; intros p p' H; cbn [foldM] in H; [now injection H as <-|].
    inv_bind H. apply IH in H as (A & B & C). unfold define in E. destruct (p_defs p) eqn:ED; [discriminate|].
    injection E as <-. cbn in *. auto.
  Qed.
  Lemma new_invariant f h s : machine_new K f h = Ok s -> invariant s.
  Proof.
    unfold machine_new. intros H. apply bind_Ok in H as (ms & _ & H). apply bind_Ok in H as (p & E & H).
    apply foldM_define_output in E as (A & B & C). cbn in *. injection H as <-.
    unfold invariant, idle_pre. cbn. rewrite A, B, C. cbn. eauto 15.
  Qed.
  Lemma start_invariant s text : invariant s -> ms_state s = Idle -> invariant (start s text).
  Proof.
    intros (M & F & LEN & NT & NO & ST) ES. rewrite ES in ST. destruct ST as (T & [I1 I2] & _).
    unfold invariant, idle_pre. cbn. auto 10.
  Qed.
  Lemma reached_invariant s : reached K s -> invariant s.
  Proof.
    induction 1; [eapply new_invariant; eauto|now apply start_invariant|].
    eapply step_invariant; eauto.
  Qed.

  (** ** Groups *)
  Definition above {A} (base l : list A) : Prop := exists p, p <> [] /\ l = p ++ base.
  Lemma above_below {A} (base l l' : list A) : above base l -> same_below l l' -> above base l'.
  Proof.
    intros (p & NE & ->) [T L]. destruct p as [|x p]; [now contradict NE|]. destruct l' as [|y l']; [discriminate|].
    cbn in T. subst l'. exists (y :: p). now split.
  Qed.
  Lemma run_invariant s tr s' : run K s tr s' -> invariant s -> invariant s' /\ Forall invariant tr.
  Proof.
    induction 1; intros I; [auto|]. destruct (step_invariant _ _ I H) as [I1 _].
    destruct (IHrun I1) as [A B]. auto.
  Qed.
  Definition within (s0 s : machine) : Prop :=
    above (ms_mem s0) (ms_mem s) /\ above (p_defs (ms_pre s0)) (p_defs (ms_pre s)).

  Lemma run_group s0 (B : List.length (ms_mem s0) = List.length (p_defs (ms_pre s0))) :
    forall inside s s', run K s (inside ++ [s']) s' -> invariant s -> within s0 s ->
    Forall (fun x => depth s0 < depth x) inside -> depth s' = depth s0 -> same_settings s0 s'.
  Proof.
    assert (STEP : forall s s', invariant s -> m_advance K s = Ok s' -> within s0 s ->
              (depth s0 < depth s' /\ within s0 s') \/
              (depth s' = depth s0 /\ same_settings s0 s')).
    { intros s s' I H [W1 W2]. pose proof I as (_ & _ & LEN & _).
      destruct (step_invariant _ _ I H) as [_ [X Y|m r sc X Y _ Z|m r sc d X Y Z U]].
      - left. pose proof (above_below _ _ _ W1 X) as V1. pose proof (above_below _ _ _ W2 Y) as V2.
        split; [|now split]. destruct V1 as (p & NE & E). unfold depth. rewrite E, app_length.
        destruct p; [now contradict NE|cbn; lia].
      - left. assert (V1 : above (ms_mem s0) (ms_mem s')).
        { destruct W1 as (p & NE & E). exists (m :: p). split; [easy|]. rewrite Y. rewrite X in E. cbn. now rewrite <- E. }
        assert (V2 : above (p_defs (ms_pre s0)) (p_defs (ms_pre s'))).
        { destruct W2 as (p & NE & E). exists (sc :: p). split; [easy|]. rewrite Z. cbn. now rewrite <- E. }
        split; [|now split]. destruct V1 as (p & NE & E). unfold depth. rewrite E, app_length.
        destruct p; [now contradict NE|cbn; lia].
      - destruct W1 as (p & NE & E). destruct W2 as (q & NE' & E'). rewrite E, E' in LEN. rewrite !app_length in LEN.
        rewrite X in E. rewrite Z in E'. destruct p as [|p0 p]; [now contradict NE|].
        destruct q as [|q0 q]; [now contradict NE'|]. cbn in E, E', LEN. injection E as _ E. injection E' as _ E'.
        destruct p as [|p1 p].
        + right. destruct q; [|cbn in LEN; lia]. cbn in E, E'. unfold depth, same_settings.
          rewrite Y, U. repeat split; congruence.
        + destruct q as [|q1 q]; [cbn in LEN; lia|]. left. rewrite <- Y in E. rewrite <- U in E'.
          split; [unfold depth; rewrite E; cbn; rewrite app_length; lia|].
          split; [exists (p1 :: p)|exists (q1 :: q)]; (split; [easy|congruence]). }
    induction inside as [|x inside IH]; intros s s' R I W FA D; inversion R; subst.
    - inversion H4; subst. destruct (STEP _ _ I H2 W) as [[L _]|[_ S1]]; [lia|exact S1].
    - inversion FA; subst. destruct (STEP _ _ I H2 W) as [[_ W']|[S1 _]]; [|lia].
      destruct (step_invariant _ _ I H2) as [I' _]. eapply IH; eauto.
  Qed.

  Lemma group_restores s inside s' : reached K s -> group K s inside s' -> same_settings s s'.
  Proof.
    intros R (G & NE & FA & D). pose proof (reached_invariant _ R) as I. pose proof I as (_ & _ & LEN & _).
    destruct inside as [|x inside]; [now contradict NE|]. inversion G; subst. inversion FA; subst.
    destruct (step_invariant _ _ I H2) as [I' ST].
    eapply (run_group s LEN inside x s'); eauto.
    destruct ST as [[_ X] _|m r sc X Y _ Z|m r sc d X Y _ _].
    - unfold depth in H1. lia.
    - split; [exists [m]|exists [sc]]; (split; [easy|]); [rewrite Y, X|rewrite Z]; reflexivity.
    - unfold depth in H1. rewrite X, Y in H1. cbn in H1. lia.
  Qed.
End Run.
