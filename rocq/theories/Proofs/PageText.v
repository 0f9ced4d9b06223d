(** From a text to the page. *)
From Coq Require Import List Ascii String ZArith Bool Arith Lia.
From Verif.Base Require Import Result Num.
From Verif.Model Require Import Unicode Token Lexer Macro Dimen DimenParser Glue Box
  ListBuilders LineBreaks MathList MathParser MathTypeset MathFrontend PageEditor Preprocessor.
From Verif.Spec Require Import LexerSpec UnicodeSpec PageEditorSpec PageTextSpec.
From Verif.Proofs Require Import LexerProofs UnicodeProofs PageStream PageMachine PageRun PageFrame PageFindings PageDeliver PageQuiet.
Import ListNotations.
Local Open Scope nat_scope.

(** ** Bytes *)
Lemma utf8_bytes c s : utf8 c s -> bytes s.
Proof. intros H. inversion H; subst; repeat constructor; lia. Qed.
Lemma shape_prefix a b c c' : utf8_shape a c' -> utf8 c (a ++ b) -> b = [].
Proof.
  intros A U. remember (a ++ b) as s eqn:E. destruct b as [|x b]; [reflexivity|exfalso].
  destruct A; cbn [app] in E; destruct U; pose proof (f_equal (hd 0%Z) E); pose proof (f_equal (@List.length Z) E);
    cbn [hd List.length] in *; lia.
Qed.
Lemma bytes_app a b : bytes (a ++ b) -> bytes a.
Proof. intros H. apply Forall_app in H. tauto. Qed.
Lemma prefix_not_char c a b : utf8 c (a ++ b) -> a <> [] -> b <> [] -> is_utf8_char a = Ok false.
Proof.
  intros U NA NB. destruct (validate_never_ub a NA) as [o E].
  destruct (is_utf8_char a) as [[|]| | | |] eqn:I; try reflexivity; unfold is_utf8_char in I; rewrite E in I; try discriminate.
  exfalso. assert (S : exists c', utf8_shape a c').
  { apply is_utf8_char_shape; [eapply bytes_app, utf8_bytes; eauto|]. unfold is_utf8_char. rewrite E. exact I. }
  destruct S as [c' S]. apply NB. eapply shape_prefix; eauto.
Qed.
Lemma whole_char c s : utf8 c s -> is_utf8_char s = Ok true.
Proof.
  intros U. apply is_utf8_char_shape; [eapply utf8_bytes; eauto|]. exists c. now apply utf8_is_shape.
Qed.

Section Text.
  Context {N : Num}.
  Variable K : host N.
  Hypothesis zero : nonzero (n0 : N) = false.
  Notation machine := (machine N).
  Notation hmode := (hmode N).

  (** ** A machine between two tokens *)
  Definition idle_p (p : Preprocessor.pstate) : Prop :=
    p_input p = [] /\ p_output p = [] /\ (exists f, p_frames p = FIdle :: f) /\
    find_ptr (str "par") (p_defs p) = None /\ find_ptr (str "hbox") (p_defs p) = None.
  Definition ready (me : memory N) (s : machine) : Prop :=
    ms_as s = AMain /\ ms_fonts s = [] /\ ms_tokens s = [] /\ ms_leave s = false /\
    (exists r, ms_mem s = me :: r) /\ idle_p (ms_pre s).
  Definition passes (t : token) : Prop :=
    match t with TChar _ _ => True | TCs n => n = str "par" \/ n = str "hbox" | TParam _ => False end.

  Lemma tok_pass me s t : ready me s -> passes t -> tok_step K s t = digest K (digest_fuel s) (set_tokens s [t]).
  Proof.
    intros (A & B & C & D & _ & (I & O & (f & F) & P1 & P2)) PT.
    assert (W : pwrite (ms_pre s) t = Ok (set_output (ms_pre s) [t])).
    { unfold pwrite. rewrite I. unfold process. rewrite F, O. destruct t as [c k|n|z]; [reflexivity| |destruct PT].
      destruct PT as [->| ->]; unfold processControlSeq; cbn [name_eqb]; rewrite ?P1, ?P2; rewrite ?O; reflexivity. }
    assert (AM : forall u, ms_as u = AMain -> ms_fonts u = [] -> as_write K u t = Ok (u, [t])).
    { intros u A' B'. unfold as_write. rewrite A'. unfold as_main. destruct t as [c k|n|z]; try reflexivity.
      destruct PT as [->| ->]; rewrite B'; reflexivity. }
    unfold tok_step. rewrite W. cbn [bind]. unfold sendToken. cbn [ms_pre set_pre].
    change (p_output (set_output (ms_pre s) [t])) with [t]. cbn iota.
    rewrite AM by (cbn; auto). cbn [bind fst snd].
    assert (E : forall s0 : machine, ms_pre s0 = ms_pre s -> p_output (ms_pre s0) = [] ->
      set_pre (set_pre s0 (set_output (ms_pre s0) [t])) (set_output (set_output (ms_pre s0) [t]) []) = s0).
    { intros [] E' O'. cbn in O'. destruct ms_pre. cbn in O'. subst. reflexivity. }
    rewrite E by auto. rewrite C. reflexivity.
  Qed.

  Lemma digest_one n s t x : mode_write K (set_tokens s []) t = Ok x -> ms_tokens x = [] ->
    digest K (Datatypes.S n) (set_tokens s [t]) = Ok (after x).
  Proof.
    intros W T. cbn [digest]. rewrite (digestToken_cons K (set_tokens s [t]) t [] eq_refl).
    change (set_tokens (set_tokens s [t]) []) with (set_tokens s []). rewrite W. cbn [bind].
    assert (T' : ms_tokens (after x) = []) by (unfold after; now destruct (ms_leave x)). rewrite T'. reflexivity.
  Qed.
  Lemma fuel_S (s : machine) : exists n, digest_fuel s = Datatypes.S (Datatypes.S n).
  Proof. exists (3 * List.length (ms_modes s) + 4). unfold digest_fuel. lia. Qed.

  (** a token of the horizontal mode *)
  Lemma tok_h me s m r t x : ready me s -> passes t -> ms_modes s = MH m :: r -> h_state m = HMain ->
    h_main K s m t = Ok x -> ms_tokens x = [] -> tok_step K s t = Ok (after x).
  Proof.
    intros R P M H W T. rewrite (tok_pass me) by assumption. destruct (fuel_S s) as [n ->].
    apply digest_one; [|exact T]. unfold mode_write. change (ms_modes (set_tokens s [])) with (ms_modes s). rewrite M.
    unfold h_write. rewrite H. assert (E : set_tokens s [] = s) by (destruct R as (_ & _ & C & _); destruct s; cbn in *; now subst).
    rewrite E. exact W.
  Qed.

  (** ** Horizontal mode *)
  Definition at_h (me : memory N) (s : machine) (m : hmode) (r : list (mode N)) : Prop :=
    ready me s /\ ms_modes s = MH m :: r /\ h_state m = HMain /\ h_lower m = n0.
  Definition grows (m m' : hmode) (l : list (node N)) : Prop :=
    h_restricted m' = h_restricted m /\ h_state m' = h_state m /\ h_lower m' = h_lower m /\ h_buffer m' = [] /\
    h_depth m' = h_depth m /\ h_routine m' = h_routine m /\ hb_result (h_list m') = hb_result (h_list m) ++ l.
  (** the stacks are as before *)
  Definition unchanged (s s' : machine) : Prop := ms_mem s' = ms_mem s /\ p_defs (ms_pre s') = p_defs (ms_pre s).
  Definition leads (me : memory N) (s : machine) (ts : list token) (m : hmode) (r : list (mode N)) (l : list (node N)) : Prop :=
    exists s' m', foldM (tok_step K) ts s = Ok s' /\ quiet_on K ts s /\ at_h me s' m' r /\ grows m m' l /\ unchanged s s'.

  Lemma quiet_join a b s : quiet_on K a s -> (forall s', foldM (tok_step K) a s = Ok s' -> quiet_on K b s') -> quiet_on K (a ++ b) s.
  Proof.
    revert s. induction a as [|t a IH]; intros s Q H.
    - apply (H s). reflexivity.
    - intros x y u E F. destruct x as [|t' x].
      + apply (Q [] (t :: a) u eq_refl F).
      + cbn [app] in E. injection E as <- E. cbn [foldM] in F. apply bind_Ok in F as (s1 & S1 & F).
        assert (F1 : foldM (tok_step K) [t] s = Ok s1) by (cbn [foldM]; rewrite S1; reflexivity).
        apply (IH s1) with (a := x) (b := y) (u' := u); [|intros s' F'; apply H; cbn [foldM]; rewrite S1; exact F'|exact E|exact F].
        exact (quiet_app K [t] a s s1 Q F1).
  Qed.
  Lemma quiet_nil s : p_input (ms_pre s) = [] -> quiet_on K [] s.
  Proof. intros E a b u H F. destruct a; [|discriminate]. cbn in F. injection F as <-. exact E. Qed.
  Lemma quiet_one s t : p_input (ms_pre s) = [] -> (forall s', tok_step K s t = Ok s' -> p_input (ms_pre s') = []) ->
    quiet_on K [t] s.
  Proof.
    intros E H a b u A F. destruct a as [|x a]; [cbn in F; now injection F as <-|].
    cbn [app] in A. injection A as <- A. destruct a; [|discriminate]. cbn [foldM] in F.
    apply bind_Ok in F as (s1 & S1 & F). cbn in F. injection F as <-. now apply H.
  Qed.
  Lemma ready_input me s : ready me s -> p_input (ms_pre s) = []. Proof. intros (_ & _ & _ & _ & _ & (I & _)). exact I. Qed.

  Lemma leads_app me s ts ts' m r l l' :
    leads me s ts m r l ->
    (forall s' m', at_h me s' m' r -> grows m m' l -> unchanged s s' -> leads me s' ts' m' r l') ->
    leads me s (ts ++ ts') m r (l ++ l').
  Proof.
    intros (s1 & m1 & F1 & Q1 & A1 & G1 & U1) H. destruct (H s1 m1 A1 G1 U1) as (s2 & m2 & F2 & Q2 & A2 & G2 & U2).
    exists s2, m2. rewrite foldM_app, F1. split; [exact F2|]. split.
    { apply quiet_join; [exact Q1|]. intros s' E. rewrite F1 in E. injection E as <-. exact Q2. }
    split; [exact A2|]. split.
    - unfold grows in *. destruct G1 as (? & ? & ? & ? & ? & ? & E1), G2 as (? & ? & ? & ? & ? & ? & E2).
      rewrite E2, E1, app_assoc. intuition congruence.
    - unfold unchanged in *. intuition congruence.
  Qed.
  (** one token that keeps the mode *)
  Lemma leads_one me s t m r m' s' l : at_h me s m r -> tok_step K s t = Ok s' -> at_h me s' m' r -> grows m m' l ->
    unchanged s s' -> leads me s [t] m r l.
  Proof.
    intros (R & _) E A G U. exists s', m'. cbn [foldM]. rewrite E. split; [reflexivity|]. split; [|auto].
    apply quiet_one; [apply (ready_input me), R|]. intros u E'. rewrite E in E'. injection E' as <-.
    destruct A as (R' & _). apply (ready_input me), R'.
  Qed.

  Lemma after_keep (s : machine) : ms_leave s = false -> after s = s.
  Proof. intros E. unfold after. now rewrite E. Qed.

  (** a character *)
  Definition decodable (c : Z) : Prop := k_debug K = false \/ k_signed K = false \/ (c < 65536)%Z.
  Lemma ready_cur me s m : ready me s -> ready me (set_cur s m). Proof. exact (fun H => H). Qed.

  Lemma with_buffer_same (m : hmode) : with_buffer m (h_buffer m) = m. Proof. now destruct m. Qed.
  Lemma glyph_run me r c : decodable c -> forall b a ts s m, utf8 c (a ++ b) -> b <> [] -> Forall2 byte_token b ts ->
    at_h me s m r -> h_buffer m = a ->
    leads me s ts m r [NChar c (hm_char (k_font K (me_font me)) c)].
  Proof.
    intros D. induction b as [|x b IH]; intros a ts s m U NB F AT BU; [congruence|]. clear NB.
    inversion F as [|? t ? ts' BT F']; subst. destruct BT as (ch & k & -> & KK & BY).
    destruct AT as (R & M & H & LO).
    destruct b as [|y b].
    - (* the last byte *)
      destruct ts'; [|inversion F']. clear F' F IH.
      assert (W : h_main K s m (TChar ch k) = Ok (set_cur s (MH (with_hlist (with_buffer m [])
                                   (hb_push_char (k_font K (me_font me)) (h_list m) c))))).
      { assert (DC : decode_char (k_debug K) (k_signed K) (h_buffer m ++ [byte ch]) = Ok (c, [])).
        { rewrite <- (app_nil_r (h_buffer m ++ _)). unfold byte. rewrite BY.
          apply decode_shape; [|now apply utf8_is_shape].
          destruct D as [D|[D|D]]; [now left|right; now left|right; right; eapply utf8_short; eauto]. }
        assert (IU : is_utf8_char (h_buffer m ++ [byte ch]) = Ok true) by (unfold byte; rewrite BY; eapply whole_char; eauto).
        destruct R as (_ & _ & _ & _ & (q & ME) & _).
        destruct KK as [->| ->]; unfold h_main; rewrite IU; cbn [bind]; rewrite DC; cbn [bind]; unfold mem; rewrite ME; reflexivity. }
      set (m' := with_hlist _ _) in W.
      apply (leads_one me s _ m r m' (set_cur s (MH m'))).
      + repeat split; assumption || apply R.
      + rewrite (tok_h me s m r (TChar ch k) _ R Logic.I M H W) by apply R. now rewrite after_keep by apply R.
      + split; [exact R|]. cbn. rewrite M. auto.
      + repeat split; reflexivity.
      + split; reflexivity.
    - (* not the last byte *)
      assert (NC : is_utf8_char (h_buffer m ++ [byte ch]) = Ok false).
      { unfold byte. rewrite BY. apply (prefix_not_char c _ (y :: b)); [now rewrite <- app_assoc| |discriminate].
        now destruct (h_buffer m). }
      set (m1 := with_buffer m (h_buffer m ++ [byte ch])).
      assert (W : h_main K s m (TChar ch k) = Ok (set_cur s (MH m1))).
      { destruct KK as [->| ->]; unfold h_main; rewrite NC; reflexivity. }
      assert (ST : tok_step K s (TChar ch k) = Ok (set_cur s (MH m1))).
      { rewrite (tok_h me s m r (TChar ch k) _ R Logic.I M H W) by apply R. now rewrite after_keep by apply R. }
      assert (A1 : at_h me (set_cur s (MH m1)) m1 r) by (split; [exact R|]; cbn; rewrite M; auto).
      destruct (IH (h_buffer m ++ [x]) ts' (set_cur s (MH m1)) m1) as (s' & m' & F1 & Q1 & A2 & G1 & U1);
        [now rewrite <- app_assoc|discriminate|exact F'|exact A1|unfold m1; cbn; unfold byte; now rewrite BY|].
      exists s', m'. cbn [foldM]. rewrite ST. cbn [bind]. split; [exact F1|]. split; [|split; [exact A2|split; [|exact U1]]].
      + apply (quiet_join [TChar ch k] ts').
        * apply quiet_one; [apply (ready_input me), R|]. intros u E. rewrite ST in E. injection E as <-. apply (ready_input me), R.
        * intros u E. cbn [foldM] in E. rewrite ST in E. cbn in E. injection E as <-. exact Q1.
      + exact G1.
  Qed.

  (** braces *)
  Lemma open_brace me s m r a : at_h me s m r ->
    exists s', tok_step K s (TChar a GroupBegin) = Ok s' /\
      at_h me s' (with_depth m ((h_depth m + 1) mod size_mod)) r /\ ms_mem s' = me :: ms_mem s /\
      exists sc, p_defs (ms_pre s') = sc :: p_defs (ms_pre s).
  Proof.
    intros (R & M & H & LO). pose proof R as (RA & RF & RT & RL & (q & ME) & (I1 & I2 & (f & I3) & I4 & I5)).
    set (m1 := with_depth m _).
    set (s' := set_mem (set_pre (set_cur s (MH m1)) (beginGroup (ms_pre s))) (me :: me :: q)).
    assert (W : h_main K s m (TChar a GroupBegin) = Ok s').
    { unfold h_main, h_beginGroup, m_beginGroup. cbn [ms_mem set_cur set_modes set_pre]. rewrite ME. reflexivity. }
    exists s'. rewrite (tok_h me s m r (TChar a GroupBegin) _ R Logic.I M H W) by exact RT. rewrite after_keep by exact RL.
    split; [reflexivity|]. split; [|split; [now cbn; rewrite ME|eexists; reflexivity]].
    split; [|cbn; rewrite M; auto]. repeat split; cbn; eauto.
  Qed.
  Lemma close_brace me s m r b sc d mr : at_h me s m r -> ms_mem s = me :: me :: mr -> p_defs (ms_pre s) = sc :: d ->
    find_ptr (str "par") d = None -> find_ptr (str "hbox") d = None ->
    (h_restricted m = true -> ((h_depth m - 1) mod size_mod <> 0)%Z) ->
    exists s', tok_step K s (TChar b GroupEnd) = Ok s' /\
      at_h me s' (with_depth m ((h_depth m - 1) mod size_mod)) r /\ ms_mem s' = me :: mr /\
      p_defs (ms_pre s') = d.
  Proof.
    intros (R & M & H & LO) ME PD F1 F2 RE.
    pose proof R as (RA & RF & RT & RL & _ & (I1 & I2 & (f & I3) & I4 & I5)).
    set (m1 := with_depth m ((h_depth m - 1) mod size_mod)).
    set (s' := set_pre (set_mem (set_cur s (MH m1)) (me :: mr)) (set_defs (ms_pre s) d)).
    assert (W : h_main K s m (TChar b GroupEnd) = Ok s').
    { unfold h_main, h_endGroup, m_endGroup. cbn [ms_mem set_cur set_modes set_pre ms_pre]. rewrite ME.
      unfold endGroup. rewrite PD. cbn [bind].
      assert (X : (h_restricted (with_depth m ((h_depth m - 1) mod size_mod)) &&
                  (h_depth (with_depth m ((h_depth m - 1) mod size_mod)) =? 0)%Z)%bool = false).
      { cbn -[Z.modulo size_mod]. destruct (h_restricted m); [|reflexivity]. cbn -[Z.modulo size_mod]. now apply Z.eqb_neq, RE. }
      rewrite X. reflexivity. }
    exists s'. rewrite (tok_h me s m r (TChar b GroupEnd) _ R Logic.I M H W) by exact RT. rewrite after_keep by exact RL.
    split; [reflexivity|]. split; [|split; reflexivity].
    split; [|cbn -[Z.modulo size_mod]; rewrite M; auto]. unfold s'. repeat split; cbn -[Z.modulo size_mod]; eauto.
  Qed.
  (** the brace that ends a box *)
  Lemma close_box me s m p r b sc d mr : at_h me s m (MH p :: r) -> h_routine m = RParent ->
    h_restricted m = true -> h_depth m = 1%Z -> h_state p = HMain -> h_lower p = n0 -> h_buffer p = [] ->
    ms_mem s = me :: me :: mr -> p_defs (ms_pre s) = sc :: d ->
    find_ptr (str "par") d = None -> find_ptr (str "hbox") d = None ->
    exists s' p', tok_step K s (TChar b GroupEnd) = Ok s' /\ at_h me s' p' r /\
      grows p p' [node_of Horizontal (hbox (hb_result (h_list m)))] /\ ms_mem s' = me :: mr /\ p_defs (ms_pre s') = d.
  Proof.
    intros (R & M & H & LO) RO RE DE PS PL PB ME PD F1 F2.
    pose proof R as (RA & RF & RT & RL & _ & (I1 & I2 & (f & I3) & I4 & I5)).
    set (m1 := with_depth m ((h_depth m - 1) mod size_mod)).
    set (p' := h_write_box p (hbox (hb_result (h_list m)))).
    set (s1 := set_pre (set_mem (set_cur s (MH m1)) (me :: mr)) (set_defs (ms_pre s) d)).
    set (s2 := set_leave (set_modes s1 (MH m1 :: MH p' :: r)) true).
    assert (W : h_main K s m (TChar b GroupEnd) = Ok s2).
    { unfold h_main, h_endGroup, m_endGroup. cbn [ms_mem set_cur set_modes set_pre ms_pre]. rewrite ME.
      unfold endGroup. rewrite PD. cbn [bind].
      assert (X : (h_restricted (with_depth m ((h_depth m - 1) mod size_mod)) &&
                  (h_depth (with_depth m ((h_depth m - 1) mod size_mod)) =? 0)%Z)%bool = true).
      { cbn -[Z.modulo size_mod]. rewrite RE, DE. reflexivity. }
      rewrite X. unfold h_output. change (h_routine (with_depth m ((h_depth m - 1) mod size_mod))) with (h_routine m). rewrite RO.
      match goal with |- context [tl (ms_modes ?x)] => change (tl (ms_modes x)) with (tl (ms_modes s)) end.
      rewrite M. reflexivity. }
    exists (after s2), p'. rewrite (tok_h me s m _ (TChar b GroupEnd) _ R Logic.I M H W) by exact RT.
    split; [reflexivity|]. unfold after. change (ms_leave s2) with true. cbn iota.
    split; [|split; [|split; reflexivity]].
    - split; [|split; [reflexivity|]].
      + unfold s2, s1. repeat split; cbn -[Z.modulo size_mod]; eauto.
      + unfold p', h_write_box. rewrite PL, zero. cbn. auto.
    - unfold p', h_write_box. rewrite PL, zero. repeat split; cbn; auto.
  Qed.

  (** ** The contents of a paragraph *)
  Lemma run_braces me s m r a ts b l :
    at_h me s m r -> h_buffer m = [] -> (0 <= h_depth m < size_mod)%Z -> (h_restricted m = true -> (0 < h_depth m)%Z) ->
    (forall s' m', at_h me s' m' r -> h_buffer m' = [] -> h_restricted m' = h_restricted m ->
       h_depth m' = ((h_depth m + 1) mod size_mod)%Z -> hb_result (h_list m') = hb_result (h_list m) ->
       leads me s' ts m' r l) ->
    leads me s (TChar a GroupBegin :: ts ++ [TChar b GroupEnd]) m r l.
  Proof.
    intros A B D RE H. destruct (open_brace me s m r a A) as (s1 & E1 & A1 & M1 & sc & P1).
    set (m1 := with_depth m ((h_depth m + 1) mod size_mod)) in *.
    destruct (H s1 m1 A1 B eq_refl eq_refl eq_refl) as (s2 & m2 & F2 & Q2 & A2 & G2 & U2).
    destruct U2 as (U2 & V2). rewrite M1 in U2. rewrite P1 in V2.
    pose proof A as (R & M & HS & LO). pose proof R as (_ & _ & _ & _ & (mr & ME) & (_ & _ & _ & FP & FH)).
    rewrite ME in U2.
    assert (DD : ((h_depth m2 - 1) mod size_mod = h_depth m)%Z).
    { destruct G2 as (_ & _ & _ & _ & -> & _). unfold m1. cbn [h_depth with_depth].
      rewrite Zminus_mod_idemp_l. replace (h_depth m + 1 - 1)%Z with (h_depth m) by lia. apply Z.mod_small. lia. }
    destruct (close_brace me s2 m2 r b sc (p_defs (ms_pre s)) mr A2 U2 V2 FP FH) as (s3 & E3 & A3 & M3 & P3).
    { intros X. rewrite DD. destruct G2 as (Y & _). rewrite X in Y. specialize (RE (eq_sym Y)). lia. }
    exists s3, (with_depth m2 ((h_depth m2 - 1) mod size_mod)).
    cbn [foldM]. rewrite E1. cbn [bind]. rewrite foldM_app, F2. cbn [bind foldM]. rewrite E3. cbn [bind].
    split; [reflexivity|]. split; [|split; [exact A3|split]].
    - apply (quiet_join [TChar a GroupBegin]).
      + apply quiet_one; [apply (ready_input me), R|]. intros u E. rewrite E1 in E. injection E as <-. apply (ready_input me), A1.
      + intros u E. cbn [foldM] in E. rewrite E1 in E. cbn in E. injection E as <-.
        apply quiet_join; [exact Q2|]. intros u E. rewrite F2 in E. injection E as <-.
        apply quiet_one; [apply (ready_input me), A2|]. intros u E. rewrite E3 in E. injection E as <-. apply (ready_input me), A3.
    - rewrite DD. destruct G2 as (G1 & G2 & G3 & G4 & G5 & G6 & G7). repeat split; cbn; assumption || auto.
    - split; [now rewrite M3, ME|exact P3].
  Qed.

  Lemma run_boxed me s m r a ts b l :
    at_h me s m r -> h_buffer m = [] ->
    (forall s' m', at_h me s' m' (MH m :: r) -> h_buffer m' = [] -> h_restricted m' = true ->
       h_depth m' = 1%Z -> hb_result (h_list m') = [] ->
       leads me s' ts m' (MH m :: r) l) ->
    leads me s (TCs (str "hbox") :: TChar a GroupBegin :: ts ++ [TChar b GroupEnd]) m r [node_of Horizontal (hbox l)].
  Proof.
    intros A B H. pose proof A as (R & M & HS & LO). pose proof R as (RA & RF & RT & RL & (mr & ME) & (I1 & I2 & I3 & FP & FH)).
    set (m0 := mkHMode true HMain [] n0 hbuilder_new 0 RParent : hmode).
    set (s0 := m_enter (set_cur s (MH m)) (MH m0)).
    assert (W : h_main K s m (TCs (str "hbox")) = Ok s0).
    { unfold h_main. change (enter_h (set_cur s (MH m)) RParent = Ok s0). unfold enter_h, mem.
      change (ms_mem (set_cur s (MH m))) with (ms_mem s). rewrite ME. reflexivity. }
    assert (E0 : tok_step K s (TCs (str "hbox")) = Ok s0).
    { rewrite (tok_h me s m r (TCs (str "hbox")) _ R (or_intror eq_refl) M HS W) by exact RT. now rewrite after_keep by exact RL. }
    assert (A0 : at_h me s0 m0 (MH m :: r)).
    { split; [exact R|]. split; [|auto]. unfold s0. cbn. now rewrite M. }
    destruct (open_brace me s0 m0 _ a A0) as (s1 & E1 & A1 & M1 & sc & P1).
    set (m1 := with_depth m0 ((h_depth m0 + 1) mod size_mod)) in *.
    destruct (H s1 m1 A1 eq_refl eq_refl eq_refl eq_refl) as (s2 & m2 & F2 & Q2 & A2 & G2 & U2).
    destruct U2 as (U2 & V2). rewrite M1 in U2. rewrite P1 in V2.
    change (ms_mem s0) with (ms_mem s) in U2. change (p_defs (ms_pre s0)) with (p_defs (ms_pre s)) in V2. rewrite ME in U2.
    destruct G2 as (G1 & G2 & G3 & G4 & G5 & G6 & G7).
    destruct (close_box me s2 m2 m r b sc (p_defs (ms_pre s)) mr A2 G6 G1 G5 HS LO B U2 V2 FP FH) as (s3 & p' & E3 & A3 & G & M3 & P3).
    rewrite G7 in G. change (hb_result (h_list m1)) with (@nil (node N)) in G. cbn [app] in G.
    exists s3, p'.
    cbn [foldM]. rewrite E0. cbn [bind]. rewrite E1. cbn [bind]. rewrite foldM_app, F2. cbn [bind foldM]. rewrite E3. cbn [bind].
    split; [reflexivity|]. split; [|split; [exact A3|split; [exact G|]]].
    - apply (quiet_join [TCs (str "hbox")]).
      { apply quiet_one; [exact I1|]. intros u E. rewrite E0 in E. injection E as <-. exact I1. }
      intros u E. cbn [foldM] in E. rewrite E0 in E. cbn [bind] in E. injection E as <-.
      apply (quiet_join [TChar a GroupBegin]).
      + apply quiet_one; [exact I1|]. intros u E. rewrite E1 in E. injection E as <-. apply (ready_input me), A1.
      + intros u E. cbn [foldM] in E. rewrite E1 in E. cbn [bind] in E. injection E as <-.
        apply quiet_join; [exact Q2|]. intros u E. rewrite F2 in E. injection E as <-.
        apply quiet_one; [apply (ready_input me), A2|]. intros u E. rewrite E3 in E. injection E as <-. apply (ready_input me), A3.
    - split; [now rewrite M3, ME|exact P3].
  Qed.

  Scheme spells_mut := Minimality for spells Sort Prop
  with spells_all_mut := Minimality for spells_all Sort Prop.
  Definition item_ok (l : list (node N)) (n : Z) (g : Prop) (me : memory N) (ts : list token) : Prop :=
    forall s m r, at_h me s m r -> h_buffer m = [] -> g -> (0 <= h_depth m)%Z -> (h_depth m + n < size_mod)%Z ->
      (h_restricted m = true -> (0 < h_depth m)%Z) -> leads me s ts m r l.
  Lemma nesting_nonneg l : (0 <= nesting_all l)%Z.
  Proof. unfold nesting_all. induction l; cbn; lia. Qed.
  Lemma items_run me l ts : spells_all l ts ->
    item_ok (nodes_all (k_font K (me_font me)) l) (nesting_all l) (glyphs_all decodable l) me ts.
  Proof.
    revert l ts. apply (spells_all_mut
      (fun i ts => item_ok (nodes (k_font K (me_font me)) i) (nesting i) (glyphs decodable i) me ts)
      (fun l ts => item_ok (nodes_all (k_font K (me_font me)) l) (nesting_all l) (glyphs_all decodable l) me ts)).
    - intros c bs ts U F s m r A B G _ _ _. apply (glyph_run me r c G bs [] ts s m); auto.
      intros ->. inversion U.
    - intros a s m r A B _ _ _ _. pose proof A as (R & M & HS & LO).
      pose proof R as (RA & RF & RT & RL & (mr & ME) & _).
      set (m' := with_hlist m (hb_push_glue (h_list m)
                  (glue_make (hm_space (k_font K (me_font me))) (hm_shrink (k_font K (me_font me))) Normal
                             (hm_stretch (k_font K (me_font me))) Normal))).
      assert (W : h_main K s m (TChar a Space) = Ok (set_cur s (MH m'))).
      { unfold h_main, mem. rewrite ME. reflexivity. }
      apply (leads_one me s _ m r m' (set_cur s (MH m')) _ A).
      + rewrite (tok_h me s m r (TChar a Space) _ R Logic.I M HS W) by exact RT. now rewrite after_keep by exact RL.
      + split; [exact R|]. cbn. rewrite M. auto.
      + unfold m'. repeat split; cbn; auto.
      + split; reflexivity.
    - intros a l ts b S IH s m r A B G D0 D1 RE. cbn [nesting] in D1. pose proof (nesting_nonneg l). fold (nesting_all l) in D1.
      apply run_braces; auto; [lia|]. intros s' m' A' B' R' D' L'.
      rewrite Z.mod_small in D' by lia. apply IH; auto; try lia. all: intros; lia.
    - intros a l ts b S IH s m r A B G D0 D1 RE. cbn [nesting] in D1. pose proof (nesting_nonneg l). fold (nesting_all l) in D1.
      apply run_boxed; auto. intros s' m' A' B' R' D' L'. apply IH; auto; try lia. all: intros; lia.
    - intros s m r A B _ _ _ _. exists s, m. split; [reflexivity|]. split; [apply quiet_nil, (ready_input me), A|].
      split; [exact A|]. split; [|split; reflexivity]. repeat split; auto. cbn. now rewrite app_nil_r.
    - intros i l ts ts' S1 IH1 S2 IH2 s m r A B (G1 & G2) D0 D1 RE.
      change (nesting_all (i :: l)) with (Z.max (nesting i) (nesting_all l)) in D1.
      apply leads_app; [apply IH1; auto; lia|]. intros s' m' A' G U.
      destruct G as (X1 & X2 & X3 & X4 & X5 & X6 & X7).
      apply IH2; auto; rewrite ?X1, ?X5; auto; lia.
  Qed.

  (** ** Paragraphs *)
  Definition at_v (me : memory N) (s : machine) (b : vbuilder N) : Prop := ready me s /\ ms_modes s = [MV VMain b].
  Definition begun : hmode := mkHMode false HMain [] n0 hbuilder_new 0 RVertical.

  Lemma h_main_char_tokens s m c k x : h_main K s m (TChar c k) = Ok x -> h_routine m = RVertical -> h_restricted m = false ->
    ms_tokens x = ms_tokens s.
  Proof.
    intros E RO RE. unfold h_main in E. destruct k.
    all: try (injection E as <-; reflexivity).
    - unfold h_beginGroup, m_beginGroup in E.
      match type of E with match ?x with _ => _ end = _ => destruct x end; [discriminate|]. injection E as <-. reflexivity.
    - unfold h_endGroup, m_endGroup in E. apply bind_Ok in E as (y & E1 & E2).
      change (h_restricted (with_depth m ((h_depth m - 1) mod size_mod))) with (h_restricted m) in E2. rewrite RE in E2.
      cbn [andb] in E2. injection E2 as <-.
      match type of E1 with match ?x with _ => _ end = _ => destruct x end; [discriminate|].
      apply bind_Ok in E1 as (z & _ & E1). injection E1 as <-. reflexivity.
    - apply bind_Ok in E as (y & _ & E). injection E as <-. reflexivity.
    - apply bind_Ok in E as (y & _ & E). destruct y; [|injection E as <-; reflexivity].
      apply bind_Ok in E as (y & _ & E). apply bind_Ok in E as (z & _ & E). injection E as <-. reflexivity.
    - apply bind_Ok in E as (y & _ & E). destruct y; [|injection E as <-; reflexivity].
      apply bind_Ok in E as (y & _ & E). apply bind_Ok in E as (z & _ & E). injection E as <-. reflexivity.
  Qed.

  (** the first token of a paragraph *)
  Lemma tok_begin me s b c k u : at_v me s b -> k <> MathShift ->
    tok_step K (m_enter s (MH begun)) (TChar c k) = Ok u -> tok_step K s (TChar c k) = Ok u.
  Proof.
    intros (R & M) KM E. set (s1 := m_enter s (MH begun)) in *.
    assert (R1 : ready me s1) by exact R.
    pose proof R as (RA & RF & RT & RL & (mr & ME) & _).
    rewrite (tok_pass me s1 (TChar c k) R1 Logic.I) in E. rewrite (tok_pass me s (TChar c k) R Logic.I).
    destruct (fuel_S s1) as [n1 F1]. rewrite F1 in E. destruct (fuel_S s) as [n F]. rewrite F.
    assert (X : exists x, h_main K (set_tokens s1 []) begun (TChar c k) = Ok x /\ u = after x).
    { cbn [digest] in E. rewrite (digestToken_cons K (set_tokens s1 [TChar c k]) (TChar c k) [] eq_refl) in E.
      change (set_tokens (set_tokens s1 [TChar c k]) []) with (set_tokens s1 []) in E.
      change (mode_write K (set_tokens s1 []) (TChar c k)) with (h_main K (set_tokens s1 []) begun (TChar c k)) in E.
      destruct (h_main K (set_tokens s1 []) begun (TChar c k)) as [x| | | |] eqn:W; try discriminate. exists x. split; [reflexivity|].
      cbn [bind snd fst] in E.
      assert (T : ms_tokens (after x) = []).
      { unfold after. pose proof (h_main_char_tokens _ _ _ _ _ W eq_refl eq_refl) as T. cbn in T.
        destruct (ms_leave x); exact T. }
      rewrite T in E. now injection E as <-. }
    destruct X as (x & W & ->).
    assert (T : ms_tokens x = []) by exact (h_main_char_tokens _ _ _ _ _ W eq_refl eq_refl).
    cbn [digest]. rewrite (digestToken_cons K (set_tokens s [TChar c k]) (TChar c k) [] eq_refl).
    change (set_tokens (set_tokens s [TChar c k]) []) with (set_tokens s []).
    assert (V : mode_write K (set_tokens s []) (TChar c k) = Ok (set_tokens s1 [TChar c k])).
    { unfold mode_write. change (ms_modes (set_tokens s [])) with (ms_modes s). rewrite M. unfold v_write, v_main.
      assert (X : mathshift (TChar c k) = false) by (destruct k; try reflexivity; congruence). rewrite X.
      unfold enter_h, mem. change (ms_mem (set_cur (set_tokens s []) (MV VMain b))) with (ms_mem s). rewrite ME. cbn [bind].
      unfold set_cur. change (ms_modes (set_tokens s [])) with (ms_modes s). rewrite M. cbn [tl].
      unfold s1, begun, m_enter, insert. cbn. rewrite M. reflexivity. }
    rewrite V. cbn [bind snd fst].
    assert (AF : after (set_tokens s1 [TChar c k]) = set_tokens s1 [TChar c k]) by (apply after_keep; exact RL).
    rewrite AF. cbn [ms_tokens set_tokens snd fst].
    change (digest K (Datatypes.S n) (set_tokens s1 [TChar c k]) = Ok (after x)). apply digest_one; [exact W|exact T].
  Qed.

  Lemma first_token l ts : paragraph_of l ts -> exists c k ts', ts = TChar c k :: ts' /\ k <> MathShift.
  Proof.
    intros (S & NE). inversion S as [|i l' ts1 ts2 S1 S2]; subst; [destruct NE|].
    inversion S1 as [c bs ts U F|a|a l1 ts b S3|a l1 ts b S3]; subst; try (cbn; do 3 eexists; split; [reflexivity|discriminate]).
    - inversion U; subst; inversion F as [|? t ? ? (ch & kk & -> & KK & _) F']; subst; cbn; do 3 eexists;
        (split; [reflexivity|destruct KK; subst; discriminate]).
    - destruct NE.
  Qed.

  (** the contents of a paragraph, from the vertical mode *)
  Lemma para_run me s b l ts : at_v me s b -> paragraph_of l ts -> glyphs_all decodable l -> (nesting_all l < size_mod)%Z ->
    exists s' m', foldM (tok_step K) ts s = Ok s' /\ quiet_on K ts s /\ at_h me s' m' [MV VMain b] /\
      h_routine m' = RVertical /\ hb_result (h_list m') = nodes_all (k_font K (me_font me)) l.
  Proof.
    intros A P G NE. pose proof A as (R & M). set (s1 := m_enter s (MH begun)).
    assert (A1 : at_h me s1 begun [MV VMain b]).
    { split; [exact R|]. split; [|split; reflexivity]. unfold s1. cbn. now rewrite M. }
    destruct (items_run me l ts (proj1 P) s1 begun _ A1 eq_refl G) as (s2 & m2 & F2 & Q2 & A2 & G2 & U2);
      [cbn; lia|cbn [h_depth begun]; lia|discriminate|].
    destruct (first_token l ts P) as (c & k & ts' & -> & KM). pose proof F2 as F2'. cbn [foldM] in F2.
    apply bind_Ok in F2 as (u & E1 & F2). pose proof (tok_begin me s b c k u A KM E1) as E.
    exists s2, m2. cbn [foldM]. rewrite E. cbn [bind]. split; [exact F2|].
    assert (Qu : quiet_on K ts' u).
    { refine (quiet_app K [TChar c k] ts' s1 u Q2 _). cbn [foldM]. rewrite E1. reflexivity. }
    split; [|split; [exact A2|]].
    - apply (quiet_join [TChar c k] ts').
      + apply quiet_one; [apply (ready_input me), R|]. intros v Ev. rewrite E in Ev. injection Ev as <-.
        apply (Qu [] ts' u eq_refl eq_refl).
      + intros v Ev. cbn [foldM] in Ev. rewrite E in Ev. cbn [bind] in Ev. injection Ev as <-. exact Qu.
    - destruct G2 as (_ & _ & _ & _ & _ & G6 & G7). split; [exact G6|]. rewrite G7. reflexivity.
  Qed.

  (** the end of a paragraph *)
  Lemma output_vertical me s m b : at_h me s m [MV VMain b] -> h_routine m = RVertical ->
    h_output K s m = do b' <- add_paragraph K me b (hb_result (h_list m));
                     Ok (set_leave (set_modes s [MH m; MV VMain b']) true).
  Proof.
    intros (R & M & _) RO. unfold h_output. rewrite RO. pose proof R as (_ & _ & _ & _ & (mr & ME) & _).
    unfold mem. rewrite ME. cbn [bind]. rewrite M. cbn [tl change_bottom].
    destruct (add_paragraph K me b (hb_result (h_list m))); reflexivity.
  Qed.
  Lemma tok_par_h me s m b : at_h me s m [MV VMain b] -> h_routine m = RVertical ->
    tok_step K s par = do b' <- add_paragraph K me b (hb_result (h_list m)); Ok (set_leave (set_modes s [MV VMain b']) false).
  Proof.
    intros A RO. pose proof A as (R & M & HS & _). change par with (TCs (str "par")).
    assert (PP : passes (TCs (str "par"))) by (left; reflexivity).
    assert (W : h_main K s m (TCs (str "par")) = h_output K s m) by reflexivity.
    rewrite (output_vertical me s m b A RO) in W.
    destruct (add_paragraph K me b (hb_result (h_list m))) as [b'| | | |]; cbn [bind] in *.
    { rewrite (tok_h me s m _ (TCs (str "par")) _ R PP M HS W) by apply R. reflexivity. }
    all: rewrite (tok_pass me) by assumption; destruct (fuel_S s) as [n ->]; cbn [digest];
      rewrite (digestToken_cons K (set_tokens s [TCs (str "par")]) (TCs (str "par")) [] eq_refl);
      change (set_tokens (set_tokens s [TCs (str "par")]) []) with (set_tokens s []);
      unfold mode_write; change (ms_modes (set_tokens s [])) with (ms_modes s); rewrite M; unfold h_write; rewrite HS;
      assert (E : set_tokens s [] = s) by (destruct R as (_ & _ & C & _); destruct s; cbn in *; now subst);
      rewrite E, W; reflexivity.
  Qed.
  Lemma tok_par_v me s b : at_v me s b -> tok_step K s par = Ok (set_modes s [MV VMain b]).
  Proof.
    intros (R & M). change par with (TCs (str "par")). rewrite (tok_pass me) by (assumption || (left; reflexivity)).
    destruct (fuel_S s) as [n ->].
    assert (E : set_tokens s [] = s) by (destruct R as (_ & _ & C & _); destruct s; cbn in *; now subst).
    rewrite (digest_one _ s _ (set_modes s [MV VMain b])); [| |apply R].
    - rewrite after_keep by apply R. reflexivity.
    - rewrite E. unfold mode_write. rewrite M. unfold v_write, v_main. cbn [cs_is].
      change (cs_is (str "par") "par") with true. cbn iota. unfold set_cur. rewrite M. reflexivity.
  Qed.

  (** ** Documents *)
  Lemma document_run me ps ts : document ps ts -> Forall (glyphs_all decodable) ps -> Forall (fun l => (nesting_all l < size_mod)%Z) ps ->
    forall s b, at_v me s b ->
    quiet_on K ts s /\ page_of_tokens K ts s = do b' <- page K me ps b; Ok (vbox (vb_result b')).
  Proof.
    unfold page. induction 1 as [|ps ts D IH|l ts P|l ts ps ts' P D IH]; intros G NE s b A.
    - pose proof A as (R & M). split; [apply quiet_nil, (ready_input me), R|]. unfold page_of_tokens. cbn [foldM bind].
      rewrite M. cbn [List.length Nat.sub finish_modes]. unfold mode_finish. rewrite M. cbn [bind]. rewrite M. reflexivity.
    - pose proof A as (R & M). pose proof (tok_par_v me s b A) as E.
      assert (A1 : at_v me (set_modes s [MV VMain b]) b) by (split; [exact R|reflexivity]).
      destruct (IH G NE _ _ A1) as (Q & V). split.
      + apply (quiet_join [par]).
        * apply quiet_one; [apply (ready_input me), R|]. intros u Eu. rewrite E in Eu. injection Eu as <-. apply (ready_input me), R.
        * intros u Eu. cbn [foldM] in Eu. rewrite E in Eu. cbn [bind] in Eu. injection Eu as <-. exact Q.
      + unfold page_of_tokens in *. cbn [foldM]. rewrite E. cbn [bind]. exact V.
    - inversion G as [|? ? G1 _]; inversion NE as [|? ? N1 _]; subst.
      destruct (para_run me s b l ts A P G1 N1) as (s1 & m1 & F1 & Q1 & A1 & RO & HL). split; [exact Q1|].
      unfold page_of_tokens. rewrite F1. cbn [bind]. pose proof A1 as (R1 & M1 & _). rewrite M1. cbn [List.length Nat.sub finish_modes].
      unfold mode_finish at 1. rewrite M1. rewrite (output_vertical me s1 m1 b A1 RO), HL. cbn [foldM].
      destruct (add_paragraph K me b (nodes_all (k_font K (me_font me)) l)) as [b'| | | |]; reflexivity.
    - inversion G as [|? ? G1 G2]; inversion NE as [|? ? N1 N2]; subst.
      destruct (para_run me s b l ts A P G1 N1) as (s1 & m1 & F1 & Q1 & A1 & RO & HL).
      pose proof (tok_par_h me s1 m1 b A1 RO) as E. rewrite HL in E. pose proof A1 as (R1 & M1 & _).
      cbn [foldM].
      destruct (add_paragraph K me b (nodes_all (k_font K (me_font me)) l)) as [b'| | | |] eqn:AP; cbn [bind] in *.
      { set (s2 := set_leave (set_modes s1 [MV VMain b']) false) in *.
        assert (A2 : at_v me s2 b').
        { destruct R1 as (RA & RF & RT & RL & RM & RP). repeat split; try assumption; apply RP. }
        destruct (IH G2 N2 s2 b' A2) as (Q2 & V2). split.
        - apply quiet_join; [exact Q1|]. intros u Eu. rewrite F1 in Eu. injection Eu as <-.
          apply (quiet_join [par]).
          + apply quiet_one; [apply (ready_input me), R1|]. intros u Eu. rewrite E in Eu. injection Eu as <-. apply (ready_input me), A2.
          + intros u Eu. cbn [foldM] in Eu. rewrite E in Eu. cbn [bind] in Eu. injection Eu as <-. exact Q2.
        - unfold page_of_tokens in *. rewrite foldM_app, F1. cbn [bind foldM]. rewrite E. cbn [bind]. exact V2. }
      all: split; [|unfold page_of_tokens; rewrite foldM_app, F1; cbn [bind foldM]; rewrite E; reflexivity].
      all: apply quiet_join; [exact Q1|]; intros u Eu; rewrite F1 in Eu; injection Eu as <-;
        intros x y u Ex Fx; destruct x as [|t x]; [cbn in Fx; injection Fx as <-; apply (ready_input me), R1|];
        cbn [app] in Ex; injection Ex as <- Ex; cbn [foldM] in Fx; rewrite E in Fx; discriminate.
  Qed.
End Text.

(** ** From the text *)
Definition Kdefs := Eval vm_compute in
  match (do macros <- format_parse pageeditor_format; foldM define macros pinit) with Ok p => Some p | _ => None end.
Lemma new_ready {N : Num} (K : host N) f h s : machine_new K f h = Ok s ->
  at_v (new_memory K f h) s (new_page K) /\ ms_lex s = lexer_init.
Proof.
  unfold machine_new. intros E.
  assert (X : (do macros <- format_parse pageeditor_format; foldM define macros pinit)
              = match Kdefs with Some p => Ok p | None => UB end) by (vm_compute; reflexivity).
  destruct (format_parse pageeditor_format) as [macros| | | |]; try discriminate. cbn [bind] in X, E. rewrite X in E.
  cbn [bind Kdefs] in E. injection E as <-. split; [|reflexivity].
  split; [|reflexivity]. split; [reflexivity|]. split; [reflexivity|]. split; [reflexivity|]. split; [reflexivity|].
  split; [exists []; reflexivity|]. cbn [ms_pre]. split; [reflexivity|]. split; [reflexivity|].
  split; [eexists; reflexivity|]. split; vm_compute; reflexivity.
Qed.

Lemma new_exists {N : Num} (K : host N) f h : exists s, machine_new K f h = Ok s.
Proof.
  unfold machine_new.
  assert (X : (do macros <- format_parse pageeditor_format; foldM define macros pinit)
              = match Kdefs with Some p => Ok p | None => UB end) by (vm_compute; reflexivity).
  revert X. generalize (format_parse pageeditor_format). intros [macros| | | |] X; try discriminate X.
  cbn [bind] in X |- *. rewrite X. cbn [bind Kdefs]. eexists. reflexivity.
Qed.
Lemma typeset_document {N : Num} (K : host N) f h s text ts e ps :
  nonzero (n0 : N) = false -> machine_new K f h = Ok s ->
  lexes DefaultCatCodes true NewLine text ts e -> e <> BadCharacter -> e <> BadParam ->
  document ps ts -> Forall (glyphs_all (decodable K)) ps -> Forall (fun l => (nesting_all l < size_mod)%Z) ps ->
  exists k, forall n, k <= n ->
    typeset K n s text = do b <- page K (new_memory K f h) ps (new_page K); Ok (vbox (vb_result b)).
Proof.
  intros Z0 NW LX E1 E2 D G NE. destruct (new_ready K f h s NW) as (A & L).
  destruct (feed DefaultCatCodes (ms_lex s) text) as [l x] eqn:F.
  assert (BT : between_tokens (ms_lex s) NewLine) by (rewrite L; reflexivity).
  destruct (lexer_tokenizes_lemma _ _ _ _ _ _ BT F) as (ts' & O & H). apply H in LX as (-> & EE).
  rewrite L in O. cbn [lexer_init l_out app] in O.
  destruct x as [[|]|]; [cbn in EE; congruence|cbn in EE; congruence|].
  destruct (document_run K Z0 (new_memory K f h) ps ts' D G NE s (new_page K) A) as (Q & V).
  destruct (typeset_tokens K s text l ts') as (k & HK); [now rewrite L|exact F|exact O|exact Q|].
  exists k. intros n LE. now rewrite HK.
Qed.

(** ** The token that stays behind *)
Definition left_text : list ascii := list_ascii_of_string "\def\a{\def\b{x}}\a!".
Lemma left_behind {N : Num} (K : host N) f h s : machine_new K f h = Ok s ->
  exists n s', resume K n (start s left_text) = Ok s' /\ ms_state s' = Idle /\ l_out (ms_lex s') = [TChar "!" Other] /\
    ms_modes s' = ms_modes s.
Proof.
  intros E. unfold machine_new in E.
  assert (X : (do macros <- format_parse pageeditor_format; foldM define macros pinit)
              = match Kdefs with Some p => Ok p | None => UB end) by (vm_compute; reflexivity).
  destruct (format_parse pageeditor_format) as [macros| | | |]; try discriminate. cbn [bind] in X, E. rewrite X in E.
  cbn [bind Kdefs] in E. injection E as <-. clear X.
  match goal with |- context [mkMachine [?m] _ _ _ _ _ _ _ [MV VMain ?b] _ _] => generalize m, b end. intros me b. clear.
  exists 200. eexists. split; [vm_compute; reflexivity|]. repeat split.
Qed.

(** ** The lines of the paragraphs *)
Lemma para_lines_create {N : Num} (K : host N) P l : rmap vb_result (para_lines K P l) = LineBreaks.create (k_pows K) P l.
Proof.
  unfold para_lines, LineBreaks.create. destruct l as [|x l]; [reflexivity|].
  destruct (computeBreakpoints (k_pows K) P (x :: l)) as [bps| | | |]; try reflexivity. cbn [bind].
  destruct bps; reflexivity.
Qed.
Lemma page_lines {N : Num} (K : host N) m ps : forall b b', page K m ps b = Ok b' ->
  exists lines, vb_result b' = vb_result b ++ List.concat lines /\
    Forall2 (fun l ls => exists d, LineBreaks.create (k_pows K) (paragraph m d)
                                     (prepare (paragraph m d) (nodes_all (k_font K (me_font m)) l)) = Ok ls) ps lines.
Proof.
  unfold page. induction ps as [|l ps IH]; intros b b' H.
  - cbn in H. injection H as <-. exists []. split; [cbn; now rewrite app_nil_r|constructor].
  - cbn [foldM] in H. apply bind_Ok in H as (b1 & E & H). destruct (IH _ _ H) as (lines & V & F).
    unfold add_paragraph in E. apply bind_Ok in E as (r & E & E'). injection E' as <-.
    exists (vb_result r :: lines). cbn [vb_result] in V. split; [cbn [List.concat]; now rewrite V, <- app_assoc|].
    constructor; [|exact F]. exists (vb_prevdepth b). rewrite <- para_lines_create, E. reflexivity.
Qed.
