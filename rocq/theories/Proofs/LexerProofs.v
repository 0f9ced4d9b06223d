From Coq Require Import List Ascii String ZArith NArith Nnat Bool Lia.
From Verif.Model Require Import Token Lexer.
From Verif.Spec Require Import LexerSpec.
Import ListNotations.

Lemma cat_eqb_spec a b : reflect (a = b) (cat_eqb a b).
Proof. destruct a, b; constructor; congruence. Qed.

Lemma cat_eqb_refl a : cat_eqb a a = true.
Proof. destruct a; reflexivity. Qed.

Lemma name_eqb_spec a b : reflect (a = b) (name_eqb a b).
Proof.
  revert b; induction a as [|x a IH]; intros [|y b]; simpl; try (constructor; congruence).
  destruct (Ascii.eqb_spec x y) as [->|H]; simpl; [|constructor; congruence].
  destruct (IH b) as [->|H]; constructor; congruence.
Qed.

Lemma token_eqb_spec a b : reflect (a = b) (token_eqb a b).
Proof.
  destruct a as [c k|n|n], b as [c' k'|n'|n']; simpl; try (constructor; congruence).
  - destruct (Ascii.eqb_spec c c') as [->|H]; simpl; [|constructor; congruence].
    destruct (cat_eqb_spec k k') as [->|H]; constructor; congruence.
  - destruct (name_eqb_spec n n') as [->|H]; constructor; congruence.
  - destruct (Z.eqb_spec n n') as [->|H]; constructor; congruence.
Qed.

Lemma char_code_range c : (0 <= char_code c < 256)%Z.
Proof.
  unfold char_code. pose proof (N_ascii_bounded c). lia.
Qed.

Lemma digit19_char c n : digit19 c n <-> (1 <= n <= 9)%Z /\ char_code c = (48 + n)%Z.
Proof.
  unfold digit19, char_code. split; intros [H1 H2]; split; try exact H1.
  - subst c. replace (N_of_ascii (ascii_of_nat (48 + Z.to_nat n)))
      with (N.of_nat (nat_of_ascii (ascii_of_nat (48 + Z.to_nat n)))).
    + rewrite nat_ascii_embedding by lia. lia.
    + unfold nat_of_ascii. apply N2Nat.id.
  - rewrite <- (ascii_nat_embedding c). f_equal. unfold nat_of_ascii. lia.
Qed.

Lemma digit19_code c n : digit19 c n -> char_code c = (48 + n)%Z.
Proof. rewrite digit19_char. tauto. Qed.

(** Abstraction of lexer states *)
Definition lst (s : lstate) : option line_state :=
  match s with StN => Some NewLine | StM => Some MidLine | StS => Some SkipBlanks | _ => None end.

(** what remains to be shown for a run from [l] on [s] *)
Definition run_spec (ct : catcodes) (l : lexer) (s : list ascii) (ts : list token) (e : ending) : Prop :=
  match l_state l with
  | StN => lexes ct true NewLine s ts e
  | StM => lexes ct true MidLine s ts e
  | StS => lexes ct true SkipBlanks s ts e
  | StCS => Forall (fun a => ct a = Letter) (l_buf l) ->
            forall st c, ct c = Escape -> lexes ct true st (c :: l_buf l ++ s) ts e
  | StP => forall st c, ct c = ParamChar -> lexes ct true st (c :: s) ts e
  | StCOM => forall st c body, ct c = Comment -> Forall (fun a => ct a <> EndOfLine) body ->
             lexes ct true st (c :: body ++ s) ts e
  end.

Lemma app_snoc {A} (a : list A) x b : (a ++ [x]) ++ b = a ++ x :: b.
Proof. rewrite <- app_assoc. reflexivity. Qed.

(** [write_switch] from a line state, followed by a run that satisfies [run_spec] *)
Lemma switch_step ct l st c s l' :
  lst (l_state l) = Some st ->
  write_switch l c (ct c) = (l', None) ->
  exists ts1, l_out l' = l_out l ++ ts1 /\
    (l_state l' = StCS -> l_buf l' = []) /\
    forall ts e, run_spec ct l' s ts e -> lexes ct true st (c :: s) (ts1 ++ ts) e.
Proof.
  intros Hst H. unfold write_switch in H.
  destruct (ct c) eqn:Ec; try discriminate.
  all: try (inversion H; subst l'; clear H; simpl).
  (* plain characters *)
  all: try (exists [TChar c (ct c)]; rewrite Ec; split; [reflexivity|]; split; [discriminate|];
            intros ts e Hr; cbv [run_spec set_state l_state] in Hr; simpl; rewrite <- Ec;
            apply lx_char; [unfold plain; tauto | exact Hr]).
  - (* Escape *)
    exists []. rewrite app_nil_r. split; [reflexivity|]. split; [reflexivity|].
    intros ts e Hr. cbv [run_spec set_state set_buf l_state l_buf] in Hr. simpl in *.
    apply Hr; [constructor|exact Ec].
  - (* EndOfLine *)
    destruct (l_state l) eqn:El; simpl in Hst; try discriminate; inversion Hst; subst st; simpl.
    + exists [TCs (str "par")]. split; [reflexivity|]. split; [discriminate|].
      intros ts e Hr. apply lx_blank_line; assumption.
    + exists [TChar " " Space]. split; [reflexivity|]. split; [discriminate|].
      intros ts e Hr. apply lx_line_end; assumption.
    + exists []. rewrite app_nil_r. split; [reflexivity|]. split; [discriminate|].
      intros ts e Hr. apply lx_line_end_skip; assumption.
  - (* ParamChar *)
    exists []. rewrite app_nil_r. split; [reflexivity|]. split; [discriminate|].
    intros ts e Hr. cbv [run_spec set_state l_state] in Hr. apply Hr. exact Ec.
  - (* Ignored *)
    exists []. rewrite app_nil_r. split; [reflexivity|].
    unfold run_spec. destruct (l_state l); simpl in Hst; try discriminate; inversion Hst; subst st.
    all: split; [discriminate|]; intros ts e Hr; apply lx_ignored; assumption.
  - (* Space *)
    destruct (l_state l) eqn:El; simpl in Hst; try discriminate; inversion Hst; subst st;
      inversion H; subst l'; clear H; simpl.
    + exists []. rewrite app_nil_r. split; [reflexivity|]. rewrite El. split; [discriminate|].
      intros ts e Hr. unfold run_spec in Hr. rewrite El in Hr. apply lx_space_skip; [assumption|discriminate|assumption].
    + exists [TChar " " Space]. split; [reflexivity|]. split; [discriminate|].
      intros ts e Hr. apply lx_space; assumption.
    + exists []. rewrite app_nil_r. split; [reflexivity|]. rewrite El. split; [discriminate|].
      intros ts e Hr. unfold run_spec in Hr. rewrite El in Hr. apply lx_space_skip; [assumption|discriminate|assumption].
  - (* Comment *)
    exists []. rewrite app_nil_r. split; [reflexivity|]. split; [discriminate|].
    intros ts e Hr. cbv [run_spec set_state l_state] in Hr.
    apply (Hr st c []); [exact Ec|constructor].
Qed.

Lemma switch_throw ct l st c s l' x :
  lst (l_state l) = Some st ->
  write_switch l c (ct c) = (l', Some x) ->
  l_out l' = l_out l /\ x = InvalidCharacter /\ lexes ct true st (c :: s) [] BadCharacter.
Proof.
  intros Hst H. unfold write_switch in H.
  destruct (ct c) eqn:Ec; try discriminate.
  - destruct (l_state l); discriminate.
  - inversion H; subst. repeat split; try reflexivity. apply lx_invalid. exact Ec.
Qed.

Ltac useIH IH H tac ts Ho Hr :=
  match type of H with
  | feed _ ?L _ = (?l', ?e) =>
      destruct (IH L l' e) as (ts & Ho & Hr); [tac | exact H |]
  end.

Theorem feed_lexes ct s : forall l l' e,
  (l_state l = StCS -> Forall (fun a => ct a = Letter) (l_buf l)) ->
  feed ct l s = (l', e) ->
  exists ts, l_out l' = l_out l ++ ts /\ run_spec ct l s ts (lexer_ending l' e).
Proof.
  induction s as [|c s IH]; intros l l' e Hbuf H.
  - simpl in H. inversion H; subst l' e. exists []. rewrite app_nil_r. split; [reflexivity|].
    unfold run_spec, lexer_ending. destruct (l_state l) eqn:El; try apply lx_end.
    + intros Hb st c Hc. rewrite app_nil_r. apply lx_word_open; assumption.
    + intros st c Hc. apply lx_param_open. exact Hc.
    + intros st c body Hc Hb. rewrite app_nil_r. apply lx_comment_open; assumption.
  - simpl in H. destruct (write ct l c) as [l1 [x|]] eqn:Ew.
    + (* exception *)
      inversion H; subst l' e. unfold write in Ew.
      destruct (l_state l) eqn:El.
      * assert (Hst : lst (l_state l) = Some NewLine) by (rewrite El; reflexivity).
        destruct (switch_throw ct l _ c s l1 x Hst Ew) as (Ho & -> & Hl).
        exists []. rewrite app_nil_r. split; [exact Ho|]. unfold run_spec. rewrite El. exact Hl.
      * assert (Hst : lst (l_state l) = Some MidLine) by (rewrite El; reflexivity).
        destruct (switch_throw ct l _ c s l1 x Hst Ew) as (Ho & -> & Hl).
        exists []. rewrite app_nil_r. split; [exact Ho|]. unfold run_spec. rewrite El. exact Hl.
      * assert (Hst : lst (l_state l) = Some SkipBlanks) by (rewrite El; reflexivity).
        destruct (switch_throw ct l _ c s l1 x Hst Ew) as (Ho & -> & Hl).
        exists []. rewrite app_nil_r. split; [exact Ho|]. unfold run_spec. rewrite El. exact Hl.
      * (* CS *)
        unfold parseCS in Ew. destruct (cat_eqb_spec (ct c) EndOfLine) as [E|E].
        { destruct (l_buf l); discriminate. }
        destruct (cat_eqb_spec (ct c) Letter) as [E2|E2]; simpl in Ew; [discriminate|].
        destruct (l_buf l) as [|b0 b] eqn:Eb; [discriminate|].
        destruct (switch_throw ct (set_state (produceCSToken l) StS) SkipBlanks c s l1 x eq_refl Ew)
          as (Ho & -> & Hl).
        exists [TCs (b0 :: b)]. rewrite Ho. simpl. rewrite Eb. split; [reflexivity|].
        unfold run_spec. rewrite El, Eb. intros Hf st c0 Hc0.
        apply lx_word; try assumption. discriminate.
      * (* P *)
        unfold parseP in Ew. destruct (cat_eqb_spec (ct c) ParamChar) as [E|E]; [discriminate|].
        unfold produceParamToken in Ew.
        destruct ((49 <=? char_code c) && (char_code c <=? 57))%Z eqn:Er; [discriminate|].
        inversion Ew; subst l1 x. exists []. rewrite app_nil_r. split; [reflexivity|].
        unfold run_spec. rewrite El. intros st c0 Hc0. simpl. apply lx_param_bad; try assumption.
        intros n Hd. apply digit19_char in Hd. destruct Hd as [Hn Hd]. rewrite Hd in Er.
        apply andb_false_iff in Er. lia.
      * discriminate.
    + (* normal step *)
      unfold write in Ew.
      destruct (l_state l) eqn:El.
      * assert (Hst : lst (l_state l) = Some NewLine) by (rewrite El; reflexivity).
        destruct (switch_step ct l _ c s l1 Hst Ew) as (ts1 & Ho & Hb & Hl).
        destruct (IH l1 l' e) as (ts & Ho2 & Hr); [intros Hcs; rewrite (Hb Hcs); constructor|exact H|].
        exists (ts1 ++ ts). rewrite Ho2, Ho, app_assoc. split; [reflexivity|].
        unfold run_spec. rewrite El. apply Hl. exact Hr.
      * assert (Hst : lst (l_state l) = Some MidLine) by (rewrite El; reflexivity).
        destruct (switch_step ct l _ c s l1 Hst Ew) as (ts1 & Ho & Hb & Hl).
        destruct (IH l1 l' e) as (ts & Ho2 & Hr); [intros Hcs; rewrite (Hb Hcs); constructor|exact H|].
        exists (ts1 ++ ts). rewrite Ho2, Ho, app_assoc. split; [reflexivity|].
        unfold run_spec. rewrite El. apply Hl. exact Hr.
      * assert (Hst : lst (l_state l) = Some SkipBlanks) by (rewrite El; reflexivity).
        destruct (switch_step ct l _ c s l1 Hst Ew) as (ts1 & Ho & Hb & Hl).
        destruct (IH l1 l' e) as (ts & Ho2 & Hr); [intros Hcs; rewrite (Hb Hcs); constructor|exact H|].
        exists (ts1 ++ ts). rewrite Ho2, Ho, app_assoc. split; [reflexivity|].
        unfold run_spec. rewrite El. apply Hl. exact Hr.
      * (* CS *)
        unfold parseCS in Ew. destruct (cat_eqb_spec (ct c) EndOfLine) as [E|E].
        { destruct (l_buf l) as [|b0 b] eqn:Eb; inversion Ew; subst l1; clear Ew.
          - useIH IH H ltac:(discriminate) ts Ho Hr.
            exists (TCs [] :: ts). rewrite Ho. simpl. rewrite Eb, app_snoc. split; [reflexivity|].
            unfold run_spec. rewrite El, Eb. intros _ st c0 Hc0. simpl.
            apply lx_symbol_eol; assumption.
          - useIH IH H ltac:(discriminate) ts Ho Hr.
            exists (TCs (b0 :: b) :: ts). rewrite Ho. simpl. rewrite Eb, app_snoc. split; [reflexivity|].
            unfold run_spec. rewrite El, Eb. intros Hf st c0 Hc0.
            apply lx_word_eol; try assumption. discriminate. }
        destruct (cat_eqb_spec (ct c) Letter) as [E2|E2]; simpl in Ew.
        { inversion Ew; subst l1; clear Ew.
          useIH IH H ltac:(intros _; simpl; apply Forall_app; split;
             [apply Hbuf; reflexivity | constructor; [exact E2|constructor]]) ts Ho Hr.
          exists ts. rewrite Ho. split; [reflexivity|].
          unfold run_spec in Hr |- *. rewrite El. simpl in Hr. rewrite El in Hr.
          intros Hf st c0 Hc0. specialize (Hr ltac:(apply Forall_app; split; [exact Hf|constructor; [exact E2|constructor]]) st c0 Hc0).
          rewrite app_snoc in Hr. exact Hr. }
        destruct (l_buf l) as [|b0 b] eqn:Eb.
        { inversion Ew; subst l1; clear Ew.
          useIH IH H ltac:(simpl; destruct (cat_eqb (ct c) Space); discriminate) ts Ho Hr.
          exists (TCs [c] :: ts). rewrite Ho. simpl. rewrite app_snoc. split; [reflexivity|].
          unfold run_spec. rewrite El, Eb. intros _ st c0 Hc0. simpl.
          apply lx_symbol; try assumption. unfold run_spec in Hr. simpl in Hr.
          destruct (ct c); simpl in Hr; exact Hr. }
        { destruct (switch_step ct (set_state (produceCSToken l) StS) SkipBlanks c s l1 eq_refl Ew)
            as (ts1 & Ho & Hb & Hl).
          useIH IH H ltac:(intros Hcs; rewrite (Hb Hcs); constructor) ts Ho2 Hr.
          exists (TCs (b0 :: b) :: ts1 ++ ts). rewrite Ho2, Ho. simpl. rewrite Eb.
          rewrite <- !app_assoc. split; [reflexivity|].
          unfold run_spec. rewrite El, Eb. intros Hf st c0 Hc0.
          apply lx_word; try assumption; [discriminate|]. apply Hl. exact Hr. }
      * (* P *)
        unfold parseP in Ew. destruct (cat_eqb_spec (ct c) ParamChar) as [E|E].
        { inversion Ew; subst l1; clear Ew.
          useIH IH H ltac:(discriminate) ts Ho Hr.
          exists (TChar c ParamChar :: ts). rewrite Ho. simpl. rewrite E, app_snoc. split; [reflexivity|].
          unfold run_spec. rewrite El. intros st c0 Hc0. apply lx_hash; assumption. }
        unfold produceParamToken in Ew.
        destruct ((49 <=? char_code c) && (char_code c <=? 57))%Z eqn:Er; [|discriminate].
        inversion Ew; subst l1; clear Ew.
        useIH IH H ltac:(discriminate) ts Ho Hr.
        exists (TParam (char_code c - 48) :: ts). rewrite Ho. simpl. rewrite app_snoc. split; [reflexivity|].
        unfold run_spec. rewrite El. intros st c0 Hc0. apply lx_param; try assumption.
        apply digit19_char. apply andb_true_iff in Er. lia.
      * (* COM *)
        inversion Ew; subst l1; clear Ew. unfold parseCOM in H.
        destruct (cat_eqb_spec (ct c) EndOfLine) as [E|E].
        { useIH IH H ltac:(discriminate) ts Ho Hr.
          exists ts. rewrite Ho. split; [reflexivity|].
          unfold run_spec. rewrite El. intros st c0 body Hc0 Hb. apply lx_comment; assumption. }
        { useIH IH H ltac:(rewrite El; discriminate) ts Ho Hr.
          exists ts. rewrite Ho. split; [reflexivity|].
          unfold run_spec in Hr |- *. rewrite El in Hr |- *. intros st c0 body Hc0 Hb.
          specialize (Hr st c0 (body ++ [c]) Hc0).
          rewrite app_snoc in Hr. apply Hr. apply Forall_app; split; [exact Hb|constructor; [exact E|constructor]]. }
Qed.

(** * Determinism of the rules *)

Lemma span_unique {A} (P : A -> Prop) w x r w' x' r' :
  Forall P w -> ~ P x -> Forall P w' -> ~ P x' ->
  w ++ x :: r = w' ++ x' :: r' -> w = w' /\ x = x' /\ r = r'.
Proof.
  revert w'; induction w as [|a w IH]; intros [|a' w'] Hw Hx Hw' Hx' E; simpl in E; inversion E; subst.
  - auto.
  - inversion Hw'; subst. contradiction.
  - inversion Hw; subst. contradiction.
  - inversion Hw; inversion Hw'; subst.
    destruct (IH w') as (-> & -> & ->); auto.
Qed.

Lemma span_open {A} (P : A -> Prop) w w' x r' :
  Forall P w -> ~ P x -> w = w' ++ x :: r' -> False.
Proof.
  intros Hw Hx ->. apply Forall_app in Hw. destruct Hw as [_ Hw]. inversion Hw. contradiction.
Qed.

Lemma digit19_inj c n m : digit19 c n -> digit19 c m -> n = m.
Proof. intros H1 H2. apply digit19_code in H1. apply digit19_code in H2. lia. Qed.

Ltac kill_cat :=
  match goal with
  | H1 : ?x = ?a, H2 : ?x = ?b |- _ => first [ rewrite H1 in H2; discriminate ]
  end.

Ltac plain_absurd :=
  match goal with
  | H : plain (?ct ?c), H2 : ?ct ?c = _ |- _ =>
      unfold plain in H; rewrite H2 in H;
      repeat (destruct H as [H|H]; [discriminate|]); discriminate
  end.


Ltac np := cbv beta; first [ congruence | (let HH := fresh in intros HH; apply HH; assumption) ].

Ltac det_step :=
  match goal with
  | E : ?w ++ ?x :: ?r = ?w' ++ ?x' :: ?r', Hw : Forall ?P ?w, Hw' : Forall ?P ?w' |- _ =>
      apply (span_unique P) in E; [destruct E as (? & ? & ?); subst | assumption | np | assumption | np]
  | Hw : Forall ?P (?w ++ ?x :: ?r) |- _ =>
      exfalso; apply Forall_app in Hw; destruct Hw as [_ Hw]; inversion Hw; subst; cbv beta in *; congruence
  | E : ?w ++ _ = _ :: _, Hn : ?w <> [] |- _ =>
      destruct w; [congruence|]; simpl in E; injection E; intros; subst; clear E
  | E : _ :: _ = ?w ++ _, Hn : ?w <> [] |- _ =>
      destruct w; [congruence|]; simpl in E; injection E; intros; subst; clear E
  | Hw : Forall _ (_ :: _), N : _ <> Letter |- _ => exfalso; inversion Hw; subst; cbv beta in *; congruence
  | Hw : Forall _ (_ :: _), N : _ = EndOfLine |- _ => exfalso; inversion Hw; subst; cbv beta in *; congruence
  | D1 : digit19 ?x ?n, D2 : digit19 ?x ?m |- _ =>
      pose proof (digit19_inj _ _ _ D1 D2); subst; clear D2
  | D1 : digit19 ?x ?n, D2 : forall n, ~ digit19 ?x n |- _ => exfalso; exact (D2 _ D1)
  | IH : forall ts' e', lexes ?ct ?q ?st ?s ts' e' -> _, HH : lexes ?ct ?q ?st ?s _ _ |- _ =>
      apply IH in HH; destruct HH as [-> ->]
  end.

Theorem lexes_det ct q st s ts e : lexes ct q st s ts e ->
  forall ts' e', lexes ct q st s ts' e' -> ts' = ts /\ e' = e.
Proof.
  induction 1; intros ts' e' H'; inversion H'; subst; try (exfalso; congruence); try plain_absurd;
    repeat det_step; try (exfalso; congruence); auto.
Qed.


(** * C01 *)
Lemma lexer_tokenizes_lemma ct st s l l' e :
  between_tokens l st -> feed ct l s = (l', e) ->
  exists ts, l_out l' = l_out l ++ ts /\
    forall ts' e', lexes ct true st s ts' e' <-> ts' = ts /\ e' = lexer_ending l' e.
Proof.
  intros Hb Hf.
  destruct (feed_lexes ct s l l' e) as (ts & Ho & Hr).
  - intros E. destruct st; simpl in Hb; rewrite Hb in E; discriminate.
  - exact Hf.
  - exists ts. split; [exact Ho|]. intros ts' e'.
    assert (Hl : lexes ct true st s ts (lexer_ending l' e)).
    { unfold run_spec in Hr. destruct st; simpl in Hb; rewrite Hb in Hr; exact Hr. }
    split.
    + intros H. apply (lexes_det _ _ _ _ _ _ Hl). exact H.
    + intros [-> ->]. exact Hl.
Qed.

Lemma nocl_suffix ct a s : no_control_at_line_end ct (a ++ s) -> no_control_at_line_end ct s.
Proof.
  intros H pre c w x post E. apply (H (a ++ pre) c w x post). rewrite E, app_assoc. reflexivity.
Qed.

Lemma nocl_tail ct a s : no_control_at_line_end ct (a :: s) -> no_control_at_line_end ct s.
Proof. apply (nocl_suffix ct [a]). Qed.

Lemma lexes_tex ct st s ts e :
  lexes ct true st s ts e -> no_control_at_line_end ct s -> lexes ct false st s ts e.
Proof.
  induction 1; intros Hn.
  all: try (match goal with
       | IH : no_control_at_line_end ?ct ?r -> _, Hn : no_control_at_line_end ?ct (?c :: ?w ++ ?r) |- _ =>
           specialize (IH (nocl_suffix ct w _ (nocl_tail _ _ _ Hn)))
       | IH : no_control_at_line_end ?ct ?r -> _, Hn : no_control_at_line_end ?ct (?c :: ?w ++ ?x :: ?r) |- _ =>
           specialize (IH (nocl_tail _ _ _ (nocl_suffix ct w _ (nocl_tail _ _ _ Hn))))
       | IH : no_control_at_line_end ?ct ?r -> _, Hn : no_control_at_line_end ?ct (?c :: ?x :: ?r) |- _ =>
           specialize (IH (nocl_tail _ _ _ (nocl_tail _ _ _ Hn)))
       | IH : no_control_at_line_end ?ct ?r -> _, Hn : no_control_at_line_end ?ct (?c :: ?r) |- _ =>
           specialize (IH (nocl_tail _ _ _ Hn))
       end).
  - constructor.
  - eapply lx_word; eassumption.
  - exfalso. exact (Hn [] c w x r eq_refl H H1 H2).
  - apply lx_word_open; assumption.
  - eapply lx_symbol; eassumption.
  - exfalso. exact (Hn [] c [] x r eq_refl H (Forall_nil _) H0).
  - eapply lx_param; eassumption.
  - eapply lx_hash; eassumption.
  - eapply lx_param_bad; eassumption.
  - eapply lx_param_open; eassumption.
  - eapply lx_char; eassumption.
  - eapply lx_blank_line; eassumption.
  - eapply lx_line_end; eassumption.
  - eapply lx_line_end_skip; eassumption.
  - eapply lx_space; eassumption.
  - eapply lx_space_skip; eassumption.
  - eapply lx_ignored; eassumption.
  - eapply lx_comment; eassumption.
  - eapply lx_comment_open; eassumption.
  - eapply lx_invalid; eassumption.
Qed.

Lemma lexer_tex_lemma ct st s l l' e :
  between_tokens l st -> no_control_at_line_end ct s -> feed ct l s = (l', e) ->
  exists ts, l_out l' = l_out l ++ ts /\
    forall ts' e', lexes ct false st s ts' e' <-> ts' = ts /\ e' = lexer_ending l' e.
Proof.
  intros Hb Hn Hf. destruct (lexer_tokenizes_lemma ct st s l l' e Hb Hf) as (ts & Ho & Hl).
  exists ts. split; [exact Ho|].
  assert (Ht : lexes ct false st s ts (lexer_ending l' e)).
  { apply lexes_tex; [|exact Hn]. apply Hl. auto. }
  intros ts' e'. split.
  - intros H. exact (lexes_det _ _ _ _ _ _ Ht _ _ H).
  - intros [-> ->]. exact Ht.
Qed.

(** * C02 *)
Fixpoint no_adj (b : bool) (ts : list token) : Prop :=
  match ts with
  | [] => True
  | t :: r => (b = true -> ~ is_space t) /\
              no_adj (match t with TChar _ Space => true | _ => false end) r
  end.

Lemma no_adj_weaken b ts : no_adj true ts -> no_adj b ts.
Proof. destruct ts; simpl; intuition. Qed.

Lemma is_space_dec t : {is_space t} + {~ is_space t}.
Proof.
  destruct t as [c k|n|n]; [|right; intros [? ?]; discriminate|right; intros [? ?]; discriminate].
  destruct k; try (right; intros [? ?]; discriminate). left; eexists; reflexivity.
Qed.

Lemma no_adj_ok ts : no_adj true ts -> spaces_ok ts.
Proof.
  intros H. split.
  - intros t r ->. simpl in H. intuition.
  - assert (G : forall b, no_adj b ts -> forall a t1 t2 b0, ts = a ++ t1 :: t2 :: b0 -> ~ (is_space t1 /\ is_space t2)).
    { clear H. induction ts as [|t ts IH]; intros b H a t1 t2 b0 E.
      - destruct a; discriminate.
      - destruct a as [|a0 a]; simpl in E; injection E; intros; subst.
        + simpl in H. destruct H as (_ & H & _). intros [[c1 ->] H2]. apply H; auto.
        + simpl in H. destruct H as [_ H]. eapply IH; eauto. }
    apply (G true H).
Qed.

Lemma lexes_no_adj ct q st s ts e : lexes ct q st s ts e ->
  no_adj (match st with MidLine => false | _ => true end) ts.
Proof.
  induction 1; simpl; auto.
  all: try (split; [intros _ [? ?]; discriminate | ]).
  all: try (apply no_adj_weaken; assumption).
  all: try (destruct q; simpl in IHlexes; try apply no_adj_weaken; assumption).
  - destruct (ct x); simpl in IHlexes; try assumption; apply no_adj_weaken; assumption.
  - destruct q; simpl in IHlexes; [assumption|apply no_adj_weaken; assumption].
  - assumption.
  - assumption.
  - split; [intros _ [? E]; unfold plain in H; injection E as _ E; rewrite E in H;
            repeat (destruct H as [H|H]; [discriminate|]); discriminate|].
    destruct (ct c) eqn:E; try exact IHlexes.
    unfold plain in H; repeat (destruct H as [H|H]; [discriminate|]); discriminate.
  - split; [discriminate|assumption].
  - split; [discriminate|assumption].
Qed.

Lemma spaces_ok_lemma ct s l e :
  feed ct lexer_init s = (l, e) -> spaces_ok (l_out l).
Proof.
  intros Hf. destruct (lexer_tokenizes_lemma ct NewLine s lexer_init l e eq_refl Hf) as (ts & Ho & Hl).
  rewrite Ho. simpl. apply no_adj_ok. eapply (lexes_no_adj ct true NewLine). apply Hl. eauto.
Qed.

(** * Chunking *)
Lemma feed_app ct a b l :
  feed ct l (a ++ b) =
  match feed ct l a with (l', None) => feed ct l' b | (l', Some e) => (l', Some e) end.
Proof.
  revert l; induction a as [|c a IH]; intros l; simpl; [reflexivity|].
  destruct (write ct l c) as [l1 [x|]]; [reflexivity|]. apply IH.
Qed.

(** * C03 *)
Lemma feed_comment_body ct l b eol post :
  l_state l = StCOM -> Forall (fun a => ct a <> EndOfLine) b -> ct eol = EndOfLine ->
  feed ct l (b ++ eol :: post) = feed ct (set_state l StN) post.
Proof.
  intros Hs Hb He. induction b as [|c b IH]; simpl.
  - unfold write. rewrite Hs, He. simpl. reflexivity.
  - inversion Hb; subst. unfold write. rewrite Hs. unfold parseCOM.
    destruct (cat_eqb_spec (ct c) EndOfLine); [contradiction|]. apply IH. assumption.
Qed.

Lemma write_comment ct l pct :
  ct pct = Comment -> l_state l <> StP -> ~ (l_state l = StCS /\ l_buf l = []) ->
  exists l', write ct l pct = (l', None) /\ l_state l' = StCOM.
Proof.
  intros Hp Hs Hb. unfold write. rewrite Hp.
  destruct (l_state l) eqn:El; simpl; try (eexists; split; [reflexivity|]; simpl; auto; fail); try congruence.
  - unfold parseCS. simpl. destruct (l_buf l) eqn:Eb; [exfalso; auto|].
    eexists; split; reflexivity.
Qed.

Lemma comment_inert_lemma ct l pct b1 b2 eol post :
  ct pct = Comment -> ct eol = EndOfLine ->
  l_state l <> StP -> ~ (l_state l = StCS /\ l_buf l = []) ->
  Forall (fun a => ct a <> EndOfLine) b1 -> Forall (fun a => ct a <> EndOfLine) b2 ->
  feed ct l (pct :: b1 ++ eol :: post) = feed ct l (pct :: b2 ++ eol :: post).
Proof.
  intros Hp He Hs Hb H1 H2.
  destruct (write_comment ct l pct Hp Hs Hb) as (l' & Hw & Hl').
  cbn [feed]. rewrite Hw. rewrite !feed_comment_body by assumption. reflexivity.
Qed.

(** * C04 *)
Lemma write_out_indep ct st b o o' c :
  exists st' b' ts e,
    write ct (mkLexer st b o) c = (mkLexer st' b' (o ++ ts), e) /\
    write ct (mkLexer st b o') c = (mkLexer st' b' (o' ++ ts), e).
Proof.
  unfold write. generalize (ct c) as k; intros k. cbn [l_state].
  assert (Hsw : forall st b o o', exists st' b' ts e,
     write_switch (mkLexer st b o) c k = (mkLexer st' b' (o ++ ts), e) /\
     write_switch (mkLexer st b o') c k = (mkLexer st' b' (o' ++ ts), e)).
  { clear. intros st b o o'. destruct k, st; simpl;
      unfold set_state, set_buf, produce, produceCSToken; simpl;
      do 4 eexists; split; try reflexivity;
      try (rewrite <- (app_nil_r o) at 1; reflexivity);
      try (rewrite <- (app_nil_r o') at 1; reflexivity). }
  destruct st; try apply Hsw.
  - unfold parseCS. simpl. destruct (cat_eqb k EndOfLine).
    { destruct b; do 4 eexists; split; reflexivity. }
    destruct (negb (cat_eqb k Letter)).
    + destruct b as [|b0 b].
      * do 4 eexists; split; reflexivity.
      * unfold set_state, produceCSToken; cbn [l_state l_buf l_out].
        destruct (Hsw StS (b0 :: b) (o ++ [TCs (b0 :: b)]) (o' ++ [TCs (b0 :: b)]))
          as (st' & b' & ts & e & E1 & E2).
        rewrite E1, E2. rewrite <- !app_assoc. do 4 eexists; split; reflexivity.
    + unfold set_buf; simpl. exists StCS, (b ++ [c]), [], None. rewrite !app_nil_r. auto.
  - unfold parseP. destruct (cat_eqb k ParamChar).
    + do 4 eexists; split; reflexivity.
    + unfold produceParamToken. destruct (_ && _)%bool.
      * do 4 eexists; split; reflexivity.
      * exists StP, b, [], (Some InvalidParam). rewrite !app_nil_r. auto.
  - unfold parseCOM. destruct (cat_eqb k EndOfLine).
    + exists StN, b, [], None. rewrite !app_nil_r. auto.
    + exists StCOM, b, [], None. rewrite !app_nil_r. auto.
Qed.

Lemma client_writes_gen ct ops : forall st b o taken l' taken',
  client ct (mkLexer st b o) taken ops = Some (l', taken') ->
  client ct (mkLexer st b (taken ++ o)) [] (writes ops) =
    Some (mkLexer (l_state l') (l_buf l') (taken' ++ l_out l'), []).
Proof.
  induction ops as [|[c| |] ops IH]; intros st b o taken l' taken' H; simpl in *.
  - inversion H; subst. reflexivity.
  - destruct (write_out_indep ct st b o (taken ++ o) c) as (st' & b' & ts & e & E1 & E2).
    rewrite E1 in H. rewrite E2. simpl in *. apply IH in H. rewrite <- H, app_assoc. reflexivity.
  - destruct o as [|t o]; [discriminate|]. apply IH in H. rewrite app_snoc in H. exact H.
  - apply IH in H. rewrite app_nil_r in H. exact H.
Qed.

Lemma client_streaming_lemma ct l ops l' taken :
  client ct l [] ops = Some (l', taken) ->
  exists l2, client ct l [] (writes ops) = Some (l2, []) /\
    taken ++ l_out l' = l_out l2 /\ l_state l' = l_state l2 /\ l_buf l' = l_buf l2.
Proof.
  destruct l as [st b o]. intros H. apply client_writes_gen in H. simpl in H.
  eexists. split; [exact H|]. simpl. auto.
Qed.

Lemma client_writes_feed ct l s :
  forall l', feed ct l s = (l', None) -> client ct l [] (map OWrite s) = Some (l', []).
Proof.
  revert l; induction s as [|c s IH]; intros l l' H; simpl in *.
  - inversion H; reflexivity.
  - destruct (write ct l c) as [l1 [x|]]; [discriminate|]. simpl. apply IH. exact H.
Qed.

(** Tokens are never retracted. *)
Lemma feed_prefix_lemma ct l a b :
  exists more, l_out (fst (feed ct l (a ++ b))) = l_out (fst (feed ct l a)) ++ more.
Proof.
  assert (G : forall s l, exists more, l_out (fst (feed ct l s)) = l_out l ++ more).
  { induction s as [|c s IH]; intros l0; simpl.
    - exists []. rewrite app_nil_r. reflexivity.
    - destruct l0 as [st b0 o]. destruct (write_out_indep ct st b0 o o c) as (st' & b' & ts & e & E1 & _).
      rewrite E1. destruct e.
      + exists ts. reflexivity.
      + destruct (IH (mkLexer st' b' (o ++ ts))) as (m & E). rewrite E. simpl.
        exists (ts ++ m). rewrite app_assoc. reflexivity. }
  rewrite feed_app. destruct (feed ct l a) as [l1 [x|]] eqn:E.
  - exists []. simpl. rewrite app_nil_r. reflexivity.
  - simpl. apply G.
Qed.

(** * C05 *)
Lemma feed_letters ct w : forall l,
  l_state l = StCS -> Forall (fun a => ct a = Letter) w ->
  feed ct l w = (mkLexer StCS (l_buf l ++ w) (l_out l), None).
Proof.
  induction w as [|c w IH]; intros [st b o] Hs Hw; simpl in Hs; subst st; simpl.
  - rewrite app_nil_r. reflexivity.
  - inversion Hw; subst. unfold write. simpl. rewrite H1. unfold parseCS. simpl.
    rewrite IH; [|reflexivity|assumption]. simpl. rewrite <- app_assoc. reflexivity.
Qed.

Lemma word_delivered_lemma ct st l c w x :
  between_tokens l st -> ct c = Escape -> w <> [] ->
  Forall (fun a => ct a = Letter) w -> ct x <> Letter ->
  exists more, l_out (fst (feed ct l (c :: w ++ [x]))) = l_out l ++ TCs w :: more.
Proof.
  intros Hb Hc Hw Hf Hx.
  assert (Hwr : write ct l c = (set_state (set_buf l []) StCS, None)).
  { unfold write. rewrite Hc. destruct st; simpl in Hb; rewrite Hb; reflexivity. }
  cbn [feed]. rewrite Hwr, feed_app, feed_letters by (try reflexivity; assumption).
  simpl. unfold write. simpl. unfold parseCS. simpl.
  destruct w as [|w0 w]; [congruence|].
  destruct (cat_eqb_spec (ct x) EndOfLine) as [E|E].
  - simpl. exists []. reflexivity.
  - destruct (cat_eqb_spec (ct x) Letter) as [E2|E2]; [congruence|]. simpl.
    match goal with |- context [write_switch ?L x (ct x)] => set (L0 := L) end.
    destruct (write_switch L0 x (ct x)) as [l1 [e|]] eqn:Es.
    + destruct (switch_throw ct L0 SkipBlanks x [] l1 e eq_refl Es) as (Ho & _ & _).
      simpl. rewrite Ho. exists []. reflexivity.
    + destruct (switch_step ct L0 SkipBlanks x [] l1 eq_refl Es) as (ts1 & Ho & _ & _).
      simpl. rewrite Ho. exists ts1. simpl. rewrite <- app_assoc. reflexivity.
Qed.

Lemma word_pending_lemma ct st l c w :
  between_tokens l st -> ct c = Escape -> Forall (fun a => ct a = Letter) w ->
  feed ct l (c :: w) = (mkLexer StCS w (l_out l), None).
Proof.
  intros Hb Hc Hf.
  assert (Hwr : write ct l c = (set_state (set_buf l []) StCS, None)).
  { unfold write. rewrite Hc. destruct st; simpl in Hb; rewrite Hb; reflexivity. }
  cbn [feed]. rewrite Hwr, feed_letters by (try reflexivity; assumption). reflexivity.
Qed.
