(** Why the page editor crashes. *)
From Coq Require Import List Ascii String ZArith QArith Bool Arith Lia.
From Verif.Base Require Import Result Num.
From Verif.Model Require Import Unicode Token Lexer Macro Dimen DimenParser Glue Box
  ListBuilders LineBreaks MathList MathParser MathTypeset MathFrontend PageEditor Preprocessor.
From Verif.Spec Require Import MacroSpec MathSpec EquationOkSpec LineBreakSpec PageEditorSpec EscapeSpec CrashSpec.
From Verif.Proofs Require Import LexerProofs MacroExpand MacroSafe MathParserSafe EquationProofs EquationOk LineBreakMore PageMachine PageText PageRun.
Import ListNotations.
Local Open Scope nat_scope.

(** [Q] of the result, or [C] if there is a crash *)
Definition out {A} (r : result A) (Q : A -> Prop) (C : Prop) : Prop :=
  match r with Ok a => Q a | UB | Abort => C | _ => True end.
Lemma out_bind {A B} (r : result A) (f : A -> result B) (P : A -> Prop) Q C :
  out r P C -> (forall a, r = Ok a -> P a -> out (f a) Q C) -> out (bind r f) Q C.
Proof. destruct r; cbn; auto. Qed.
Lemma out_any {A B} (r : result A) (f : A -> result B) Q C :
  ~ crashes r -> (forall a, r = Ok a -> out (f a) Q C) -> out (bind r f) Q C.
Proof. unfold crashes. destruct r; cbn; auto; intros H; exfalso; apply H; auto. Qed.
Lemma out_crash {A} (r : result A) Q C : out r Q C -> crashes r -> C.
Proof. intros H [-> | ->]; exact H. Qed.
Lemma out_cases {A} (r : result A) (Q : A -> Prop) (C : Prop) :
  (forall a, r = Ok a -> Q a) -> (crashes r -> C) -> out r Q C.
Proof. unfold crashes. destruct r; cbn; auto. Qed.
Lemma ok_calm {A} (a : A) : ~ crashes (Ok a). Proof. intros [H|H]; discriminate H. Qed.
Lemma throw_calm {A} : ~ crashes (@Throw A). Proof. intros [H|H]; discriminate H. Qed.
Lemma calm_bind {A B} (r : result A) (f : A -> result B) :
  ~ crashes r -> (forall a, r = Ok a -> ~ crashes (f a)) -> ~ crashes (bind r f).
Proof. unfold crashes. destruct r; cbn; auto; intros H _ [X|X]; try discriminate X; apply H; auto. Qed.
Lemma crash_bind {A B} (r : result A) (f : A -> result B) : crashes r -> crashes (bind r f).
Proof. intros [-> | ->]; [left|right]; reflexivity. Qed.
Ltac calm := first [apply ok_calm | apply throw_calm].

(** * dimensions *)
Lemma stof_calm {N : Num} rng (s : name) : ~ crashes (stof (N := N) rng s).
Proof. unfold stof. destruct (stof_q s); [destruct (rng _)|]; calm. Qed.
Lemma dp_finish_calm {N : Num} rng d : ~ crashes (dp_finish (N := N) rng d).
Proof. unfold dp_finish. apply calm_bind; [apply stof_calm|]. intros a _. destruct (str2phyunit (dp_unit d)); calm. Qed.
Lemma dp_write_calm d c : ~ crashes (dp_write d c).
Proof.
  unfold dp_write, dp_write_factor.
  destruct (dp_st d); repeat (match goal with |- context [if ?b then _ else _] => destruct b end); calm.
Qed.
Lemma kp_write_calm k c : ~ crashes (kp_write k c).
Proof.
  unfold kp_write. destruct (kp_done k); [destruct (ceq c " "); calm|].
  apply calm_bind; [apply dp_write_calm|]. intros; calm.
Qed.
Lemma d_eval_finite {N : Num} (x : dimen N) us : d_isFinite x = true -> exists v, d_eval x us = Ok v.
Proof. unfold d_isFinite, d_eval. destruct (d_unit x); try discriminate; eauto. Qed.
Lemma d_eval_infinite {N : Num} (x : dimen N) us : d_isFinite x = false -> d_eval x us = Abort.
Proof. unfold d_isFinite, d_eval. destruct (d_unit x); try discriminate; eauto. Qed.
Lemma kp_finish_calm {N : Num} rng us k : ~ crashes (kp_finish (N := N) rng us k).
Proof.
  unfold kp_finish. apply calm_bind; [apply dp_finish_calm|]. intros x _.
  destruct (d_isFinite x) eqn:F; cbn [negb]; [|calm]. destruct (d_eval_finite x us F) as [v ->]. calm.
Qed.

(** * characters *)
Lemma valid_calm c buf : ~ crashes (is_utf8_char (c :: buf)).
Proof.
  unfold is_utf8_char. apply calm_bind; [|intros; calm]. unfold validate_char.
  repeat (match goal with |- context [if ?b then _ else _] => destruct b | |- context [match ?l with [] => _ | _ :: _ => _ end] => destruct l end); calm.
Qed.
Lemma snoc_calm c buf : ~ crashes (is_utf8_char (buf ++ [c])).
Proof. destruct buf; apply valid_calm. Qed.
Lemma complete_cases buf : is_utf8_char buf = Ok true ->
  exists b0 r, buf = b0 :: r /\
  (((shifted b0 7 =? 0) = true /\ r = []) \/
   ((shifted b0 7 =? 0) = false /\ (shifted b0 5 =? 6) = true /\ exists b1, r = [b1] /\ (shifted b1 6 =? 2) = true) \/
   ((shifted b0 7 =? 0) = false /\ (shifted b0 5 =? 6) = false /\ (shifted b0 4 =? 14) = true /\
     exists b1 b2, r = [b1; b2] /\ (shifted b1 6 =? 2) = true /\ (shifted b2 6 =? 2) = true) \/
   ((shifted b0 7 =? 0) = false /\ (shifted b0 5 =? 6) = false /\ (shifted b0 4 =? 14) = false /\ (shifted b0 3 =? 30) = true /\
     exists b1 b2 b3, r = [b1; b2; b3] /\ (shifted b1 6 =? 2) = true /\ (shifted b2 6 =? 2) = true /\ (shifted b3 6 =? 2) = true))%Z.
Proof.
  unfold is_utf8_char, validate_char. destruct buf as [|b0 r]; [discriminate|]. intros H. exists b0, r. split; [reflexivity|].
  destruct (shifted b0 7 =? 0)%Z. { left. destruct r; [auto|discriminate H]. } right.
  destruct (shifted b0 5 =? 6)%Z.
  { left. destruct r as [|b1 [|b2 r]]; try discriminate H; destruct (shifted b1 6 =? 2)%Z eqn:E1; try discriminate H. eauto 6. } right.
  destruct (shifted b0 4 =? 14)%Z.
  { left. destruct r as [|b1 [|b2 [|b3 r]]]; try discriminate H; destruct (shifted b1 6 =? 2)%Z eqn:E1; try discriminate H;
      destruct (shifted b2 6 =? 2)%Z eqn:E2; try discriminate H. eauto 10. } right.
  destruct (shifted b0 3 =? 30)%Z; [|discriminate H].
  destruct r as [|b1 [|b2 [|b3 [|b4 r]]]]; try discriminate H; destruct (shifted b1 6 =? 2)%Z eqn:E1; try discriminate H;
    destruct (shifted b2 6 =? 2)%Z eqn:E2; try discriminate H; destruct (shifted b3 6 =? 2)%Z eqn:E3; try discriminate H. eauto 15.
Qed.
Lemma cont_ok d sg x b r : (shifted b 6 =? 2)%Z = true -> exists y, cont d sg x (b :: r) = Ok (y, r).
Proof. intros H. unfold cont. rewrite H. unfold assert_. rewrite andb_false_r. cbn [bind]. eauto. Qed.
Lemma cont4_ok d sg x b r : (shifted b 6 =? 2)%Z = true -> d = false \/ sg = false -> exists y, cont4 d sg x (b :: r) = Ok (y, r).
Proof.
  intros H [-> | ->]; unfold cont4; [cbn [assert_ andb bind]; eauto|].
  change (char_value false b) with b. fold (shifted b 6). rewrite H. unfold assert_. rewrite andb_false_r. cbn [bind]. eauto.
Qed.
Lemma cont4_abort x b r : (shifted b 6 =? 2)%Z = true -> cont4 true true x (b :: r) = Abort.
Proof.
  intros H. unfold cont4, char_value, shifted in *. apply Z.eqb_eq in H. rewrite Z.shiftr_div_pow2 in H by lia. change (2 ^ 6)%Z with 64%Z in H.
  assert (128 <= b < 192)%Z by (pose proof (Z.div_mod b 64); pose proof (Z.mod_pos_bound b 64); lia).
  assert ((128 <=? b) = true)%Z as -> by (apply Z.leb_le; lia). cbn [andb].
  rewrite Z.shiftr_div_pow2 by lia. change (2 ^ 6)%Z with 64%Z.
  assert (((b - 256) / 64 =? 2)%Z = false) as -> by (apply Z.eqb_neq; pose proof (Z.div_mod (b - 256) 64); pose proof (Z.mod_pos_bound (b - 256) 64); lia).
  reflexivity.
Qed.
Lemma decode_crash d sg buf : is_utf8_char buf = Ok true -> crashes (decode_char d sg buf) -> four_bytes buf /\ d = true /\ sg = true.
Proof.
  intros H C. destruct (complete_cases buf H) as (b0 & r & -> & X). unfold crashes, decode_char in C.
  destruct X as [[A ->]|[(A & B & b1 & -> & E1)|[(A & B & F & b1 & b2 & -> & E1 & E2)|(A & B & F & G & b1 & b2 & b3 & -> & E1 & E2 & E3)]]]; rewrite A in C; try rewrite B in C; try rewrite F in C; try rewrite G in C.
  - destruct C as [C|C]; discriminate C.
  - destruct (cont_ok d sg (Z.land (char_value sg b0) 31) b1 [] E1) as [y Y]. rewrite Y in C. destruct C as [C|C]; discriminate C.
  - destruct (cont_ok d sg (Z.land (char_value sg b0) 15) b1 [b2] E1) as [y Y]. rewrite Y in C. cbn [bind fst snd] in C.
    destruct (cont_ok d sg y b2 [] E2) as [z Y2]. rewrite Y2 in C. destruct C as [C|C]; discriminate C.
  - split; [exists b0, b1, b2, b3; auto|].
    assert (X : d = false \/ sg = false -> False).
    { intros DS. destruct (cont4_ok d sg (Z.land (char_value sg b0) 7) b1 [b2; b3] E1 DS) as [y Y]. rewrite Y in C. cbn [bind fst snd] in C.
      destruct (cont4_ok d sg y b2 [b3] E2 DS) as [z Y2]. rewrite Y2 in C. cbn [bind fst snd] in C.
      destruct (cont4_ok d sg z b3 [] E3 DS) as [z' Y3]. rewrite Y3 in C. destruct C as [C|C]; discriminate C. }
    destruct d, sg; auto; exfalso; auto.
Qed.
Lemma decode_crashes buf : four_bytes buf -> crashes (decode_char true true buf).
Proof.
  intros (b0 & b1 & b2 & b3 & -> & H). destruct (complete_cases _ H) as (x & r & [= <- <-] & X). unfold decode_char.
  destruct X as [[A B]|[(A & B & x1 & E & E1)|[(A & B & F & x1 & x2 & E & E1 & E2)|(A & B & F & G & x1 & x2 & x3 & [= <- <- <-] & E1 & E2 & E3)]]]; try discriminate.
  rewrite A, B, F, G. rewrite cont4_abort by exact E1. right. reflexivity.
Qed.

Section Crashes.
  Context {N : Num}.
  Variable K : host N.
  Notation machine := (machine N).
  Notation mode := (mode N).

  (** * dimensions *)
  Lemma no_unit_iff d : no_unit K d <-> exists x, dp_finish (N := N) (k_range K) d = Ok x /\ d_isFinite x = false.
  Proof.
    unfold no_unit, dp_finish, stof. split.
    - intros ((q & Q & R) & P & U). rewrite Q, R. cbn [bind]. rewrite P. eexists. split; [reflexivity|].
      unfold d_isFinite. cbn [d_unit]. destruct (str2unit (dp_unit d)) as [u|]; [|reflexivity]. destruct (U u eq_refl) as [->|[->| ->]]; reflexivity.
    - intros (x & H & F). destruct (stof_q (dp_factor d)) as [q|]; [|discriminate H]. destruct (k_range K (Qred q)) eqn:R; [|discriminate H].
      cbn [bind] in H. split; [eauto|]. destruct (str2phyunit (dp_unit d)) as [pu|]; [injection H as <-; discriminate F|].
      split; [reflexivity|]. injection H as <-. unfold d_isFinite in F. cbn [d_unit] in F. intros u E. rewrite E in F. destruct u; try discriminate F; auto.
  Qed.

  (** * paragraphs *)
  Lemma bad_lines_iff me b l : crashes (add_paragraph K me b l) <-> bad_lines K me b l.
  Proof.
    unfold add_paragraph, bad_lines. set (P := paragraph me (vb_prevdepth b)).
    assert (E : crashes (do r <- para_lines K P (prepare P l);
        Ok (mkVB (vb_result b ++ vb_result r) (vb_baselineskip b) (vb_lineskip b) (vb_lineskiplimit b) (vb_prevdepth r)))
      <-> crashes (LineBreaks.create (k_pows K) P (prepare P l))).
    { rewrite <- para_lines_create. unfold crashes. destruct (para_lines K P (prepare P l)); cbn [bind rmap]; split; intros [H|H]; try discriminate H; auto. }
    rewrite E. destruct l as [|x l].
    - split; [intros H; exfalso; revert H; apply ok_calm|intros [H _]; exfalso; apply H; reflexivity].
    - assert (NE : prepare P (x :: l) <> []).
      { change (prepare P (x :: l)) with (drop_last_glue (x :: l) ++ [NPenalty 10000; NGlue (p_parfillskip P); NPenalty (-10000)]).
        intros H. apply app_eq_nil in H. destruct H as [_ H]. discriminate H. }
      pose proof (create_ub_iff (k_pows K) P _ NE) as A. destruct (create_no_abort (k_pows K) P (prepare P (x :: l))) as [B _].
      split.
      + intros [H|H]; [|congruence]. split; [discriminate|]. apply A, H.
      + intros [_ H]. left. apply A, H.
  Qed.

  (** * the modes *)
  Definition good_parser (p : mp) : Prop := exists l, Forall code_call l /\ calls l mp_init = Ok p.
  Fixpoint linked (l : list mode) : Prop :=
    match l with
    | [] => True
    | MH h :: r => (h_routine h = RParent -> exists p r', r = MH p :: r') /\ linked r
    | MM st _ p :: r => (good_parser p /\ (st = MMathShift -> forall h r', r <> MH h :: r')) /\ linked r
    | MV _ _ :: r => linked r
    end.
  Lemma change_bottom_cons f m r : r <> [] -> change_bottom (N := N) f (m :: r) = (do r <- change_bottom f r; Ok (m :: r)).
  Proof. destruct r; [congruence|]. destruct m; reflexivity. Qed.
  Lemma low_nonempty (l : list mode) : low l -> l <> []. Proof. destruct l; [intros []|discriminate]. Qed.
  Lemma bottom_linked f l : forall l', low l -> linked l -> change_bottom f l = Ok l' ->
    linked l' /\ forall p r, l = MH p :: r -> exists r', l' = MH p :: r'.
  Proof.
    induction l as [|m l IH]; intros l' L LK H; [destruct L|].
    destruct m as [st b|h|st bu p]; [| |destruct L].
    - destruct l; [|destruct st; destruct L]. cbn in H. apply bind_Ok in H as (x & _ & H). injection H as <-. split; [exact Logic.I|discriminate].
    - destruct L as [HS L]. rewrite change_bottom_cons in H by (apply low_nonempty; exact L).
      apply bind_Ok in H as (r & E & H). injection H as <-. destruct LK as [R LK].
      destruct (IH _ L LK E) as [A B]. split; [|intros p q [= -> ->]; eauto].
      split; [|exact A]. intros X. destruct (R X) as (p & r' & ->). destruct (B _ _ eq_refl) as (r2 & ->). eauto.
  Qed.
  Lemma bottom_page (l : list mode) : low l -> exists b, page_of l b /\ forall f,
    (crashes (change_bottom f l) <-> crashes (f b)).
  Proof.
    induction l as [|m l IH]; intros L; [destruct L|].
    destruct m as [st b|h|st bu p]; [| |destruct L].
    - destruct l; [|destruct st; destruct L]. exists b. split; [exists st, []; reflexivity|]. intros f. cbn [change_bottom].
      unfold crashes. destruct (f b); cbn [bind]; split; intros [H|H]; try discriminate H; auto.
    - destruct L as [_ L]. destruct (IH L) as (b & (st & r & ->) & B). exists b. split; [exists st, (MH h :: r); reflexivity|].
      intros f. rewrite change_bottom_cons by (apply low_nonempty; exact L). rewrite <- B.
      unfold crashes. destruct (change_bottom f _); cbn [bind]; split; intros [H|H]; try discriminate H; auto.
  Qed.
  Lemma page_unique (l : list mode) b b' : page_of l b -> page_of l b' -> b = b'.
  Proof.
    intros (st & r & ->) (st' & r' & H). apply app_inj_tail in H. destruct H as [_ H]. injection H as _ H. exact H.
  Qed.

  (** between two tokens *)
  Definition steady (s : machine) : Prop :=
    modes_ok (ms_modes s) /\ linked (ms_modes s) /\ ms_leave s = false /\ Forall no_param (ms_tokens s) /\
    List.length (ms_mem s) = List.length (p_defs (ms_pre s)).
  Definition wrote (x : machine) : Prop :=
    modes_ok (ms_modes (after x)) /\ linked (ms_modes (after x)) /\ Forall no_param (ms_tokens x) /\
    List.length (ms_mem x) = List.length (p_defs (ms_pre x)).
  Lemma wrote_steady x : wrote x -> steady (after x).
  Proof.
    intros (A & B & C & D). destruct (after_fields x) as (_ & [E F] & G & H).
    split; [exact A|]. split; [exact B|]. split; [exact H|]. rewrite G, E, F. auto.
  Qed.
  Lemma wrote_keep (s : machine) : steady s -> wrote s.
  Proof.
    intros (A & B & C & D & E). unfold wrote, after. rewrite C. auto.
  Qed.
  Lemma wrote_leave (s : machine) l : low (tl l) -> linked (tl l) -> Forall no_param (ms_tokens s) ->
    List.length (ms_mem s) = List.length (p_defs (ms_pre s)) -> wrote (set_leave (set_modes s l) true).
  Proof.
    intros A B C D. unfold wrote, after. cbn. split; [apply low_ok; exact A|]. auto.
  Qed.
  Lemma steady_cur (s : machine) m r m' : ms_modes s = m :: r -> steady s -> modes_ok (m' :: r) -> linked (m' :: r) -> steady (set_cur s m').
  Proof.
    intros E (A & B & C & D & F) M L. unfold steady, set_cur. cbn. rewrite E. cbn [tl]. auto.
  Qed.
  Lemma steady_insert (s : machine) t : steady s -> no_param t -> steady (insert s t).
  Proof. intros (A & B & C & D & F) T. unfold steady. cbn. auto 10. Qed.
  Lemma steady_tokens (s : machine) r : steady s -> Forall no_param r -> steady (set_tokens s r).
  Proof. intros (A & B & C & D & F) T. unfold steady. cbn. auto 10. Qed.
  Lemma mem_out (s : machine) (C : Prop) : (ms_mem s = [] -> C) ->
    out (mem s) (fun me => exists more, ms_mem s = me :: more) C.
  Proof. intros H. unfold mem. destruct (ms_mem s) as [|me more]; cbn; [apply H; reflexivity|eauto]. Qed.
  Lemma unit_out (s : machine) (C : Prop) : (ms_mem s = [] -> C) -> out (unitSystem K s) (fun _ => True) C.
  Proof. intros H. unfold unitSystem. eapply out_bind; [apply mem_out; exact H|]. intros; exact Logic.I. Qed.
  Lemma enter_h_out (s : machine) r (C : Prop) : steady s -> low (ms_modes s) -> (ms_mem s = [] -> C) ->
    (r = RParent -> exists p r', ms_modes s = MH p :: r') ->
    out (enter_h s r) (fun x => steady x /\ low (ms_modes x) /\ ms_mem x = ms_mem s /\ ms_tokens x = ms_tokens s) C.
  Proof.
    intros (A & B & D & E & F) L H R. unfold enter_h. eapply out_bind; [apply mem_out; exact H|]. intros me _ _.
    destruct (ms_modes s) as [|q l] eqn:EM; [destruct L|]. cbn [out]. unfold steady, m_enter. cbn. rewrite EM.
    split; [|auto]. split; [exact L|]. split; [|auto]. split; [exact R|exact B].
  Qed.

  (** * vertical mode *)
  Lemma cs_word n x : cs_is n x = true -> n = str x.
  Proof. unfold cs_is. intros H. destruct (name_eqb_spec n (str x)) as [X|_]; [exact X|discriminate H]. Qed.
  Lemma v_main_out (s : machine) st b0 b t (C : Prop) : ms_modes s = [MV st b0] -> steady s -> no_param t ->
    (ms_mem s = [] -> (exists c k, t = TChar c k /\ k <> MathShift) \/ t = TCs (str "kern"%string) -> C) ->
    out (v_main K s b t) wrote C.
  Proof.
    intros E S T H.
    assert (KEEP : forall st b, steady (set_cur s (MV st b))).
    { intros. apply (steady_cur s _ [] _ E S); exact Logic.I. }
    assert (TEXT : (exists c k, t = TChar c k /\ k <> MathShift) -> out (do s <- enter_h (set_cur s (MV VMain b)) RVertical; Ok (insert s t)) wrote C).
    { intros Z. eapply out_bind.
      - apply (enter_h_out (set_cur s (MV VMain b)) RVertical C (KEEP _ _)); [cbn; rewrite E; exact Logic.I|intros Y; exact (H Y (or_introl Z))|discriminate].
      - intros x _ (X & _). apply wrote_keep. apply steady_insert; assumption. }
    unfold v_main. destruct t as [c k|n|z].
    - destruct (mathshift (TChar c k)) eqn:MS; [apply wrote_keep, KEEP|apply TEXT]. exists c, k. split; [reflexivity|]. intros ->. discriminate MS.
    - destruct (cs_is n "par"); [apply wrote_keep, KEEP|]. destruct (cs_is n "kern") eqn:KN; [|exact Logic.I]. apply cs_word in KN.
      eapply out_bind; [apply unit_out; intros Y; apply (H Y); right; rewrite KN; reflexivity|]. intros us _ _. apply wrote_keep, KEEP.
    - discriminate T.
  Qed.
  Lemma v_write_out (s : machine) st b t (C : Prop) : ms_modes s = [MV st b] -> steady s -> no_param t -> (ms_mem s = [] -> needs K (ms_modes s) t -> C) ->
    out (v_write K s st b t) wrote C.
  Proof.
    intros E S T H. rewrite E in H.
    assert (KEEP : forall st b, steady (set_cur s (MV st b))).
    { intros. apply (steady_cur s _ [] _ E S); exact Logic.I. }
    destruct st as [| |us k]; cbn [v_write].
    - apply (v_main_out s _ b b t C E S T). intros Y [(c & k & -> & X)| ->]; apply (H Y); constructor; exact X.
    - unfold v_mathshift. destruct (mathshift t) eqn:MS.
      + apply wrote_keep. destruct (KEEP VMain b) as (A & B & D & F & G). unfold steady, enter_m, m_enter. cbn. rewrite E. cbn.
        split; [exact Logic.I|]. split; [|auto]. split; [split; [exists []; split; [constructor|reflexivity]|discriminate]|exact Logic.I].
      + eapply out_bind.
        * apply (enter_h_out _ RThrow C (KEEP VMain b)); [cbn; rewrite E; exact Logic.I|intros Y; apply (H Y); constructor; exact MS|discriminate].
        * intros x _ (X & L & M & _). eapply out_bind.
          -- apply (enter_h_out x RVertical C X L); [rewrite M; intros Y; apply (H Y); constructor; exact MS|discriminate].
          -- intros y _ (Y & _). apply wrote_keep. apply steady_insert; [apply steady_insert; assumption|reflexivity].
    - unfold v_kern. destruct t as [c q|n|z]; [| |discriminate T].
      + apply out_any; [apply kp_write_calm|]. intros k' _. destruct (kp_done k'); [|apply wrote_keep, KEEP].
        apply out_any; [apply kp_finish_calm|]. intros x _. apply wrote_keep, KEEP.
      + apply out_any; [apply kp_finish_calm|]. intros x FX. apply (v_main_out s _ b _ (TCs n) C E S T).
        intros Y [(c & q & X & _)|X]; [discriminate X|]. apply (H Y). rewrite X. econstructor. exact FX.
  Qed.

  (** * horizontal mode *)
  Lemma h_output_out (s : machine) m m0 r (C : Prop) : ms_modes s = m0 :: r -> low r -> linked (MH m :: r) ->
    Forall no_param (ms_tokens s) -> List.length (ms_mem s) = List.length (p_defs (ms_pre s)) ->
    (h_routine m = RVertical -> ms_mem s = [] -> C) ->
    (forall me more b, h_routine m = RVertical -> ms_mem s = me :: more -> page_of r b -> bad_lines K me b (hb_result (h_list m)) -> C) ->
    out (h_output K s m) wrote C.
  Proof.
    intros E L [R LK] T LEN H B. unfold h_output. rewrite E. cbn [tl]. destruct (h_routine m) eqn:ER; [exact Logic.I| |].
    - eapply out_bind; [apply mem_out; exact (H eq_refl)|]. intros me _ (more & M).
      destruct (bottom_page r L) as (b & Pb & CB).
      apply out_cases.
      + intros x X. apply bind_Ok in X as (r' & X & Y). injection Y as <-.
        destruct (change_bottom_low _ _ _ L X) as [L' _]. destruct (bottom_linked _ _ _ L LK X) as [LK' _].
        apply wrote_leave; assumption.
      + intros X. apply (B me more b eq_refl M Pb). apply bad_lines_iff. apply (CB (fun b => add_paragraph K me b (hb_result (h_list m)))).
        revert X. unfold crashes. destruct (change_bottom _ r); cbn [bind]; intros [X|X]; try discriminate X; auto.
    - destruct (R eq_refl) as (p & r' & ->). cbn [out]. destruct L as [HS L].
      apply wrote_leave; cbn [tl]; [|  |assumption|assumption].
      + split; [|exact L]. unfold h_write_box. destruct (nonzero (h_lower p)); exact HS.
      + destruct LK as [R' LK]. split; [|exact LK]. intros X. apply R'. revert X. unfold h_write_box. destruct (nonzero (h_lower p)); exact (fun X => X).
  Qed.
  Lemma cs_par n : cs_is n "par" = true -> TCs n = par.
  Proof. unfold cs_is, par. intros H. destruct (name_eqb_spec n (str "par"%string)) as [X|_]; [rewrite X; reflexivity|discriminate H]. Qed.
  Lemma m_endGroup_out (s : machine) m r (C : Prop) : ms_modes s = m :: r -> steady s -> (ms_mem s = [] -> C) ->
    out (m_endGroup s) (fun x => steady x /\ ms_modes x = ms_modes s /\ exists m0, ms_mem s = m0 :: ms_mem x) C.
  Proof.
    intros E (A & B & D & F & G) H. unfold m_endGroup. destruct (ms_mem s) as [|m0 more]; [apply H; reflexivity|].
    unfold endGroup. destruct (p_defs (ms_pre s)) as [|sc d] eqn:ED; [discriminate G|]. cbn [bind out].
    split; [|split; [reflexivity|exists m0; reflexivity]]. unfold steady. cbn. split; [exact A|]. split; [exact B|]. split; [exact D|]. split; [exact F|].
    cbn in G. lia.
  Qed.
  Lemma m_beginGroup_out (s : machine) (C : Prop) : steady s ->
    out (m_beginGroup s) (fun x => steady x /\ ms_modes x = ms_modes s /\ ms_mem s <> []) C.
  Proof.
    intros (A & B & D & F & G). unfold m_beginGroup. cbn. destruct (ms_mem s) as [|m0 more] eqn:EM; [exact Logic.I|]. cbn.
    split; [|split; [reflexivity|discriminate]]. unfold steady. cbn. split; [exact A|]. split; [exact B|]. split; [exact D|]. split; [exact F|].
    cbn in G. lia.
  Qed.

  Lemma h_main_out (s : machine) m m0 r t (C : Prop) : ms_modes s = m0 :: r -> steady s -> low r -> linked (MH m :: r) ->
    h_state m = HMain -> no_param t -> (ms_mem s = [] -> list_needs m t -> C) ->
    (forall c k, t = TChar c k -> k = Letter \/ k = Other -> four_bytes (h_buffer m ++ [byte c]) -> k_debug K = true -> k_signed K = true -> C) ->
    (forall me more b, h_routine m = RVertical -> ms_mem s = me :: more -> page_of r b -> t = par -> bad_lines K me b (hb_result (h_list m)) -> C) ->
    (forall me, h_routine m = RVertical -> ms_mem s = [me] -> closes m t -> C) ->
    (forall m0 me more b, h_routine m = RVertical -> ms_mem s = m0 :: me :: more -> page_of r b -> closes m t -> bad_lines K me b (hb_result (h_list m)) -> C) ->
    out (h_main K s m t) wrote C.
  Proof.
    intros E S L LK HS T Hm Hc Hp Hb1 Hb2. pose proof S as (_ & _ & _ & TK & LEN).
    assert (KEEP : forall m', h_routine m' = h_routine m -> steady (set_cur s (MH m'))).
    { intros m' R. apply (steady_cur s _ r _ E S); [exact L|]. destruct LK as [LK1 LK2]. split; [rewrite R; exact LK1|exact LK2]. }
    unfold h_main. destruct t as [c k|n|z]; [| |discriminate T].
    - assert (CHAR : k = Letter \/ k = Other ->
        out (do ready <- is_utf8_char (h_buffer m ++ [byte c]);
            if ready then
              do x <- decode_char (k_debug K) (k_signed K) (h_buffer m ++ [byte c]);
              do me <- mem s;
              Ok (set_cur s (MH (with_hlist (with_buffer m []) (hb_push_char (k_font K (me_font me)) (h_list m) (fst x)))))
            else Ok (set_cur s (MH (with_buffer m (h_buffer m ++ [byte c]))))) wrote C).
      { intros HK. apply out_any; [apply snoc_calm|]. intros ready ER. destruct ready; [|apply wrote_keep, KEEP; reflexivity].
        apply (out_bind _ _ (fun _ => True)).
        - apply out_cases; [auto|]. intros X. destruct (decode_crash _ _ _ ER X) as (F4 & DB & SG). exact (Hc c k eq_refl HK F4 DB SG).
        - intros x _ _. eapply out_bind; [apply mem_out; intros Y; apply (Hm Y); apply need_char; assumption|]. intros me _ _. apply wrote_keep, KEEP; reflexivity. }
      destruct k; try (apply wrote_keep, KEEP; reflexivity); try (apply CHAR; auto; fail).
      + (* a group begins *)
        unfold h_beginGroup. apply out_cases.
        * intros x X. pose proof (m_beginGroup_out _ C (KEEP (with_depth m ((h_depth m + 1) mod size_mod)%Z) eq_refl)) as Y. rewrite X in Y.
          apply wrote_keep. apply Y.
        * intros X. exact (out_crash _ _ _ (m_beginGroup_out _ C (KEEP (with_depth m ((h_depth m + 1) mod size_mod)%Z) eq_refl)) X).
      + (* a group ends *)
        unfold h_endGroup. set (m' := with_depth m ((h_depth m - 1) mod size_mod)%Z).
        assert (S' : steady (set_cur s (MH m'))) by (apply KEEP; reflexivity).
        eapply out_bind.
        * apply (m_endGroup_out (set_cur s (MH m')) (MH m') r C); [unfold set_cur; cbn; rewrite E; reflexivity|exact S'|intros Y; apply (Hm Y); apply need_end].
        * intros x _ (X & XM & q & XQ). change (h_restricted m') with (h_restricted m). change (h_depth m') with ((h_depth m - 1) mod size_mod)%Z.
          destruct (h_restricted m && ((h_depth m - 1) mod size_mod =? 0)%Z) eqn:BX; [|apply wrote_keep; exact X].
          apply andb_true_iff in BX. destruct BX as [B1 B2]. apply Z.eqb_eq in B2.
          assert (CL : closes m (TChar c GroupEnd)) by (split; [exact HS|]; split; [exact B1|]; split; [exact B2|eauto]).
          pose proof X as (_ & _ & _ & TX & LX).
          apply (h_output_out x m' (MH m') r C); [rewrite XM; unfold set_cur; cbn; rewrite E; reflexivity|exact L|exact LK|exact TX|exact LX| |].
          -- intros R M. change (ms_mem (set_cur s (MH m'))) with (ms_mem s) in XQ. rewrite M in XQ. exact (Hb1 q R XQ CL).
          -- intros me more b R M P B. change (ms_mem (set_cur s (MH m'))) with (ms_mem s) in XQ. rewrite M in XQ. exact (Hb2 q me more b R XQ P CL B).
      + (* a space *)
        eapply out_bind; [apply mem_out; intros Y; apply (Hm Y); apply need_space|]. intros me _ _. apply wrote_keep, KEEP; reflexivity.
    - destruct (cs_is n "par") eqn:PN.
      { apply (h_output_out s m m0 r C E L LK TK LEN); [intros R Y; apply (Hm Y); rewrite (cs_par n PN); apply need_par; exact R|]. intros me more b R M P B. exact (Hp me more b R M P (cs_par n PN) B). }
      destruct (cs_is n "kern") eqn:KN. { apply cs_word in KN. eapply out_bind; [apply unit_out; intros Y; apply (Hm Y); rewrite KN; apply need_kern|]. intros us _ _. apply wrote_keep, KEEP; reflexivity. }
      destruct (cs_is n "hbox") eqn:HN.
      { apply cs_word in HN. assert (Y : low (ms_modes (set_cur s (MH m))) /\ exists p r', ms_modes (set_cur s (MH m)) = MH p :: r').
        { unfold set_cur. cbn. rewrite E. cbn [tl]. split; [split; [exact HS|exact L]|eauto]. }
        destruct Y as [Y1 Y2]. pose proof (enter_h_out (set_cur s (MH m)) RParent C (KEEP m eq_refl) Y1) as Y.
        specialize (Y (fun Z => Hm Z ltac:(rewrite HN; apply need_hbox)) (fun _ => Y2)).
        apply out_cases; [|exact (out_crash _ _ _ Y)]. intros x X. rewrite X in Y. apply wrote_keep. apply Y. }
      destruct (cs_is n "lower"); [apply wrote_keep, KEEP; reflexivity|exact Logic.I].
  Qed.

  Lemma h_write_out (s : machine) m r t (C : Prop) : ms_modes s = MH m :: r -> steady s -> no_param t ->
    (digest_cause K (ms_modes s) (ms_mem s) t -> C) -> (unset K (ms_modes s) (ms_mem s) t -> C) -> out (h_write K s m t) wrote C.
  Proof.
    intros E S T Hd Hu. pose proof S as (MO & LK & _ & TK & LEN). rewrite E in MO, LK, Hd, Hu.
    assert (Hm : ms_mem s = [] -> needs K (MH m :: r) t -> C) by (intros X Y; apply Hu; left; split; assumption).
    assert (KEEP : forall m', h_routine m' = h_routine m -> steady (set_cur s (MH m'))).
    { intros m' R. apply (steady_cur s _ r _ E S); [exact MO|]. destruct LK as [LK1 LK2]. split; [rewrite R; exact LK1|exact LK2]. }
    assert (LK' : forall m', h_routine m' = h_routine m -> linked (MH m' :: r)).
    { intros m' R. destruct LK as [LK1 LK2]. split; [rewrite R; exact LK1|exact LK2]. }
    unfold h_write. destruct (h_state m) as [| |us k|d] eqn:HS.
    - apply (h_main_out s m _ r t C E S MO LK HS T); [intros Y Z; apply (Hm Y); apply needs_list; assumption| | | |].
      + intros c k -> HK F4 DB SG. apply Hd. eapply of_character; eauto. cbn. rewrite HS. reflexivity.
      + intros me more b R M P -> B. apply Hd. eapply of_paragraph; eauto. constructor. exact HS.
      + intros me R M CL. apply Hu. right. exists m, r, me. auto.
      + intros q me more b R M P CL B. apply Hd. eapply of_box; eauto.
    - unfold h_mathshift. destruct (mathshift t) eqn:MS.
      + eapply out_bind.
        * apply (h_output_out (set_cur s (MH (with_hstate m HMain))) (with_hstate m HMain) (MH (with_hstate m HMain)) r C);
            [unfold set_cur; cbn; rewrite E; reflexivity|exact MO|apply LK'; reflexivity|exact TK|exact LEN|intros R Y; destruct (mathshift_dollar t MS) as [c ->]; apply (Hm Y); apply needs_dollars; [exact HS|exact R]|].
          intros me more b R M P B. apply Hd. destruct (mathshift_dollar t MS) as [c ->].
          eapply of_paragraph; [reflexivity|exact R|exact M|exact P|apply end_dollars; exact HS|exact B].
        * intros x _ (A & B & D & F). cbn [out]. unfold wrote, after in *. cbn. split; [|split; [|split]].
          -- destruct (ms_leave x); exact A.
          -- destruct (ms_leave x); exact B.
          -- constructor; [exact T|]. constructor; [exact T|exact D].
          -- exact F.
      + cbn [out]. apply wrote_keep. apply steady_insert; [|exact T].
        pose proof (KEEP (with_hstate m HMain) eq_refl) as (A & B & D & F & G).
        unfold steady, enter_m, m_enter, set_cur in *. cbn in *. rewrite E in *. cbn [tl] in *.
        split; [split; [reflexivity|exact MO]|]. split; [|auto]. split; [split; [exists []; split; [constructor|reflexivity]|discriminate]|exact B].
    - unfold h_kern. destruct t as [c q|n|z]; [| |discriminate T].
      + apply out_any; [apply kp_write_calm|]. intros k' _. destruct (kp_done k'); [|apply wrote_keep, KEEP; reflexivity].
        apply out_any; [apply kp_finish_calm|]. intros x _. apply wrote_keep, KEEP; reflexivity.
      + apply out_any; [apply kp_finish_calm|]. intros x FX.
        set (m' := with_hstate (with_hlist m (hb_push_kern (h_list m) x)) HMain).
        apply (h_main_out (set_cur s (MH m')) m' (MH m') r (TCs n) C);
          [unfold set_cur; cbn; rewrite E; reflexivity|apply KEEP; reflexivity|exact MO|apply LK'; reflexivity|reflexivity|exact T|intros Y Z; apply (Hm Y); eapply needs_after; [exact HS|exact FX|]; inversion Z; subst; constructor; assumption| | | |].
        * intros c q H. discriminate H.
        * intros me more b R M P EP B. apply Hd. eapply of_paragraph; [reflexivity|exact R|exact M|exact P| |exact B]. rewrite EP. eapply end_kern; eauto.
        * intros me _ _ (_ & _ & _ & c & H). discriminate H.
        * intros q me more b _ _ _ (_ & _ & _ & c & H). discriminate H.
    - unfold h_lowering.
      apply (out_bind _ _ (fun d' => isControlSequence t = true \/ dp_isFinished d' = true -> completes d t d')).
      { destruct t as [c q|n|z]; [|intros _; constructor|discriminate T].
        apply out_cases; [|intros X; exfalso; exact (dp_write_calm d c X)]. intros d' W [X|X]; [discriminate X|]. constructor; assumption. }
      intros d' _ CP. destruct (isControlSequence t || dp_isFinished d') eqn:FI; [|apply wrote_keep, KEEP; reflexivity].
      apply orb_true_iff in FI. specialize (CP FI).
      apply out_any; [apply dp_finish_calm|]. intros x FX.
      assert (Hl : ms_mem s = [] -> C) by (intros Y; apply (Hm Y); eapply needs_lower; eassumption).
      eapply out_bind; [apply unit_out; exact Hl|]. intros us _ _.
      destruct (d_isFinite x) eqn:FF.
      2:{ rewrite (d_eval_infinite x us FF). cbn [bind out]. apply Hd. eapply of_lower; [reflexivity|exact HS|exact CP|]. apply no_unit_iff. eauto. }
      destruct (d_eval_finite x us FF) as [v ->]. cbn [bind].
      set (m' := with_hstate (with_lower m v) HMain).
      destruct (isControlSequence t) eqn:CS; [|apply wrote_keep, KEEP; reflexivity].
      destruct t as [c q|n|z]; [discriminate CS| |discriminate CS]. inversion CP; subst.
      apply (h_main_out (set_cur s (MH m')) m' (MH m') r (TCs n) C);
          [unfold set_cur; cbn; rewrite E; reflexivity|apply KEEP; reflexivity|exact MO|apply LK'; reflexivity|reflexivity|exact T|intros Y _; exact (Hl Y)| | | |].
      + intros c q H. discriminate H.
      + intros me more b R M P EP B. apply Hd. apply (of_paragraph K _ _ _ m r me more b (hb_result (h_list m)) eq_refl R M P); [|exact B]. rewrite EP. eapply end_lower; eauto.
      + intros me _ _ (_ & _ & _ & c & H). discriminate H.
      + intros q me more b _ _ _ (_ & _ & _ & c & H). discriminate H.
  Qed.

  (** * math mode *)
  Lemma parser_step p k p' : good_parser p -> code_call k -> do_call p k = Ok p' -> good_parser p'.
  Proof.
    intros (l & F & E) CK H. exists (l ++ [k]). split; [apply Forall_app; auto|]. apply calls_snoc. eauto.
  Qed.
  Lemma parser_out p k : good_parser p -> code_call k ->
    out (do_call p k) good_parser (waiting p = true /\ do_call p k = UB /\ (k = CBegin \/ exists y, k = CSym y)).
  Proof.
    intros G CK. apply out_cases; [intros p' H; exact (parser_step p k p' G CK H)|]. destruct G as (l & _ & E).
    destruct (parser_stacks l k p E) as (A & _ & B). intros [H|H]; [|contradiction]. destruct (B H) as [W X]. auto.
  Qed.
  Lemma nodes_calm (sub : nat -> result (list (mnode N))) : (forall i, ~ crashes (sub i)) ->
    forall l acc, ~ crashes (foldM (fun l n => do x <- node_val sub n; Ok (l ++ [x])) (l : list MathParser.hnode) acc).
  Proof.
    intros HS l. induction l as [|n l IH]; intros acc; [calm|]. cbn [foldM].
    apply calm_bind; [|intros a _; apply IH]. apply calm_bind; [|intros; calm].
    assert (FO : forall r, ~ crashes (field_of sub r)).
    { intros [[y|i]|]; cbn [field_of]; try calm. apply calm_bind; [apply HS|intros; calm]. }
    destruct n as [ty nu sp sb|y|a b|a b|cells cols|y]; cbn [node_val]; try calm.
    - apply calm_bind; [apply FO|]. intros ? _. apply calm_bind; [apply FO|]. intros ? _. apply calm_bind; [apply FO|]. intros; calm.
    - apply calm_bind; [apply HS|]. intros ? _. apply calm_bind; [apply HS|]. intros; calm.
    - apply calm_bind; [apply HS|]. intros ? _. apply calm_bind; [apply HS|]. intros; calm.
    - apply calm_bind; [|intros; calm].
      assert (CE : forall acc, ~ crashes (foldM (fun l i => do x <- sub i; Ok (l ++ [x])) cells acc)); [|apply CE].
      induction cells as [|i cells IHc]; intros acc'; [calm|]. cbn [foldM].
      apply calm_bind; [|intros; apply IHc]. apply calm_bind; [apply HS|intros; calm].
  Qed.
  Lemma output_calm fuel p : ~ crashes (output (N := N) fuel p).
  Proof.
    unfold output. generalize 0. induction fuel as [|n IH]; intros i; [intros [H|H]; discriminate H|].
    cbn [list_val]. apply (nodes_calm (list_val (mp_heap p) n) IH).
  Qed.
  Lemma m_finish_out (s : machine) st buf p m0 r (C : Prop) : ms_modes s = m0 :: r -> low r -> linked r -> good_parser p ->
    Forall no_param (ms_tokens s) -> List.length (ms_mem s) = List.length (p_defs (ms_pre s)) -> (forall vs b, ms_mem s = [] -> r = [MV vs b] -> shown K D p -> C) ->
    (forall h r', r = MH h :: r' -> cannot_show K T p -> C) -> (forall vs b, r = [MV vs b] -> cannot_show K D p -> C) ->
    out (m_finish K s st buf p) wrote C.
  Proof.
    intros E L LK G TK LEN Hm HT HD. unfold m_finish.
    apply (out_bind _ _ (fun _ => True)).
    - apply out_cases; [auto|]. intros X. destruct (out_crash _ _ _ (parser_out p CFinish G Logic.I) X) as (_ & _ & [H|[y H]]); discriminate H.
    - intros p' EF _. unfold m_output. rewrite E. cbn [tl]. destruct r as [|[vs b|h|] r]; try destruct L.
      + destruct vs, r; try destruct L. apply out_any; [apply output_calm|]. intros ml EO.
        apply (out_bind _ _ (fun _ => True)).
        * apply out_cases; [auto|]. intros X. apply (HD VMain b eq_refl). exists p', ml. auto.
        * intros x EX _. eapply out_bind; [apply mem_out; intros Y; apply (Hm VMain b Y eq_refl); exists p', ml, x; auto|]. intros me _ _. cbn [out]. apply wrote_leave; [exact Logic.I|exact Logic.I|exact TK|exact LEN].
      + apply out_any; [apply output_calm|]. intros ml EO.
        apply (out_bind _ _ (fun _ => True)).
        * apply out_cases; [auto|]. intros X. apply (HT h r eq_refl). exists p', ml. auto.
        * intros x _ _. cbn [out]. apply wrote_leave; cbn [tl]; [split; assumption|exact LK|exact TK|exact LEN].
  Qed.
  Lemma csmap_no_brace n k : cs_call n = Ok k -> k <> CBegin.
  Proof.
    unfold cs_call. destruct (assoc n csmap) as [c|] eqn:A.
    - intros [= <-]. apply assoc_in in A. intros ->. revert A.
      assert (X : forallb (fun c => match c with CBegin => false | _ => true end) (map snd csmap) = true) by (vm_compute; reflexivity).
      intros A. rewrite forallb_forall in X. specialize (X _ A). discriminate X.
    - destruct (assoc n symbolsmap) as [[z code]|]; [|discriminate]. intros [= <-]. discriminate.
  Qed.

  Lemma m_write_out (s : machine) st buf p r t (C : Prop) : ms_modes s = MM st buf p :: r -> steady s -> no_param t ->
    (digest_cause K (ms_modes s) (ms_mem s) t -> C) -> (unset K (ms_modes s) (ms_mem s) t -> C) -> out (m_write K s st buf p t) wrote C.
  Proof.
    intros E S T Hd Hu. pose proof S as (MO & LK & _ & TK & LEN). rewrite E in MO, LK, Hd, Hu.
    assert (Hm : ms_mem s = [] -> needs K (MM st buf p :: r) t -> C) by (intros X Y; apply Hu; left; split; assumption). destruct LK as [[G SH] LK].
    assert (KEEP : forall buf p', good_parser p' -> steady (set_cur s (MM MMain buf p'))).
    { intros buf' p' G'. apply (steady_cur s _ r _ E S); [exact MO|]. split; [split; [exact G'|discriminate]|assumption]. }
    destruct st; cbn [m_write].
    2:{ destruct (mathshift t) eqn:MS; [|exact Logic.I]. destruct (mathshift_dollar t MS) as [c ->].
        apply (m_finish_out s MMathShift buf p _ r C E MO LK G TK LEN).
        - intros vs b Y -> Z. apply (Hm Y). constructor. exact Z.
        - intros h r' X _. destruct (SH eq_refl h r' X).
        - intros vs b -> B. apply Hd. eapply of_display; eauto. }
    assert (SYM : forall buf' k, code_call k -> (waiting p = true -> do_call p k = UB -> k = CBegin \/ (exists y, k = CSym y) -> C) ->
              out (do p <- do_call p k; Ok (set_cur s (MM MMain buf' p))) wrote C).
    { intros buf' k CK X. eapply out_bind.
      - apply out_cases; [intros p' H; exact (parser_step p k p' G CK H)|]. intros Y.
        destruct (out_crash _ _ _ (parser_out p k G CK) Y) as (W & U & Z). exact (X W U Z).
      - intros p' _ G'. apply wrote_keep, KEEP; exact G'. }
    unfold m_main. destruct t as [c k|n|z]; [| |discriminate T].
    - assert (CHAR : k = Letter \/ k = Other ->
        out (do ready <- is_utf8_char (buf ++ [byte c]);
            if ready then
              do x <- decode_char (k_debug K) (k_signed K) (buf ++ [byte c]);
              do p <- MathFrontend.writeSymbol (k_signed K) (fst x) p;
              Ok (set_cur s (MM MMain [] p))
            else Ok (set_cur s (MM MMain (buf ++ [byte c]) p))) wrote C).
      { intros HK. apply out_any; [apply snoc_calm|]. intros ready ER. destruct ready; [|apply wrote_keep, KEEP; exact G].
        apply (out_bind _ _ (fun _ => True)).
        - apply out_cases; [auto|]. intros X. destruct (decode_crash _ _ _ ER X) as (F4 & DB & SG). apply Hd.
          exact (of_character K _ _ _ (MM MMain buf p) r buf c k eq_refl eq_refl eq_refl HK F4 DB SG).
        - intros [x rest] DX _. cbn [fst]. unfold MathFrontend.writeSymbol. destruct (x <? 128)%Z eqn:LT; [|exact Logic.I].
          apply SYM; [apply char_sym_code|]. intros W U _. apply Hd. eapply of_argument; [reflexivity| |cbn; destruct HK as [-> | ->]; discriminate]. split; [exact W|].
          eexists. split; [eapply arg_char; eauto; apply Z.ltb_lt; exact LT|exact U]. }
      destruct k; try (apply wrote_keep, KEEP; exact G); try (apply CHAR; auto; fail).
      + (* begin *) eapply out_bind; [apply (m_beginGroup_out s C S)|]. intros x _ (X & XM & XN). unfold PageEditor.m_call.
        eapply out_bind.
        * apply out_cases; [intros p' H; exact (parser_step p CBegin p' G Logic.I H)|]. intros Y.
          destruct (out_crash _ _ _ (parser_out p CBegin G Logic.I) Y) as (W & U & _). apply Hd. eapply of_argument; [reflexivity| |intros _; exact XN]. split; [exact W|].
          exists CBegin. split; [constructor|exact U].
        * intros p' _ G'. apply wrote_keep. apply (steady_cur x (MM MMain buf p) r); [rewrite XM; exact E|exact X|exact MO|split; [split; [exact G'|discriminate]|assumption]].
      + (* end *) unfold PageEditor.m_call.
        apply (out_bind _ _ (fun x => exists p', good_parser p' /\ do_call p CEnd = Ok p' /\ x = set_cur s (MM MMain buf p'))).
        * apply (out_bind _ _ good_parser).
          -- apply out_cases; [intros p' H; exact (parser_step p CEnd p' G Logic.I H)|]. intros Y.
             destruct (out_crash _ _ _ (parser_out p CEnd G Logic.I) Y) as (_ & _ & [H|[y H]]); discriminate H.
          -- intros p' EP G'. cbn [out]. eauto.
        * intros x _ (p' & G' & EP & ->). assert (Y := m_endGroup_out (set_cur s (MM MMain buf p')) (MM MMain buf p') r C ltac:(unfold set_cur; cbn; rewrite E; reflexivity) (KEEP _ _ G') (fun Z => Hm Z (needs_end K buf p p' r c EP))).
          apply out_cases; [|exact (out_crash _ _ _ Y)]. intros x X. rewrite X in Y. apply wrote_keep. apply Y.
      + (* math shift *) rewrite E. cbn [tl]. destruct r as [|q r]; [destruct MO|]. destruct q as [vs b|h|? ? ?]; cbn [mode_kind]; [| |destruct MO].
        * apply wrote_keep, (steady_cur s _ _ _ E S); [exact MO|]. split; [split; [exact G|discriminate]|exact LK].
        * apply (m_finish_out s MMain buf p _ (MH h :: r) C E MO LK G TK LEN).
          -- intros vs b _ H. discriminate H.
          -- intros h' r' [= -> ->] B. apply Hd. eapply of_formula; eauto.
          -- intros vs b H. discriminate H.
      + apply SYM; [exact Logic.I|]. intros _ _ [X|[y X]]; discriminate X.
      + apply SYM; [exact Logic.I|]. intros _ _ [X|[y X]]; discriminate X.
    - unfold writeControlSequence. destruct (cs_call_cases n) as [[k EK]|EK]; rewrite EK; [cbn [bind]|exact Logic.I].
      apply SYM; [exact (cs_call_code n k EK)|]. intros W U [X|[y X]]; [exfalso; exact (csmap_no_brace n k EK X)|subst k].
      apply Hd. eapply of_argument; [reflexivity| |discriminate]. split; [exact W|]. exists (CSym y). split; [constructor; exact EK|exact U].
  Qed.
  Lemma mode_write_out (s : machine) t (C : Prop) : steady s -> no_param t ->
    (digest_cause K (ms_modes s) (ms_mem s) t -> C) -> (unset K (ms_modes s) (ms_mem s) t -> C) -> out (mode_write K s t) wrote C.
  Proof.
    intros S T Hd Hu. unfold mode_write. pose proof S as (MO & _). destruct (ms_modes s) as [|[st b|h|st buf p] r] eqn:E; [destruct MO| | |].
    - destruct r; [|destruct st; destruct MO]. apply (v_write_out s st b t C E S T). intros X Y. apply Hu. left. rewrite E in Y. split; assumption.
    - apply (h_write_out s h r t C E S T); rewrite E; assumption.
    - apply (m_write_out s st buf p r t C E S T); rewrite E; assumption.
  Qed.

  (** * digesting tokens *)
  Lemma digestToken_out (s : machine) (C : Prop) : steady s ->
    (forall t r, ms_tokens s = t :: r -> digest_cause K (ms_modes s) (ms_mem s) t \/ unset K (ms_modes s) (ms_mem s) t -> C) ->
    out (digestToken K s) (fun x => steady (fst x)) C.
  Proof.
    intros S H. unfold digestToken. destruct (ms_tokens s) as [|t r] eqn:E; [exact S|].
    pose proof S as (_ & _ & _ & TK & _). rewrite E in TK.
    eapply out_bind.
    - apply (mode_write_out (set_tokens s r) t C); [apply steady_tokens; [exact S|exact (Forall_inv_tail TK)]|exact (Forall_inv TK)| |].
      + intros X. exact (H t r eq_refl (or_introl X)).
      + intros X. exact (H t r eq_refl (or_intror X)).
    - intros x _ W. exact (wrote_steady x W).
  Qed.
  Lemma digest_out n : forall (s : machine) (C : Prop), steady s ->
    (forall s' t r, digests K s s' -> ms_tokens s' = t :: r ->
       digest_cause K (ms_modes s') (ms_mem s') t \/ unset K (ms_modes s') (ms_mem s') t -> C) ->
    out (digest K n s) steady C.
  Proof.
    induction n as [|n IH]; intros s C S H; [exact Logic.I|]. cbn [digest].
    apply (out_bind _ _ (fun x => steady (fst x))).
    - apply digestToken_out; [exact S|]. intros t r E X. exact (H s t r (digests_refl K s) E X).
    - intros [x b] E X. cbn [fst snd] in *. destruct b; [|exact X]. apply IH; [exact X|].
      intros s' t r D. apply H. exact (digests_step K s x s' E D).
  Qed.

  (** * the end of the text *)
  Lemma change_bottom_length f (l : list mode) : forall l', change_bottom f l = Ok l' -> List.length l' = List.length l.
  Proof.
    induction l as [|m l IH]; intros l' H; [discriminate H|]. destruct l as [|m' l].
    - destruct m; try discriminate H. cbn [change_bottom] in H. apply bind_Ok in H as (b' & _ & H). injection H as <-. reflexivity.
    - rewrite change_bottom_cons in H by discriminate. apply bind_Ok in H as (x & X & H). injection H as <-. cbn [List.length]. rewrite (IH x X). reflexivity.
  Qed.
  Lemma mode_finish_ok (s x : machine) : tl (ms_modes s) <> [] -> modes_ok (ms_modes s) -> mode_finish K s = Ok x ->
    ms_leave x = true /\ ms_mem x = ms_mem s /\ List.length (ms_modes x) = List.length (ms_modes s).
  Proof.
    unfold mode_finish. destruct (ms_modes s) as [|[st b|h|st buf p] r] eqn:E; intros T M H; [discriminate H| | |].
    - cbn in T, M. destruct r; [congruence|]. destruct st; destruct M.
    - unfold h_output in H. rewrite E in H. cbn [tl] in H. destruct (h_routine h); [discriminate H| |].
      + apply bind_Ok in H as (me & _ & H). apply bind_Ok in H as (l & X & H). apply change_bottom_length in X. injection H as <-. cbn. auto.
      + destruct r as [|[? ?|q|? ? ?] r]; try discriminate H. injection H as <-. cbn. auto.
    - unfold m_finish in H. apply bind_Ok in H as (p' & _ & H). unfold m_output in H. rewrite E in H. cbn [tl] in H.
      destruct r as [|[vs b|q|? ? ?] r]; try discriminate H.
      + apply bind_Ok in H as (ml & _ & H). apply bind_Ok in H as (y & _ & H). apply bind_Ok in H as (me & _ & H). injection H as <-. cbn. auto.
      + apply bind_Ok in H as (ml & _ & H). apply bind_Ok in H as (y & _ & H). injection H as <-. cbn. auto.
  Qed.
  Lemma mode_finish_out (s : machine) (C : Prop) : steady s -> tl (ms_modes s) <> [] -> (ms_mem s = [] -> finish_needs K (ms_modes s) -> C) ->
    (finish_cause K (ms_modes s) (ms_mem s) -> C) -> out (mode_finish K s) wrote C.
  Proof.
    intros S TL Hm H. pose proof S as (MO & LK & _ & TK & LEN). unfold mode_finish.
    destruct (ms_modes s) as [|[st b|h|st buf p] r] eqn:E; [destruct MO| | |].
    - apply wrote_keep, S.
    - apply (h_output_out s h (MH h) r C E MO LK TK LEN); [intros R Y; apply (Hm Y); constructor; exact R|]. intros me more b R M P B. apply H. eapply fin_paragraph; eauto.
    - destruct LK as [[G SH] LK]. apply (m_finish_out s st buf p _ r C E MO LK G TK LEN).
      + intros vs b Y -> Z. apply (Hm Y). constructor. exact Z.
      + intros h r' -> B. apply H. eapply fin_formula; eauto.
      + intros vs b -> B. apply H. eapply fin_display; eauto.
  Qed.
  Lemma finish_out n : forall (s : machine) (C : Prop), steady s -> List.length (ms_modes s) = Datatypes.S n ->
    (forall s', finishes K s s' -> ms_mem s' = [] -> finish_needs K (ms_modes s') -> C) ->
    (forall s', finishes K s s' -> finish_cause K (ms_modes s') (ms_mem s') -> C) -> out (finish_modes K n s) steady C.
  Proof.
    induction n as [|n IH]; intros s C S LN Hm H; cbn [finish_modes].
    - pose proof S as (MO & _). unfold mode_finish. destruct (ms_modes s) as [|[st b|h|st buf p] [|]]; try discriminate LN; try destruct MO. exact S.
    - assert (TL : tl (ms_modes s) <> []) by (destruct (ms_modes s) as [|? [|]]; discriminate || (cbn in LN; lia)).
      eapply out_bind; [apply (mode_finish_out s C S TL (Hm s (finishes_refl K s))); intros X; exact (H s (finishes_refl K s) X)|].
      intros x EX W. destruct (mode_finish_ok s x TL (proj1 S) EX) as (LV & MM & LL).
      assert (Y : steady (set_modes (set_leave x false) (tl (ms_modes x)))).
      { pose proof (wrote_steady x W) as Y. unfold after in Y. rewrite LV in Y. exact Y. }
      apply IH; [exact Y| | |].
      + cbn. rewrite LN in LL. destruct (ms_modes x); cbn in *; lia.
      + intros s' F. apply Hm. exact (finishes_step K s x s' TL EX F).
      + intros s' F. apply H. exact (finishes_step K s x s' TL EX F).
  Qed.
End Crashes.
