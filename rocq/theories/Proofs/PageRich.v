(** From a text with fonts, kerns, formulas and displays to the page. *)
From Coq Require Import List Ascii String ZArith Bool Arith Lia.
From Verif.Base Require Import Result Num.
From Verif.Model Require Import Unicode Token Lexer Macro Dimen DimenParser Glue Box
  ListBuilders LineBreaks MathList MathParser MathTypeset MathFrontend PageEditor Preprocessor.
From Verif.Spec Require Import LexerSpec UnicodeSpec DimenSpec MathSpec EquationSpec PageEditorSpec PageTextSpec RichTextSpec.
From Verif.Proofs Require Import LexerProofs UnicodeProofs FormulaProofs MathProofs EquationProofs
  PageStream PageMachine PageRun PageFrame PageFindings PageDeliver PageQuiet PageText.
From Verif.Proofs Require DimenProofs.
Import ListNotations.
Local Open Scope nat_scope.

(** ** The list of a formula, with its depth *)
Lemma heights_cons t l : heights (t :: l) = Nat.max (height t) (heights l). Proof. reflexivity. Qed.
Section Values.
  Context {N : Num}.
  Variable h : nat -> list MathParser.hnode.
  Notation lv := (list_val (N := N) h).
  Lemma reads_height :
    (forall n t, r_node h n t -> forall d, height t <= d -> node_val (lv d) n = Ok (value t)) /\
    (forall r c, r_ref h r c -> forall d, height_of c <= d -> field_of (lv d) r = Ok (part c)) /\
    (forall l x, r_list h l x -> forall d, heights x <= d -> Forall2 (fun n t => node_val (lv d) n = Ok (value t)) l x) /\
    (forall is xs, r_lists h is xs -> forall d, Datatypes.S (fold_right Nat.max 0 (map heights xs)) <= d ->
       Forall2 (fun i x => lv d i = Ok (map value x)) is xs).
  Proof.
    assert (Hl : forall i x, (forall d, heights x <= d -> Forall2 (fun n t => node_val (lv d) n = Ok (value t)) (h i) x) ->
      forall d, Datatypes.S (heights x) <= d -> lv d i = Ok (map value x)).
    { intros i x H [|d] Hd; [lia|]. cbn [list_val]. apply nodes_val_all, H. lia. }
    apply r_ind.
    - intros ty a b c x y z _ H1 _ H2 _ H3 d Hd. cbn [height] in Hd. cbn [node_val].
      rewrite H1, H2, H3 by lia. reflexivity.
    - reflexivity.
    - intros n d x y _ H1 _ H2 e He. cbn [height] in He. fold (heights x) in He. fold (heights y) in He. cbn [node_val].
      rewrite (Hl n x H1), (Hl d y H2) by lia. reflexivity.
    - intros n d x y _ H1 _ H2 e He. cbn [height] in He. fold (heights x) in He. fold (heights y) in He. cbn [node_val].
      rewrite (Hl n x H1), (Hl d y H2) by lia. reflexivity.
    - intros is cols xs _ H d Hd. cbn [height] in Hd. cbn [node_val].
      rewrite (cells_val_gen _ _ _ _ (H d Hd)). reflexivity.
    - reflexivity.
    - reflexivity.
    - reflexivity.
    - intros i x _ H d Hd. cbn [height_of] in Hd. fold (heights x) in Hd. cbn [field_of]. rewrite (Hl i x H) by lia. reflexivity.
    - constructor.
    - intros n t l x _ H1 _ H2 d Hd. rewrite heights_cons in Hd. constructor; [apply H1; lia|apply H2; lia].
    - constructor.
    - intros i x is xs _ H1 _ H2 d Hd. cbn [map fold_right] in Hd.
      constructor; [apply (Hl i x H1); lia|apply H2; lia].
  Qed.
End Values.
Lemma output_height {N : Num} m ts fuel : output_is m ts -> heights ts < fuel -> output (N := N) fuel m = Ok (map value ts).
Proof.
  intros H L. destruct fuel as [|d]; [lia|]. unfold output. cbn [list_val].
  apply nodes_val_all, (proj1 (proj2 (proj2 (reads_height (N := N) (mp_heap m))))); [exact H|lia].
Qed.

(** ** Braces of a formula *)
Definition level (k : option nat) (c : call) : option nat :=
  match k with
  | None => None
  | Some k => match c with
              | CBegin => Some (Datatypes.S k)
              | CEnd => match k with O => None | Datatypes.S k => Some k end
              | _ => Some k
              end
  end.
Definition levels (l : list call) (k : nat) : option nat := fold_left level l (Some k).
Definition even (l : list call) : Prop := forall k, levels l k = Some k.
Lemma levels_cons c l k : levels (c :: l) k = match level (Some k) c with Some k => levels l k | None => None end.
Proof.
  unfold levels. cbn [fold_left]. destruct (level (Some k) c); [reflexivity|].
  induction l as [|x l IH]; [reflexivity|exact IH].
Qed.
Lemma even_app a b : even a -> even b -> even (a ++ b).
Proof. intros A B k. unfold levels. rewrite fold_left_app. fold (levels a k). rewrite A. apply B. Qed.
Lemma even_nil : even []. Proof. intros k. reflexivity. Qed.
Lemma even_cons c l : (forall k, level (Some k) c = Some k) -> even l -> even (c :: l).
Proof. intros C L k. rewrite levels_cons, C. apply L. Qed.
Lemma even_braces g l : even g -> even l -> even (CBegin :: g ++ CEnd :: l).
Proof.
  intros G L k. rewrite levels_cons. cbn [level]. unfold levels. rewrite fold_left_app. fold (levels g (Datatypes.S k)).
  rewrite G. cbn [fold_left level]. apply L.
Qed.
Lemma formula_even :
  (forall deg e (t : list tree), items deg e t -> even e) /\ (forall deg e (t : tree), item deg e t -> even e) /\
  (forall e (a b : content), scripts e a b -> even e) /\ (forall e (a : content), script e a -> even e) /\
  (forall deg e (t : list tree), body deg e t -> even e) /\ (forall e (t : list tree), MathSpec.group e t -> even e) /\
  (forall e (t : list tree), argument e t -> even e) /\ (forall e (t : list (list (list tree))), table e t -> even e) /\
  (forall e (t : list (list tree)), row e t -> even e).
Proof.
  apply formula_ind; intros;
    repeat first [ assumption | apply even_nil | apply even_braces | (apply even_cons; [reflexivity|]) | apply even_app ].
Qed.

(** ** The dimension parser *)
Lemma dp_still p c : dp_isFinished p = true -> dp_write p c = Ok p.
Proof. unfold dp_isFinished, dp_write. destruct (dp_st p); try discriminate. reflexivity. Qed.
Lemma dp_stills p d : dp_isFinished p = true -> dp_writes p d = Ok p.
Proof. intros F. unfold dp_writes. induction d as [|c d IH]; [reflexivity|]. cbn [foldM]. now rewrite dp_still. Qed.
Lemma dp_stop {N : Num} rg p c : dp_hasResult p = true -> dp_isFinished p = false -> ~ lower c ->
  exists p', dp_write p c = Ok p' /\ dp_isFinished p' = true /\ dp_finish (N := N) rg p' = dp_finish rg p.
Proof.
  intros H F L. unfold dp_write, dp_hasResult, dp_isFinished in *. destruct (dp_st p) eqn:E; try discriminate.
  assert (X : is_lowercase_letter c = false).
  { now apply DimenProofs.is_lower_false. }
  rewrite X. cbn iota. rewrite H. eexists. split; [reflexivity|]. split; reflexivity.
Qed.
Lemma pp_still {N : Num} rg (us : unitsystem N) p c p' : pp_st p = PFinished -> pp_write rg us p c = Ok p' -> pp_st p' = PFinished.
Proof. unfold pp_write. intros E. rewrite E. destruct (ceq c " "); [|discriminate]. intros [= <-]. exact E. Qed.

(** ** The machine between two tokens *)
Definition few (d : list scope) : Prop := forall n, find_ptr n d <> None -> n = str "begin" \/ n = str "end".
Lemma few_tail sc d : few (sc :: d) -> few d.
Proof. intros F n H. apply F. cbn [find_ptr]. destruct (table_find n (sc_macros sc)); [discriminate|exact H]. Qed.
Lemma unexpanded_none n d : unexpanded n -> few d -> find_ptr n d = None.
Proof.
  intros U F. destruct (find_ptr n d) eqn:E; [|reflexivity]. exfalso. apply U.
  destruct (F n) as [->| ->]; [congruence| |]; cbn; tauto.
Qed.
Definition idle_q (p : Preprocessor.pstate) : Prop :=
  p_input p = [] /\ p_output p = [] /\ (exists f, p_frames p = FIdle :: f) /\ few (p_defs p).
Definition unread (t : token) : Prop :=
  match t with TChar _ _ => True | TCs n => unexpanded n | TParam _ => False end.
Lemma name_eqb_out n w l : ~ In n (map str l) -> In w l -> name_eqb n (str w) = false.
Proof.
  intros H I. destruct (name_eqb n (str w)) eqn:E; [|reflexivity]. exfalso. apply H.
  destruct (name_eqb_spec n (str w)); [subst; now apply in_map|discriminate].
Qed.
Lemma pre_pass p t : idle_q p -> unread t -> pwrite p t = Ok (set_output p [t]).
Proof.
  intros (I & O & (f & F) & FW) U. unfold pwrite. rewrite I. unfold process. rewrite F, O. destruct t as [c k|n|z]; [reflexivity| |destruct U].
  unfold processControlSeq, DEF, IFBR, CSNAME, EXPANDAFTER.
  cbn [unread] in U. pose proof (unexpanded_none n _ U FW) as P. unfold unexpanded in U.
  rewrite (name_eqb_out n "def" _ U), (name_eqb_out n "ifbr" _ U), (name_eqb_out n "csname" _ U), (name_eqb_out n "expandafter" _ U), P, O
    by (cbn; tauto). reflexivity.
Qed.

Section Rich.
  Context {N : Num}.
  Variable K : host N.
  Hypothesis zero : nonzero (n0 : N) = false.
  Notation machine := (machine N).
  Notation hmode := (hmode N).
  Notation env := (env N).

  Lemma tok_as s t : idle_q (ms_pre s) -> unread t ->
    tok_step K s t = do x <- as_write K s t;
                     digest K (digest_fuel (set_tokens (fst x) (ms_tokens (fst x) ++ snd x)))
                              (set_tokens (fst x) (ms_tokens (fst x) ++ snd x)).
  Proof.
    intros P U. pose proof (pre_pass _ _ P U) as W. unfold tok_step. rewrite W. cbn [bind]. unfold sendToken. cbn [ms_pre set_pre].
    change (p_output (set_output (ms_pre s) [t])) with [t]. cbn iota.
    assert (E : set_pre (set_pre s (set_output (ms_pre s) [t])) (set_output (set_output (ms_pre s) [t]) []) = s).
    { destruct P as (_ & O & _). destruct s. cbn in O. destruct ms_pre. cbn in O. subst. reflexivity. }
    rewrite E. destruct (as_write K s t); reflexivity.
  Qed.
  Lemma tok_assign s t s' : idle_q (ms_pre s) -> unread t -> as_write K s t = Ok (s', []) -> ms_tokens s' = [] ->
    tok_step K s t = Ok s'.
  Proof.
    intros P U A T. rewrite (tok_as s t P U), A. cbn [bind fst snd]. rewrite T. cbn [app].
    assert (E : set_tokens s' [] = s') by (destruct s'; cbn in *; now subst). rewrite E.
    unfold digest_fuel. rewrite Nat.add_comm. cbn [Nat.add digest]. unfold digestToken. rewrite T. reflexivity.
  Qed.

  Definition ready (e : env) (s : machine) : Prop :=
    ms_as s = AMain /\ (forall n, find_font n (ms_fonts s) = e_font e n) /\ ms_loads s = e_loads e /\
    ms_tokens s = [] /\ ms_leave s = false /\ (exists r, ms_mem s = e_mem e :: r) /\ idle_q (ms_pre s).
  Definition passes (e : env) (t : token) : Prop :=
    match t with TChar _ _ => True | TCs n => ordinary e n | TParam _ => False end.
  Lemma passes_unread e t : passes e t -> unread t.
  Proof. destruct t as [c k|n|z]; cbn; [auto| |auto]. intros (U & _). exact U. Qed.
  Lemma ready_input e s : ready e s -> p_input (ms_pre s) = [].
  Proof. intros (_ & _ & _ & _ & _ & _ & (I & _)). exact I. Qed.
  Lemma ready_tokens e s : ready e s -> set_tokens s [] = s.
  Proof. intros (_ & _ & _ & T & _). destruct s; cbn in *. now subst. Qed.
  Lemma ready_leave e s : ready e s -> ms_leave s = false.
  Proof. intros (_ & _ & _ & _ & L & _). exact L. Qed.

  Lemma tok_pass e s t : ready e s -> passes e t -> tok_step K s t = digest K (digest_fuel s) (set_tokens s [t]).
  Proof.
    intros (A & B & C & D & E & _ & P) PT. rewrite tok_as by (assumption || exact (passes_unread _ _ PT)).
    assert (W : as_write K s t = Ok (s, [t])).
    { unfold as_write. rewrite A. unfold as_main. destruct t as [c k|n|z]; try reflexivity.
      destruct PT as (_ & PT & F). unfold cs_is.
      rewrite (name_eqb_out n "parshape" _ PT), (name_eqb_out n "font" _ PT), B, F by (cbn; tauto). reflexivity. }
    rewrite W. cbn [bind fst snd]. rewrite D. reflexivity.
  Qed.
  Lemma fuel_S (s : machine) : exists n, digest_fuel s = Datatypes.S (Datatypes.S (Datatypes.S n)).
  Proof. exists (3 * List.length (ms_modes s) + 3). unfold digest_fuel. lia. Qed.
  Lemma digest_one n s t x : mode_write K (set_tokens s []) t = Ok x -> ms_tokens x = [] ->
    digest K (Datatypes.S n) (set_tokens s [t]) = Ok (after x).
  Proof.
    intros W T. cbn [digest]. rewrite (digestToken_cons K (set_tokens s [t]) t [] eq_refl).
    change (set_tokens (set_tokens s [t]) []) with (set_tokens s []). rewrite W. cbn [bind].
    assert (T' : ms_tokens (after x) = []) by (unfold after; now destruct (ms_leave x)). rewrite T'. reflexivity.
  Qed.
  (** a token that the current mode takes *)
  Lemma tok_mode e s t x : ready e s -> passes e t -> mode_write K s t = Ok x -> ms_tokens x = [] ->
    tok_step K s t = Ok (after x).
  Proof.
    intros R P W T. rewrite (tok_pass e s t R P). destruct (fuel_S s) as [n ->].
    apply digest_one; [|exact T]. now rewrite (ready_tokens e s R).
  Qed.
  (** a token that the mode treats as another mode would *)
  Lemma tok_same e s s1 t : ready e s -> ready e s1 -> passes e t -> List.length (ms_modes s) = List.length (ms_modes s1) ->
    mode_write K s t = mode_write K s1 t -> tok_step K s t = tok_step K s1 t.
  Proof.
    intros R R1 P L W. rewrite (tok_pass e s t R P), (tok_pass e s1 t R1 P).
    assert (F : digest_fuel s = digest_fuel s1) by (unfold digest_fuel; now rewrite L). rewrite F.
    destruct (fuel_S s1) as [n ->]. cbn [digest].
    rewrite (digestToken_cons K (set_tokens s [t]) t [] eq_refl), (digestToken_cons K (set_tokens s1 [t]) t [] eq_refl).
    change (set_tokens (set_tokens s [t]) []) with (set_tokens s []). change (set_tokens (set_tokens s1 [t]) []) with (set_tokens s1 []).
    rewrite (ready_tokens e s R), (ready_tokens e s1 R1), W. reflexivity.
  Qed.
  (** a token that is handed to a new mode *)
  Lemma tok_enter e s s1 t u : ready e s -> ready e s1 -> passes e t -> mode_write K s t = Ok (set_tokens s1 [t]) ->
    (forall x, mode_write K s1 t = Ok x -> ms_tokens x = []) -> tok_step K s1 t = Ok u -> tok_step K s t = Ok u.
  Proof.
    intros R R1 P W T E. rewrite (tok_pass e s1 t R1 P) in E. rewrite (tok_pass e s t R P).
    destruct (fuel_S s1) as [n1 F1]. rewrite F1 in E. destruct (fuel_S s) as [n F]. rewrite F.
    assert (X : exists x, mode_write K s1 t = Ok x /\ u = after x).
    { cbn [digest] in E. rewrite (digestToken_cons K (set_tokens s1 [t]) t [] eq_refl) in E.
      change (set_tokens (set_tokens s1 [t]) []) with (set_tokens s1 []) in E. rewrite (ready_tokens e s1 R1) in E.
      destruct (mode_write K s1 t) as [x| | | |] eqn:WX; try discriminate. exists x. split; [reflexivity|].
      cbn [bind snd fst] in E. assert (TX : ms_tokens (after x) = []) by (unfold after; destruct (ms_leave x); exact (T x eq_refl)).
      rewrite TX in E. now injection E as <-. }
    destruct X as (x & WX & ->).
    cbn [digest]. rewrite (digestToken_cons K (set_tokens s [t]) t [] eq_refl).
    change (set_tokens (set_tokens s [t]) []) with (set_tokens s []). rewrite (ready_tokens e s R), W. cbn [bind].
    assert (AF : after (set_tokens s1 [t]) = set_tokens s1 [t]) by (apply after_keep; exact (ready_leave e s1 R1)).
    rewrite AF. cbn [ms_tokens set_tokens snd fst].
    change (digest K (Datatypes.S (Datatypes.S n)) (set_tokens s1 [t]) = Ok (after x)).
    apply digest_one; [now rewrite (ready_tokens e s1 R1)|exact (T x WX)].
  Qed.

  (** ** Runs *)
  Definition runs (ts : list token) (s s' : machine) : Prop := foldM (tok_step K) ts s = Ok s' /\ quiet_on K ts s.
  Lemma runs_app a b s s1 s2 : runs a s s1 -> runs b s1 s2 -> runs (a ++ b) s s2.
  Proof.
    intros (F1 & Q1) (F2 & Q2). split; [now rewrite foldM_app, F1|].
    apply quiet_join; [exact Q1|]. intros s' E. rewrite F1 in E. injection E as <-. exact Q2.
  Qed.
  Lemma runs_nil s : p_input (ms_pre s) = [] -> runs [] s s.
  Proof. intros E. split; [reflexivity|]. now apply quiet_nil. Qed.
  Lemma runs_one s t s' : p_input (ms_pre s) = [] -> tok_step K s t = Ok s' -> p_input (ms_pre s') = [] -> runs [t] s s'.
  Proof.
    intros I E I'. split; [cbn [foldM]; now rewrite E|]. apply quiet_one; [exact I|].
    intros u Eu. rewrite E in Eu. now injection Eu as <-.
  Qed.
  Lemma runs_cons t ts s s1 s2 : runs [t] s s1 -> runs ts s1 s2 -> runs (t :: ts) s s2.
  Proof. apply (runs_app [t] ts). Qed.
  Lemma runs_same t ts s s1 s' : p_input (ms_pre s) = [] -> (forall u, tok_step K s1 t = Ok u -> tok_step K s t = Ok u) ->
    runs (t :: ts) s1 s' -> runs (t :: ts) s s'.
  Proof.
    intros I E (F & Q). cbn [foldM] in F. apply bind_Ok in F as (u & E1 & F). pose proof (E u E1) as E2.
    assert (F1 : foldM (tok_step K) [t] s1 = Ok u) by (cbn [foldM]; rewrite E1; reflexivity).
    pose proof (quiet_app K [t] ts s1 u Q F1) as Q2.
    apply (runs_cons t ts s u s'); [|split; assumption].
    apply runs_one; [exact I|exact E2|]. exact (Q2 [] ts u eq_refl eq_refl).
  Qed.

  (** the stacks below are as before *)
  Definition kept (s s' : machine) : Prop := tl (ms_mem s') = tl (ms_mem s) /\ p_defs (ms_pre s') = p_defs (ms_pre s).
  Lemma kept_refl s : kept s s. Proof. split; reflexivity. Qed.
  Lemma kept_trans a b c : kept a b -> kept b c -> kept a c.
  Proof. unfold kept. intuition congruence. Qed.

  Lemma units_of e s : ready e s -> unitSystem K s = Ok (units K e).
  Proof. intros (_ & _ & _ & _ & _ & (r & M) & _). unfold unitSystem, mem. rewrite M. reflexivity. Qed.

  (** ** Assignments *)
  Lemma out_font n e : ~ In n (map str ["parshape"; "font"]%string) -> unexpanded n -> e_font (N := N) e n = None -> ordinary e n.
  Proof. unfold ordinary. auto. Qed.
  Lemma unexpanded_dec n : (if in_dec (list_eq_dec ascii_dec) n (map str ["def"; "ifbr"; "csname"; "expandafter"; "begin"; "end"]%string) then false else true) = true ->
    unexpanded n.
  Proof. unfold unexpanded. destruct (in_dec _ _ _); [discriminate|auto]. Qed.

  Lemma font_chars s0 (I : idle_q (ms_pre s0)) (TK : ms_tokens s0 = []) n s ts : spelt s ts -> ~ In "}"%char s -> forall acc,
    runs ts (set_as s0 (AFont (mkFPr ParseFontSpec n acc))) (set_as s0 (AFont (mkFPr ParseFontSpec n (acc ++ s)))).
  Proof.
    intros F. induction F as [|c t s ts (k & ->) _ IH]; intros NI acc.
    - rewrite app_nil_r. apply runs_nil, I.
    - apply (runs_cons _ _ _ (set_as s0 (AFont (mkFPr ParseFontSpec n (acc ++ [c]))))).
      + apply runs_one; [apply I| |apply I]. apply tok_assign; [exact I|exact Logic.I| |exact TK].
        unfold as_write. cbn [ms_as set_as]. unfold as_font. cbn [fp_write fp_st].
        destruct (Ascii.eqb_spec c "}"); [exfalso; apply NI; now left|]. reflexivity.
      + replace (acc ++ c :: s) with ((acc ++ [c]) ++ s) by now rewrite <- app_assoc. apply IH. intros H. apply NI. now right.
  Qed.
  Lemma shape_chars s0 us (I : idle_q (ms_pre s0)) (TK : ms_tokens s0 = []) d ts : spelt d ts -> forall p p',
    pp_writes (k_range K) us p d = Ok p' -> pp_st p' <> PFinished ->
    runs ts (set_as s0 (AParshape us p)) (set_as s0 (AParshape us p')).
  Proof.
    intros F. induction F as [|c t d ts (k & ->) _ IH]; intros p p' W NF.
    - cbn in W. injection W as <-. apply runs_nil, I.
    - unfold pp_writes in W. cbn [foldM] in W. apply bind_Ok in W as (p1 & W1 & W).
      assert (N1 : pp_st p1 <> PFinished).
      { intros F1. apply NF. clear - W F1. revert p1 F1 W. induction d as [|c d IH]; intros p1 F1 W; cbn [foldM] in W.
        - now injection W as <-.
        - apply bind_Ok in W as (p2 & W2 & W). apply (IH p2); [|exact W]. eapply pp_still; eauto. }
      apply (runs_cons _ _ _ (set_as s0 (AParshape us p1))); [|apply IH; assumption].
      apply runs_one; [apply I| |apply I]. apply tok_assign; [exact I|exact Logic.I| |exact TK].
      unfold as_write. cbn [ms_as set_as]. unfold as_parshape. rewrite W1. cbn [bind isControlSequence].
      destruct (pp_st p1); try reflexivity. congruence.
  Qed.

  Lemma assigns_run e ts e' : assigns K e ts e' -> forall s, ready e s ->
    exists s', runs ts s s' /\ ready e' s' /\ ms_modes s' = ms_modes s /\ kept s s'.
  Proof.
    intros A s R. pose proof R as (RA & RF & RL & RT & RV & (mr & RM) & RP). pose proof (ready_input e s R) as RI.
    destruct A as [n f U P F|n sp ts k k' f U NI SP L|d ps ts SH SP].
    - exists (set_mem s (set_font (e_mem e) f :: mr)).
      assert (E : tok_step K s (TCs n) = Ok (set_mem s (set_font (e_mem e) f :: mr))).
      { apply tok_assign; [exact RP|exact U| |exact RT]. unfold as_write. rewrite RA. unfold as_main, cs_is.
        rewrite (name_eqb_out n "parshape" _ P), (name_eqb_out n "font" _ P), RF, F by (cbn; tauto).
        unfold change_mem. rewrite RM. reflexivity. }
      split; [apply runs_one; auto|]. split; [|split; [reflexivity|split; [cbn; now rewrite RM|reflexivity]]].
      repeat split; cbn; eauto; apply RP.
    - set (s1 := set_as s (AFont fp_init)). set (s2 := set_as s (AFont (mkFPr ParseEqualSign n []))).
      set (s3 := set_as s (AFont (mkFPr ParseFontSpec n []))). set (s4 := set_as s (AFont (mkFPr ParseFontSpec n sp))).
      set (s5 := set_as (set_fonts s ((n, f) :: ms_fonts s) (ms_loads s ++ [(n, sp)])) AMain).
      exists s5. split; [|split; [|split; [reflexivity|split; reflexivity]]].
      + apply (runs_cons _ _ s s1).
        { apply runs_one; auto. apply tok_assign; [exact RP|now apply unexpanded_dec| |exact RT]. unfold as_write. rewrite RA. reflexivity. }
        apply (runs_cons _ _ s1 s2).
        { apply runs_one; auto. apply tok_assign; [exact RP|exact U|reflexivity|exact RT]. }
        apply (runs_cons _ _ s2 s3).
        { apply runs_one; auto. apply tok_assign; [exact RP|exact Logic.I|reflexivity|exact RT]. }
        apply (runs_app _ _ s3 s4); [apply (font_chars s RP RT n sp ts SP NI [])|].
        apply runs_one; auto. apply tok_assign; [exact RP|exact Logic.I| |exact RT].
        change (as_write K s4 (TChar "}" k')) with
          (do x <- k_load K (ms_loads s) n sp;
           Ok (set_as (set_fonts s ((n, x) :: ms_fonts s) (ms_loads s ++ [(n, sp)])) AMain, @nil token)).
        rewrite RL, L. cbn [bind]. unfold s5. rewrite RL. reflexivity.
      + unfold s5. repeat split; cbn; eauto; try apply RP.
        * intros m. destruct (name_eqb_spec m n) as [->|NE]; destruct (list_eq_dec ascii_dec _ _); congruence.
        * now rewrite RL.
    - destruct SH as (d' & c & p & p' & -> & W & NF & W1 & FI & <-). apply Forall2_app_inv_l in SP as (ts1 & ts2 & S1 & S2 & ->).
      inversion S2 as [|? t ? ? (k & ->) S3]; subst. inversion S3; subst. clear S2 S3.
      set (us := units K e) in *.
      set (s1 := set_as s (AParshape us pp_init)). set (s2 := set_as s (AParshape us p)).
      set (s3 := set_as (set_mem s (set_parshape (e_mem e) (pp_specs p') :: mr)) AMain).
      exists s3. split; [|split; [|split; [reflexivity|split; [cbn; now rewrite RM|reflexivity]]]].
      + apply (runs_cons _ _ s s1).
        { apply runs_one; auto. apply tok_assign; [exact RP|now apply unexpanded_dec| |exact RT]. unfold as_write. rewrite RA.
          unfold as_main. change (cs_is (str "parshape") "parshape") with true. cbn iota. rewrite (units_of e s R). reflexivity. }
        apply (runs_app _ _ s1 s2); [apply (shape_chars s us RP RT d' ts1 S1 pp_init p W NF)|].
        apply runs_one; auto. apply tok_assign; [exact RP|exact Logic.I| |exact RT].
        unfold as_write, s2. cbn [ms_as set_as]. unfold as_parshape. rewrite W1. cbn [bind]. rewrite FI. cbn [orb].
        unfold pp_finish. rewrite FI. cbn [bind]. unfold change_mem. change (ms_mem (set_as s _)) with (ms_mem s). rewrite RM. reflexivity.
      + unfold s3. repeat split; cbn; eauto; apply RP.
  Qed.

  (** ** Horizontal mode *)
  Definition in_h (e : env) (s : machine) (m : hmode) (r : list (mode N)) : Prop := ready e s /\ ms_modes s = MH m :: r.
  Lemma in_h_cur e s m r m' : in_h e s m r -> in_h e (set_cur s (MH m')) m' r.
  Proof. intros (R & M). split; [exact R|]. cbn. now rewrite M. Qed.
  Lemma h_stay e s m r t m' : in_h e s m r -> passes e t -> h_write K s m t = Ok (set_cur s (MH m')) ->
    runs [t] s (set_cur s (MH m')).
  Proof.
    intros (R & M) P W. pose proof (ready_input e s R) as I. apply runs_one; [exact I| |exact I].
    rewrite (tok_mode e s t (set_cur s (MH m'))); [|exact R|exact P| |apply R].
    - now rewrite after_keep by apply R.
    - unfold mode_write. now rewrite M.
  Qed.
  Definition at_h (e : env) (s : machine) (m : hmode) (r : list (mode N)) : Prop :=
    in_h e s m r /\ h_state m = HMain /\ nonzero (h_lower m) = false.
  Definition grows (m m' : hmode) (l : list (node N)) : Prop :=
    h_restricted m' = h_restricted m /\ h_buffer m' = [] /\
    h_depth m' = h_depth m /\ h_routine m' = h_routine m /\ hb_result (h_list m') = hb_result (h_list m) ++ l.
  Definition leads (s : machine) (ts : list token) (m : hmode) (r : list (mode N)) (l : list (node N)) (e' : env) : Prop :=
    exists s' m', runs ts s s' /\ at_h e' s' m' r /\ grows m m' l /\ kept s s'.
  Lemma grows_trans a b c l l' : grows a b l -> grows b c l' -> grows a c (l ++ l').
  Proof.
    unfold grows. intros (? & ? & ? & ? & E1) (? & ? & ? & ? & E2). rewrite E2, E1, app_assoc. intuition congruence.
  Qed.
  Lemma leads_app e1 s ts ts' m r l l' e2 : leads s ts m r l e1 ->
    (forall s' m', at_h e1 s' m' r -> grows m m' l -> leads s' ts' m' r l' e2) -> leads s (ts ++ ts') m r (l ++ l') e2.
  Proof.
    intros (s1 & m1 & F1 & A1 & G1 & U1) H. destruct (H s1 m1 A1 G1) as (s2 & m2 & F2 & A2 & G2 & U2).
    exists s2, m2. split; [eapply runs_app; eauto|]. split; [exact A2|]. split; [eapply grows_trans; eauto|eapply kept_trans; eauto].
  Qed.
  Lemma leads_stay e s t m r m' l : at_h e s m r -> passes e t -> h_main K s m t = Ok (set_cur s (MH m')) ->
    h_state m' = HMain -> nonzero (h_lower m') = false -> grows m m' l -> leads s [t] m r l e.
  Proof.
    intros (A & HS & LO) P W HS' LO' G. exists (set_cur s (MH m')), m'.
    split; [apply (h_stay e s m r t m' A P); unfold h_write; now rewrite HS|].
    split; [split; [eapply in_h_cur; eauto|auto]|]. split; [exact G|split; reflexivity].
  Qed.
  Lemma mem_of e s : ready e s -> mem s = Ok (e_mem e).
  Proof. intros (_ & _ & _ & _ & _ & (r & M) & _). unfold mem. now rewrite M. Qed.

  (** a character *)
  Lemma glyph_run e r c : readable K c -> forall b a ts s m, utf8 c (a ++ b) -> b <> [] -> Forall2 PageTextSpec.byte_token b ts ->
    at_h e s m r -> h_buffer m = a ->
    leads s ts m r [NChar c (hm_char (the_font K e) c)] e.
  Proof.
    intros D. induction b as [|x b IH]; intros a ts s m U NB F AT BU; [congruence|]. clear NB.
    inversion F as [|? t ? ts' BT F']; subst. destruct BT as (ch & k & -> & KK & BY).
    pose proof AT as ((R & M) & H & LO).
    destruct b as [|y b].
    - destruct ts'; [|inversion F']. clear F' F IH.
      assert (W : h_main K s m (TChar ch k) = Ok (set_cur s (MH (with_hlist (with_buffer m [])
                                   (hb_push_char (the_font K e) (h_list m) c))))).
      { assert (DC : decode_char (k_debug K) (k_signed K) (h_buffer m ++ [byte ch]) = Ok (c, [])).
        { rewrite <- (app_nil_r (h_buffer m ++ _)). unfold byte. rewrite BY.
          apply decode_shape; [|now apply utf8_is_shape].
          destruct D as [D|[D|D]]; [now left|right; now left|right; right; eapply utf8_short; eauto]. }
        assert (IU : is_utf8_char (h_buffer m ++ [byte ch]) = Ok true) by (unfold byte; rewrite BY; eapply whole_char; eauto).
        destruct KK as [->| ->]; unfold h_main; rewrite IU; cbn [bind]; rewrite DC; cbn [bind]; rewrite (mem_of e s R); reflexivity. }
      eapply leads_stay; [exact AT|exact Logic.I|exact W|exact H|exact LO|]. repeat split; reflexivity.
    - assert (NC : is_utf8_char (h_buffer m ++ [byte ch]) = Ok false).
      { unfold byte. rewrite BY. apply (prefix_not_char c _ (y :: b)); [now rewrite <- app_assoc| |discriminate].
        now destruct (h_buffer m). }
      set (m1 := with_buffer m (h_buffer m ++ [byte ch])).
      assert (W : h_write K s m (TChar ch k) = Ok (set_cur s (MH m1))).
      { unfold h_write. rewrite H. destruct KK as [->| ->]; unfold h_main; rewrite NC; reflexivity. }
      pose proof (h_stay e s m r (TChar ch k) m1 (conj R M) Logic.I W) as ST.
      assert (A1 : at_h e (set_cur s (MH m1)) m1 r) by (split; [eapply in_h_cur, AT|auto]).
      destruct (IH (h_buffer m ++ [x]) ts' (set_cur s (MH m1)) m1) as (s' & m' & F1 & A2 & G1 & U1);
        [now rewrite <- app_assoc|discriminate|exact F'|exact A1|unfold m1; cbn; unfold byte; now rewrite BY|].
      exists s', m'. split; [eapply runs_cons; eauto|]. split; [exact A2|]. split; [exact G1|exact U1].
  Qed.

  (** braces *)
  Lemma idle_begin p : idle_q p -> idle_q (beginGroup p) /\ exists sc, p_defs (beginGroup p) = sc :: p_defs p.
  Proof.
    intros (I & O & F & W). split; [|eexists; reflexivity]. repeat split; try assumption.
  Qed.
  Lemma idle_pop p sc d : idle_q p -> p_defs p = sc :: d -> idle_q (set_defs p d).
  Proof. intros (I & O & F & W) E. repeat split; try assumption. cbn. rewrite E in W. exact (few_tail _ _ W). Qed.
  Lemma open_brace e s m r a : in_h e s m r -> h_state m = HMain ->
    exists s', runs [TChar a GroupBegin] s s' /\ in_h e s' (with_depth m ((h_depth m + 1) mod size_mod)) r /\
      ms_mem s' = e_mem e :: ms_mem s /\ exists sc, p_defs (ms_pre s') = sc :: p_defs (ms_pre s).
  Proof.
    intros A H. pose proof A as (R & M). pose proof R as (RA & RF & RL & RT & RV & (q & ME) & RP).
    destruct (idle_begin _ RP) as (RP' & sc & DE).
    set (m1 := with_depth m _).
    set (s' := set_mem (set_pre (set_cur s (MH m1)) (beginGroup (ms_pre s))) (e_mem e :: e_mem e :: q)).
    assert (W : mode_write K s (TChar a GroupBegin) = Ok s').
    { unfold mode_write. rewrite M. unfold h_write. rewrite H. unfold h_main, h_beginGroup, m_beginGroup.
      cbn [ms_mem set_cur set_modes set_pre]. rewrite ME. reflexivity. }
    exists s'. split; [|split; [|split; [now cbn; rewrite ME|exists sc; exact DE]]].
    - apply runs_one; [apply RP| |apply RP']. rewrite (tok_mode e s (TChar _ _) s' R Logic.I W RT). now rewrite after_keep by exact RV.
    - split; [|cbn; now rewrite M]. repeat split; cbn; eauto; apply RP'.
  Qed.
  Lemma close_brace e e0 s m r b sc d mr : in_h e s m r -> h_state m = HMain -> tl (ms_mem s) = e_mem e0 :: mr ->
    p_defs (ms_pre s) = sc :: d ->
    (h_restricted m = true -> ((h_depth m - 1) mod size_mod <> 0)%Z) ->
    exists s', runs [TChar b GroupEnd] s s' /\ in_h (back e0 e) s' (with_depth m ((h_depth m - 1) mod size_mod)) r /\
      ms_mem s' = e_mem e0 :: mr /\ p_defs (ms_pre s') = d.
  Proof.
    intros A H ME PD RE. pose proof A as (R & M). pose proof R as (RA & RF & RL & RT & RV & (q & MM) & RP).
    rewrite MM in ME. cbn [tl] in ME. subst q.
    set (m1 := with_depth m ((h_depth m - 1) mod size_mod)).
    set (s' := set_pre (set_mem (set_cur s (MH m1)) (e_mem e0 :: mr)) (set_defs (ms_pre s) d)).
    pose proof (idle_pop _ _ _ RP PD) as RP'.
    assert (W : mode_write K s (TChar b GroupEnd) = Ok s').
    { unfold mode_write. rewrite M. unfold h_write. rewrite H.
      unfold h_main, h_endGroup, m_endGroup. cbn [ms_mem set_cur set_modes set_pre ms_pre]. rewrite MM.
      unfold endGroup. rewrite PD. cbn [bind].
      assert (X : (h_restricted (with_depth m ((h_depth m - 1) mod size_mod)) &&
                  (h_depth (with_depth m ((h_depth m - 1) mod size_mod)) =? 0)%Z)%bool = false).
      { cbn -[Z.modulo size_mod]. destruct (h_restricted m); [|reflexivity]. cbn -[Z.modulo size_mod]. now apply Z.eqb_neq, RE. }
      rewrite X. reflexivity. }
    exists s'. split; [|split; [|split; reflexivity]].
    - apply runs_one; [apply RP| |apply RP']. rewrite (tok_mode e s (TChar _ _) s' R Logic.I W RT). now rewrite after_keep by exact RV.
    - split; [|cbn -[Z.modulo size_mod]; now rewrite M].
      unfold s'. split; [exact RA|]. split; [exact RF|]. split; [exact RL|]. split; [exact RT|]. split; [exact RV|].
      split; [exists mr; reflexivity|exact RP'].
  Qed.
  Lemma box_fields p b : h_restricted (h_write_box p b) = h_restricted p /\ h_state (h_write_box p b) = h_state p /\
    h_buffer (h_write_box p b) = h_buffer p /\ h_depth (h_write_box p b) = h_depth p /\ h_routine (h_write_box p b) = h_routine p /\
    nonzero (h_lower (h_write_box p b)) = false /\
    hb_result (h_list (h_write_box (N := N) p b)) = hb_result (h_list p) ++ [node_of Horizontal (lowered (h_lower p) b)].
  Proof. unfold h_write_box, lowered. destruct (nonzero (h_lower p)) eqn:E; repeat split; cbn; assumption. Qed.
  (** the brace that ends a box *)
  Lemma close_box e e0 s m p r b sc d mr : in_h e s m (MH p :: r) -> h_state m = HMain -> h_routine m = RParent ->
    h_restricted m = true -> h_depth m = 1%Z -> h_state p = HMain -> h_buffer p = [] ->
    tl (ms_mem s) = e_mem e0 :: mr -> p_defs (ms_pre s) = sc :: d ->
    exists s' p', runs [TChar b GroupEnd] s s' /\ at_h (back e0 e) s' p' r /\
      grows p p' [node_of Horizontal (lowered (h_lower p) (hbox (hb_result (h_list m))))] /\
      ms_mem s' = e_mem e0 :: mr /\ p_defs (ms_pre s') = d.
  Proof.
    intros A H RO RE DE PS PB ME PD. pose proof A as (R & M). pose proof R as (RA & RF & RL & RT & RV & (q & MM) & RP).
    rewrite MM in ME. cbn [tl] in ME. subst q.
    set (m1 := with_depth m ((h_depth m - 1) mod size_mod)).
    set (p' := h_write_box p (hbox (hb_result (h_list m)))).
    set (s1 := set_pre (set_mem (set_cur s (MH m1)) (e_mem e0 :: mr)) (set_defs (ms_pre s) d)).
    set (s2 := set_leave (set_modes s1 (MH m1 :: MH p' :: r)) true).
    pose proof (idle_pop _ _ _ RP PD) as RP'.
    assert (W : mode_write K s (TChar b GroupEnd) = Ok s2).
    { unfold mode_write. rewrite M. unfold h_write. rewrite H.
      unfold h_main, h_endGroup, m_endGroup. cbn [ms_mem set_cur set_modes set_pre ms_pre]. rewrite MM.
      unfold endGroup. rewrite PD. cbn [bind].
      assert (X : (h_restricted (with_depth m ((h_depth m - 1) mod size_mod)) &&
                  (h_depth (with_depth m ((h_depth m - 1) mod size_mod)) =? 0)%Z)%bool = true).
      { cbn -[Z.modulo size_mod]. rewrite RE, DE. reflexivity. }
      rewrite X. unfold h_output. change (h_routine (with_depth m ((h_depth m - 1) mod size_mod))) with (h_routine m). rewrite RO.
      match goal with |- context [tl (ms_modes ?x)] => change (tl (ms_modes x)) with (tl (ms_modes s)) end.
      rewrite M. reflexivity. }
    destruct (box_fields p (hbox (hb_result (h_list m)))) as (B1 & B2 & B3 & B4 & B5 & B6 & B7). fold p' in B1, B2, B3, B4, B5, B6, B7.
    exists (after s2), p'. split; [|split; [|split; [|split; reflexivity]]].
    - apply runs_one; [apply RP| |apply RP']. exact (tok_mode e s (TChar _ _) s2 R Logic.I W RT).
    - split; [split; [|reflexivity]|split; [now rewrite B2|exact B6]].
      unfold after. change (ms_leave s2) with true. cbn iota.
      split; [exact RA|]. split; [exact RF|]. split; [exact RL|]. split; [exact RT|]. split; [reflexivity|].
      split; [exists mr; reflexivity|exact RP'].
    - repeat split; try assumption. now rewrite B3.
  Qed.

  (** the contents of braces and boxes *)
  Lemma run_braces e e' s m r a ts b l :
    at_h e s m r -> h_buffer m = [] -> (0 <= h_depth m < size_mod)%Z -> (h_restricted m = true -> (0 < h_depth m)%Z) ->
    (forall s' m', at_h e s' m' r -> h_buffer m' = [] -> h_restricted m' = h_restricted m ->
       h_depth m' = ((h_depth m + 1) mod size_mod)%Z -> leads s' ts m' r l e') ->
    leads s (TChar a GroupBegin :: ts ++ [TChar b GroupEnd]) m r l (back e e').
  Proof.
    intros (A & HS & LO) B D RE H. destruct (open_brace e s m r a A HS) as (s1 & E1 & A1 & M1 & sc & P1).
    set (m1 := with_depth m ((h_depth m + 1) mod size_mod)) in *.
    destruct (H s1 m1 (conj A1 (conj HS LO)) B eq_refl eq_refl) as (s2 & m2 & F2 & (A2 & HS2 & LO2) & G2 & U2).
    destruct U2 as (U2 & V2). rewrite M1 in U2. rewrite P1 in V2. cbn [tl] in U2.
    pose proof A as (R & M). pose proof R as (_ & _ & _ & _ & _ & (mr & ME) & _). rewrite ME in U2.
    assert (DD : ((h_depth m2 - 1) mod size_mod = h_depth m)%Z).
    { destruct G2 as (_ & _ & -> & _). unfold m1. cbn [h_depth with_depth].
      rewrite Zminus_mod_idemp_l. replace (h_depth m + 1 - 1)%Z with (h_depth m) by lia. apply Z.mod_small. lia. }
    destruct (close_brace e' e s2 m2 r b sc (p_defs (ms_pre s)) mr A2 HS2 U2 V2) as (s3 & E3 & A3 & M3 & P3).
    { intros X. rewrite DD. destruct G2 as (Y & _). rewrite X in Y. specialize (RE (eq_sym Y)). lia. }
    exists s3, (with_depth m2 ((h_depth m2 - 1) mod size_mod)).
    split; [|split; [|split]].
    - apply (runs_cons _ _ s s1 s3 E1). eapply runs_app; eauto.
    - split; [exact A3|]. split; [exact HS2|exact LO2].
    - rewrite DD. destruct G2 as (G1 & G2 & G3 & G4 & G5). repeat split; cbn; assumption || auto.
    - split; [now rewrite M3, ME|exact P3].
  Qed.
  Lemma run_boxed e e' s m r a ts b l :
    in_h e s m r -> h_state m = HMain -> h_buffer m = [] -> ordinary e (str "hbox") ->
    (forall s' m', at_h e s' m' (MH m :: r) -> h_buffer m' = [] -> h_restricted m' = true ->
       h_depth m' = 1%Z -> hb_result (h_list m') = [] -> leads s' ts m' (MH m :: r) l e') ->
    leads s (word "hbox" :: TChar a GroupBegin :: ts ++ [TChar b GroupEnd]) m r
      [node_of Horizontal (lowered (h_lower m) (hbox l))] (back e e').
  Proof.
    intros A HS B OR H. pose proof A as (R & M). pose proof R as (RA & RF & RL & RT & RV & (mr & ME) & RP).
    set (m0 := mkHMode true HMain [] n0 hbuilder_new 0 RParent : hmode).
    set (s0 := m_enter (set_cur s (MH m)) (MH m0)).
    assert (E0 : runs [word "hbox"] s s0).
    { apply runs_one; [apply RP| |apply RP].
      assert (W : mode_write K s (word "hbox") = Ok s0).
      { unfold mode_write. rewrite M. unfold h_write. rewrite HS.
        change (h_main K s m (word "hbox")) with (enter_h (set_cur s (MH m)) RParent). unfold enter_h.
        change (mem (set_cur s (MH m))) with (mem s). rewrite (mem_of e s R). reflexivity. }
      rewrite (tok_mode e s (word "hbox") s0 R OR W RT). now rewrite after_keep by exact RV. }
    assert (A0 : in_h e s0 m0 (MH m :: r)) by (split; [exact R|]; unfold s0; cbn; now rewrite M).
    destruct (open_brace e s0 m0 _ a A0 eq_refl) as (s1 & E1 & A1 & M1 & sc & P1).
    set (m1 := with_depth m0 ((h_depth m0 + 1) mod size_mod)) in *.
    destruct (H s1 m1 (conj A1 (conj eq_refl zero)) eq_refl eq_refl eq_refl eq_refl) as (s2 & m2 & F2 & (A2 & HS2 & _) & G2 & U2).
    destruct U2 as (U2 & V2). rewrite M1 in U2. rewrite P1 in V2. cbn [tl] in U2.
    change (ms_mem s0) with (ms_mem s) in U2. change (p_defs (ms_pre s0)) with (p_defs (ms_pre s)) in V2. rewrite ME in U2.
    destruct G2 as (G1 & G2 & G3 & G4 & G5).
    destruct (close_box e' e s2 m2 m r b sc (p_defs (ms_pre s)) mr A2 HS2 G4 G1 G3 HS B U2 V2) as (s3 & p' & E3 & A3 & G & M3 & P3).
    rewrite G5 in G. change (hb_result (h_list m1)) with (@nil (node N)) in G. cbn [app] in G.
    exists s3, p'. split; [|split; [exact A3|split; [exact G|]]].
    - apply (runs_cons _ _ s s0 s3 E0), (runs_cons _ _ s0 s1 s3 E1). eapply runs_app; eauto.
    - split; [now rewrite M3, ME|exact P3].
  Qed.

  (** ** Dimensions *)
  Lemma dp_unfinished c d p p1 p' : dp_write p c = Ok p1 -> dp_writes p1 d = Ok p' -> dp_isFinished p' = false -> dp_isFinished p1 = false.
  Proof.
    intros W1 W F. destruct (dp_isFinished p1) eqn:E; [|reflexivity]. rewrite (dp_stills p1 d E) in W. injection W as <-. congruence.
  Qed.
  Definition kerning (m : hmode) us p : hmode := with_hstate m (HKern us (mkKP false p)).
  Definition kerned (m : hmode) x : hmode := with_hstate (with_hlist m (hb_push_kern (h_list m) x)) HMain.
  Lemma kern_chars e s m r us d ts : in_h e s m r -> spelt d ts -> forall p p', dp_writes p d = Ok p' -> dp_isFinished p' = false ->
    runs ts (set_cur s (MH (kerning m us p))) (set_cur s (MH (kerning m us p'))).
  Proof.
    intros A F. induction F as [|c t d ts (k & ->) _ IH]; intros p p' W NF.
    - cbn in W. injection W as <-. apply runs_nil. exact (ready_input e s (proj1 A)).
    - unfold dp_writes in W. cbn [foldM] in W. apply bind_Ok in W as (p1 & W1 & W).
      pose proof (dp_unfinished c d p p1 p' W1 W NF) as N1.
      apply (runs_cons _ _ _ (set_cur s (MH (kerning m us p1)))); [|now apply IH].
      apply (h_stay e (set_cur s (MH (kerning m us p))) (kerning m us p) r _ (kerning m us p1)); [eapply in_h_cur; eauto|exact Logic.I|].
      unfold h_write, kerning. cbn [h_state with_hstate]. unfold h_kern, kp_write. cbn [kp_done kp_dimen]. rewrite W1. cbn [bind kp_done].
      rewrite N1. reflexivity.
  Qed.
  Lemma kern_open e s m r : at_h e s m r -> ordinary e (str "kern") ->
    runs [word "kern"] s (set_cur s (MH (kerning m (units K e) dp_init))).
  Proof.
    intros (A & HS & LO) O. apply (h_stay e s m r (word "kern") _ A O). unfold h_write. rewrite HS.
    change (h_main K s m (word "kern")) with (do us <- unitSystem K s; Ok (set_cur s (MH (kerning m us dp_init)))).
    rewrite (units_of e s (proj1 A)). reflexivity.
  Qed.
  Lemma kern_start e s m r d ts : at_h e s m r -> ordinary e (str "kern") -> spelt d ts -> forall x, measures K e d x ->
    exists p, runs (word "kern" :: ts) s (set_cur s (MH (kerning m (units K e) p))) /\
      dp_hasResult p = true /\ dp_isFinished p = false /\ kp_finish (k_range K) (units K e) (mkKP false p) = Ok x.
  Proof.
    intros A O SP x (p & q & W & HR & NF & FI & FN & EV). exists p. split; [|split; [exact HR|split; [exact NF|]]].
    - eapply runs_cons; [now apply (kern_open e s m r)|]. eapply kern_chars; eauto. apply A.
    - unfold kp_finish. cbn [kp_dimen]. rewrite FI. cbn [bind]. rewrite FN. exact EV.
  Qed.
  Lemma grows_kern m x : h_buffer m = [] -> grows m (kerned m x) [NKern x].
  Proof. intros B. repeat split. exact B. Qed.
  Lemma kern_run e s m r d ts w x : at_h e s m r -> h_buffer m = [] -> ordinary e (str "kern") -> spelt d ts -> measures K e d x -> stop w ->
    leads s (word "kern" :: ts ++ w) m r [NKern x] e.
  Proof.
    intros A B O SP ME (c & k & -> & LO). destruct (kern_start e s m r d ts A O SP x ME) as (p & F & HR & NF & FI).
    destruct (dp_stop (N := N) (k_range K) p c HR NF LO) as (p' & W & F' & E').
    exists (set_cur s (MH (kerned m x))), (kerned m x). split; [|split; [|split; [now apply grows_kern|split; reflexivity]]].
    - apply (runs_app (word "kern" :: ts) [TChar c k] s _ _ F).
      apply (h_stay e (set_cur s (MH (kerning m (units K e) p))) (kerning m (units K e) p) r _ (kerned m x));
        [eapply in_h_cur, (proj1 A)|exact Logic.I|].
      unfold h_write, kerning. cbn [h_state with_hstate]. unfold h_kern, kp_write. cbn [kp_done kp_dimen]. rewrite W. cbn [bind kp_done].
      rewrite F'. unfold kp_finish in *. cbn [kp_dimen] in *. rewrite E', FI. reflexivity.
    - split; [eapply in_h_cur, (proj1 A)|]. split; [reflexivity|apply A].
  Qed.
  Lemma kern_word e e' s m r d ts n ts' x l : at_h e s m r -> h_buffer m = [] -> ordinary e (str "kern") -> spelt d ts -> measures K e d x ->
    ordinary e n ->
    (forall s' m', at_h e s' m' r -> grows m m' [NKern x] -> leads s' (TCs n :: ts') m' r l e') ->
    leads s (word "kern" :: ts ++ TCs n :: ts') m r (NKern x :: l) e'.
  Proof.
    intros A B O SP ME ON H. destruct (kern_start e s m r d ts A O SP x ME) as (p & F & HR & NF & FI).
    set (s1 := set_cur s (MH (kerned m x))).
    assert (A1 : at_h e s1 (kerned m x) r) by (split; [eapply in_h_cur, (proj1 A)|split; [reflexivity|apply A]]).
    destruct (H s1 (kerned m x) A1 (grows_kern m x B)) as (s2 & m2 & R2 & A2 & G2 & U2).
    exists s2, m2. split; [|split; [exact A2|split; [|exact U2]]].
    - apply (runs_app (word "kern" :: ts) (TCs n :: ts') s _ _ F).
      apply runs_same with (s1 := s1); [exact (ready_input e s (proj1 (proj1 A)))| |exact R2].
      intros u E. rewrite <- E. apply (tok_same e); [exact (proj1 (proj1 A))|exact (proj1 (proj1 A))|exact ON|reflexivity|].
      unfold mode_write, s1. cbn [ms_modes set_cur set_modes]. unfold h_write, kerning, kerned. cbn [h_state with_hstate].
      unfold h_kern. rewrite FI. reflexivity.
    - pose proof (grows_trans _ _ _ _ _ (grows_kern m x B) G2) as G. exact G.
  Qed.

  Definition lowering (m : hmode) p : hmode := with_hstate m (HLower p).
  Definition loweredby (m : hmode) x : hmode := with_hstate (with_lower m x) HMain.
  Lemma lower_chars e s m r d ts : in_h e s m r -> spelt d ts -> forall p p', dp_writes p d = Ok p' -> dp_isFinished p' = false ->
    runs ts (set_cur s (MH (lowering m p))) (set_cur s (MH (lowering m p'))).
  Proof.
    intros A F. induction F as [|c t d ts (k & ->) _ IH]; intros p p' W NF.
    - cbn in W. injection W as <-. apply runs_nil. exact (ready_input e s (proj1 A)).
    - unfold dp_writes in W. cbn [foldM] in W. apply bind_Ok in W as (p1 & W1 & W).
      pose proof (dp_unfinished c d p p1 p' W1 W NF) as N1.
      apply (runs_cons _ _ _ (set_cur s (MH (lowering m p1)))); [|now apply IH].
      apply (h_stay e (set_cur s (MH (lowering m p))) (lowering m p) r _ (lowering m p1)); [eapply in_h_cur; eauto|exact Logic.I|].
      unfold h_write, lowering. cbn [h_state with_hstate]. unfold h_lowering. rewrite W1. cbn [bind isControlSequence orb].
      rewrite N1. reflexivity.
  Qed.
  Lemma lower_run e e' s m r d ts w x a ts' b l : at_h e s m r -> h_buffer m = [] ->
    ordinary e (str "lower") -> ordinary e (str "hbox") -> spelt d ts -> measures K e d x -> w = [] \/ stop w ->
    (forall s' m' p, at_h e s' m' (MH p :: r) -> h_buffer m' = [] -> h_restricted m' = true ->
       h_depth m' = 1%Z -> hb_result (h_list m') = [] -> leads s' ts' m' (MH p :: r) l e') ->
    leads s (word "lower" :: ts ++ w ++ word "hbox" :: TChar a GroupBegin :: ts' ++ [TChar b GroupEnd]) m r
      [node_of Horizontal (lowered x (hbox l))] (back e e').
  Proof.
    intros (A & HS & LO) B OL OH SP (p & q & W & HR & NF & FI & FN & EV) ST H.
    assert (S0 : runs (word "lower" :: ts) s (set_cur s (MH (lowering m p)))).
    { apply (runs_cons _ _ s (set_cur s (MH (lowering m dp_init)))).
      - apply (h_stay e s m r (word "lower") _ A OL). unfold h_write. rewrite HS. reflexivity.
      - eapply lower_chars; eauto. }
    set (m1 := loweredby m x). set (s1 := set_cur s (MH m1)).
    pose proof (in_h_cur e s m r m1 A) as A1.
    pose proof (in_h_cur e s m r (lowering m p) A) as AL.
    destruct (run_boxed e e' s1 m1 r a ts' b l A1 eq_refl B OH) as (s2 & m2 & R2 & A2 & G2 & U2).
    { intros s' m' H1 H2 H3 H4 H5. now apply (H s' m' m1). }
    exists s2, m2. split; [|split; [exact A2|split; [exact G2|exact U2]]].
    apply (runs_app (word "lower" :: ts) _ s _ _ S0).
    destruct ST as [->|(c & k & -> & NL)]; cbn [app].
    - apply runs_same with (s1 := s1); [exact (ready_input e s (proj1 A))| |exact R2].
      intros u E. rewrite <- E. apply (tok_same e); [exact (proj1 A)|exact (proj1 A)|exact OH|reflexivity|].
      unfold mode_write, s1, m1. cbn [ms_modes set_cur set_modes]. unfold h_write, lowering, loweredby. cbn [h_state with_hstate].
      unfold h_lowering, word. cbn [bind isControlSequence orb].
      rewrite FI. cbn [bind].
      match goal with |- context [unitSystem K ?u] => change (unitSystem K u) with (unitSystem K s) end.
      rewrite (units_of e s (proj1 A)). cbn [bind]. rewrite EV. reflexivity.
    - apply (runs_cons _ _ _ s1); [|exact R2].
      destruct (dp_stop (N := N) (k_range K) p c HR NF NL) as (p' & WS & FS & ES).
      apply (h_stay e (set_cur s (MH (lowering m p))) (lowering m p) r _ m1 AL); [exact Logic.I|].
      unfold h_write, lowering. cbn [h_state with_hstate]. unfold h_lowering. rewrite WS. cbn [bind isControlSequence orb]. rewrite FS.
      rewrite ES, FI. cbn [bind].
      match goal with |- context [unitSystem K ?u] => change (unitSystem K u) with (unitSystem K s) end.
      rewrite (units_of e s (proj1 A)). cbn [bind]. rewrite EV. reflexivity.
  Qed.

  (** ** Formulas *)
  Lemma means_ascii c x : char_means c x -> (z_of c < 128)%Z.
  Proof.
    intros H. destruct H as [c H|c H|c k f a H]; [lia|lia|].
    cbn [In MathSpec.plain_codes] in H. repeat (destruct H as [[= <- _ _ _]|H]; [reflexivity|]). destruct H.
  Qed.
  Lemma ascii_read c : (z_of c < 128)%Z -> is_utf8_char [byte c] = Ok true /\ decode_char (k_debug K) (k_signed K) [byte c] = Ok (z_of c, []).
  Proof.
    intros H. assert (U : utf8 (z_of c) [byte c]).
    { unfold byte. rewrite z_of_N. constructor. unfold z_of in *. lia. }
    split; [now apply (whole_char (z_of c))|].
    change [byte c] with ([byte c] ++ []). apply decode_shape; [right; right; cbn; lia|now apply utf8_is_shape].
  Qed.
  Definition inside (e : env) (s : machine) (p : mp) (r : list (mode N)) (k : nat) (mr : list (memory N)) (d : list scope) : Prop :=
    ready e s /\ ms_modes s = MM MMain [] p :: r /\ ms_mem s = repeat (e_mem e) k ++ e_mem e :: mr /\
    exists sc, p_defs (ms_pre s) = sc ++ d /\ List.length sc = k.
  Definition not_shift (t : token) : Prop := match t with TChar _ MathShift => False | _ => True end.
  Lemma asks_passes e t l : asks e t l -> passes e t /\ not_shift t.
  Proof.
    intros H. destruct H as [t l I _|c]; [|split; exact Logic.I].
    destruct t as [c k|n|z]; cbn in *; [|split; [exact I|exact Logic.I]|destruct I].
    split; [exact Logic.I|]. destruct I as (I & _). destruct k; try exact Logic.I. congruence.
  Qed.
  Lemma inside_cur e s p r k mr d p' : inside e s p r k mr d -> inside e (set_cur s (MM MMain [] p')) p' r k mr d.
  Proof. intros (R & M & Q). split; [exact R|]. split; [cbn; now rewrite M|exact Q]. Qed.
  (** a token of a formula *)
  Lemma math_token e s p r k mr d t l p' k' : inside e s p r k mr d -> asks e t l -> calls l p = Ok p' -> levels l k = Some k' ->
    exists x, mode_write K s t = Ok x /\ inside e x p' r k' mr d.
  Proof.
    intros A H C L. pose proof A as (R & M & ME & sc & DE & LE). pose proof R as (RA & RF & RL & RT & RV & (q & RM) & RP).
    assert (ST : forall p1, calls l p = Ok p1 -> levels l k = Some k -> mode_write K s t = Ok (set_cur s (MM MMain [] p1)) ->
      exists x, mode_write K s t = Ok x /\ inside e x p' r k' mr d).
    { intros p1 C1 L1 W. exists (set_cur s (MM MMain [] p1)). split; [exact W|].
      rewrite C in C1. injection C1 as <-. rewrite L in L1. injection L1 as ->. now apply (inside_cur e s p). }
    assert (WR : forall t, mode_write K s t = m_main K s [] p t) by (intros u; unfold mode_write; now rewrite M).
    assert (CH : forall c k0 x, k0 = Letter \/ k0 = Other -> char_means c x -> calls [CSym x] p = Ok p' ->
      mode_write K s (TChar c k0) = Ok (set_cur s (MM MMain [] p'))).
    { intros c k0 x HK CM C1. pose proof (means_ascii c x CM) as LT. destruct (ascii_read c LT) as (I1 & I2).
      rewrite WR. assert (E : writeSymbol (k_signed K) (z_of c) p = Ok p').
      { rewrite writeSymbol_low by exact LT. unfold writeChar. rewrite (char_meaning _ c x CM). now rewrite calls_one in C1. }
      destruct HK as [->| ->]; unfold m_main; cbn [app]; rewrite I1; cbn [bind]; rewrite I2; cbn [bind fst]; rewrite E; reflexivity. }
    destruct H as [t l IM MN|c].
    2: { apply (ST p'); [exact C|reflexivity|]. rewrite WR. cbn in C. injection C as <-. reflexivity. }
    destruct MN as [c|c|c|c|c|c x CM|c x CM|c|c|c|c|n|w c IC|w x NM]; try (destruct IM as (I1 & I2); congruence); try (destruct IM).
    - (* begin *)
      rewrite calls_one in C. injection L as <-.
      destruct (idle_begin _ RP) as (RP' & sc0 & DE0).
      exists (set_cur (set_mem (set_pre s (beginGroup (ms_pre s))) (e_mem e :: ms_mem s)) (MM MMain [] p')). split.
      + rewrite WR. cbn [m_main]. unfold m_beginGroup. cbn [ms_mem set_pre]. rewrite RM. cbn [bind]. unfold m_call. rewrite C. reflexivity.
      + split; [|split; [cbn; now rewrite M|split; [cbn; now rewrite ME|]]].
        * split; [exact RA|]. split; [exact RF|]. split; [exact RL|]. split; [exact RT|]. split; [exact RV|].
          split; [eexists; reflexivity|exact RP'].
        * exists (sc0 :: sc). split; [cbn in DE0 |- *; rewrite DE0, DE; reflexivity|cbn; now rewrite LE].
    - (* end *)
      rewrite calls_one in C. destruct k as [|k]; [discriminate L|]. injection L as <-.
      destruct sc as [|sc0 sc]; [discriminate LE|]. injection LE as LE. cbn [app] in DE.
      pose proof (idle_pop _ _ _ RP DE) as RP'.
      exists (set_pre (set_mem (set_cur s (MM MMain [] p')) (repeat (e_mem e) k ++ e_mem e :: mr)) (set_defs (ms_pre s) (sc ++ d))). split.
      + rewrite WR. cbn [m_main]. unfold m_call. rewrite C. cbn [bind]. unfold m_endGroup. cbn [ms_mem set_cur set_modes ms_pre].
        rewrite ME. cbn [repeat app]. unfold endGroup. rewrite DE. reflexivity.
      + split; [|split; [cbn; now rewrite M|split; [reflexivity|now exists sc]]].
        split; [exact RA|]. split; [exact RF|]. split; [exact RL|]. split; [exact RT|]. split; [exact RV|].
        split; [|exact RP']. destruct k; cbn; eexists; reflexivity.
    - rewrite calls_one in C. apply (ST p'); [now rewrite calls_one|reflexivity|]. rewrite WR. cbn [m_main]. unfold m_call. rewrite C. reflexivity.
    - rewrite calls_one in C. apply (ST p'); [now rewrite calls_one|reflexivity|]. rewrite WR. cbn [m_main]. unfold m_call. rewrite C. reflexivity.
    - apply (ST p'); [exact C|reflexivity|]. eapply CH; eauto.
    - apply (ST p'); [exact C|reflexivity|]. eapply CH; eauto.
    - apply (ST p'); [exact C|reflexivity|]. rewrite WR. cbn in C. injection C as <-. reflexivity.
    - apply (ST p'); [exact C|reflexivity|]. rewrite WR. cbn in C. injection C as <-. reflexivity.
    - apply (ST p'); [exact C|reflexivity|]. rewrite WR. cbn in C. injection C as <-. reflexivity.
    - rewrite calls_one in C. apply (ST p'); [now rewrite calls_one| |].
      + cbn in IC. repeat (destruct IC as [[= <- <-]|IC]; [reflexivity|]). destruct IC.
      + rewrite WR. cbn [m_main]. unfold writeControlSequence. rewrite (command_meaning _ _ IC). cbn [bind]. rewrite C. reflexivity.
    - rewrite calls_one in C. apply (ST p'); [now rewrite calls_one|reflexivity|].
      rewrite WR. cbn [m_main]. unfold writeControlSequence. rewrite (symbol_meaning _ _ NM). cbn [bind]. rewrite C. reflexivity.
  Qed.
  Lemma inside_tokens e s p r k mr d : inside e s p r k mr d -> ms_tokens s = [] /\ ms_leave s = false.
  Proof. intros ((_ & _ & _ & T & L & _) & _). auto. Qed.
  Lemma math_step e s p r k mr d t x p' k' : inside e s p r k mr d -> passes e t -> mode_write K s t = Ok x ->
    inside e x p' r k' mr d -> tok_step K s t = Ok x.
  Proof.
    intros A P W B. destruct (inside_tokens _ _ _ _ _ _ _ B) as (T & L). rewrite (tok_mode e s t x); auto; [now rewrite after_keep|apply A].
  Qed.
  Lemma levels_app a b k k' : levels (a ++ b) k = Some k' -> exists k1, levels a k = Some k1 /\ levels b k1 = Some k'.
  Proof.
    unfold levels. rewrite fold_left_app. destruct (fold_left level a (Some k)) as [k1|]; [eauto|].
    intros H. exfalso. revert H. clear. induction b; [discriminate|exact IHb].
  Qed.
  Lemma math_run e r mr d ts es : Forall2 (asks e) ts es -> forall s p k p' k', inside e s p r k mr d ->
    calls (List.concat es) p = Ok p' -> levels (List.concat es) k = Some k' ->
    exists s', runs ts s s' /\ inside e s' p' r k' mr d.
  Proof.
    intros F. induction F as [|t l ts es H _ IH]; intros s p k p' k' A C L.
    - cbn in C, L. injection C as <-. injection L as <-. exists s. split; [apply runs_nil, (ready_input e), A|exact A].
    - cbn [List.concat] in C, L. unfold calls in C. rewrite foldM_app in C. apply bind_Ok in C as (p1 & C1 & C).
      apply levels_app in L as (k1 & L1 & L).
      destruct (math_token e s p r k mr d t l p1 k1 A H C1 L1) as (x & W & B).
      destruct (IH x p1 k1 p' k' B C L) as (s' & R' & B').
      exists s'. split; [|exact B']. apply (runs_cons _ _ _ x); [|exact R'].
      apply runs_one; [apply (ready_input e), A| |apply (ready_input e), B].
      eapply math_step; eauto. exact (proj1 (asks_passes _ _ _ H)).
  Qed.
  Definition parsed (es : list (list call)) (p : mp) (ml : list (mnode N)) : Prop :=
    calls (List.concat es) mp_init = Ok p /\ levels (List.concat es) 0 = Some 0 /\
    exists m, do_call p CFinish = Ok m /\ output (N := N) (k_fuel K) m = Ok ml.
  Lemma formula_ok es trees : MathSpec.group (List.concat es) trees -> heights trees < k_fuel K ->
    exists p, parsed es p (map value trees).
  Proof.
    intros G H. destruct (formula_parsed _ _ G) as (m & E & O). unfold calls in E. rewrite foldM_app in E.
    apply bind_Ok in E as (p & E & E'). exists p. split; [exact E|]. split; [apply formula_even with (1 := G)|].
    exists m. split; [|now apply output_height]. cbn [foldM] in E'. apply bind_Ok in E' as (m' & E1 & E2). now injection E2 as ->.
  Qed.
  Lemma enter_inside e s r : ready e s -> ms_modes s = r -> inside e (enter_m s) mp_init r 0 (tl (ms_mem s)) (p_defs (ms_pre s)).
  Proof.
    intros R <-. split; [exact R|]. split; [reflexivity|]. destruct R as (_ & _ & _ & _ & _ & (q & RM) & _).
    split; [cbn; now rewrite RM|]. exists []. split; reflexivity.
  Qed.
  Lemma formula_run e s m r a ts b l : at_h e s m r -> h_buffer m = [] -> ts <> [] -> formula K e T ts l ->
    leads s (TChar a MathShift :: ts ++ [TChar b MathShift]) m r l e.
  Proof.
    intros (A & HS & LO) BU NE (es & trees & x & FE & G & HE & TY & ->).
    destruct (formula_ok es trees G HE) as (p & C & L & m' & FI & OU).
    set (m1 := with_hstate m HMathShift). set (m2 := with_hstate m HMain).
    set (s1 := set_cur s (MH m1)). set (s2 := set_cur s (MH m2)).
    assert (R1 : runs [TChar a MathShift] s s1).
    { apply (h_stay e s m r (TChar a MathShift) m1 A Logic.I). unfold h_write. rewrite HS. reflexivity. }
    pose proof (in_h_cur e s m r m2 A) as A2. destruct A2 as (A2 & M2). fold s2 in A2, M2.
    pose proof (enter_inside e s2 (MH m2 :: r) A2 M2) as IN.
    destruct (math_run e (MH m2 :: r) _ _ ts es FE _ _ _ _ _ IN C L) as (s3 & R3 & I3).
    destruct I3 as (RD3 & M3 & ME3 & sc & DE3 & LE3). destruct sc; [|discriminate].
    cbn [repeat app] in ME3, DE3.
    set (h := with_hlist m2 (mkHB (hb_result (h_list m2) ++ fst x) 1000)).
    set (s4 := set_leave (set_modes s3 (MM MMain [] m' :: MH h :: r)) true).
    assert (W4 : mode_write K s3 (TChar b MathShift) = Ok s4).
    { unfold mode_write. rewrite M3. cbn [m_write m_main]. rewrite M3. cbn [tl mode_kind]. unfold m_finish. rewrite FI. cbn [bind].
      unfold m_output. rewrite M3. cbn [tl]. rewrite OU. cbn [bind]. rewrite TY. reflexivity. }
    exists (after s4), h. split; [|split; [|split; [|split]]].
    - apply (runs_cons _ _ s s1); [exact R1|]. apply (runs_app _ _ s1 s3).
      + destruct ts as [|t ts]; [congruence|]. inversion FE as [|? l0 ? es0 H0 F0]; subst.
        destruct (asks_passes _ _ _ H0) as (PT & NS).
        apply runs_same with (s1 := enter_m s2); [exact (ready_input e s (proj1 A))| |exact R3].
        intros u E. apply (tok_enter e s1 (enter_m s2) t u); [exact (proj1 A)|exact A2|exact PT| | |exact E].
        * unfold mode_write, s1, m1. cbn [ms_modes set_cur set_modes]. unfold h_write. cbn [h_state with_hstate]. unfold h_mathshift.
          assert (NM : mathshift t = false).
          { destruct t as [c k|n|z]; try reflexivity. destruct k; try reflexivity. destruct NS. }
          rewrite NM. unfold insert. cbn. unfold s2, m2. destruct A2 as (_ & _ & _ & T2 & _). cbn in T2. now rewrite T2.
        * intros y Wy. unfold calls in C. cbn [List.concat] in C, L. rewrite foldM_app in C. apply bind_Ok in C as (p1 & C1 & C).
          apply levels_app in L as (k1 & L1 & L).
          destruct (math_token e _ _ _ _ _ _ t l0 p1 k1 IN H0 C1 L1) as (z & Wz & Bz). rewrite Wy in Wz. injection Wz as <-.
          exact (proj1 (inside_tokens _ _ _ _ _ _ _ Bz)).
      + apply runs_one; [exact (ready_input e s3 RD3)| |exact (ready_input e s3 RD3)].
        apply (tok_mode e s3 (TChar b MathShift) s4 RD3 Logic.I W4). apply RD3.
    - destruct RD3 as (RA & RF & RL & RT & RV & RM & RP).
      split; [split; [|reflexivity]|split; [reflexivity|exact LO]].
      unfold after. change (ms_leave s4) with true. cbn iota.
      split; [exact RA|]. split; [exact RF|]. split; [exact RL|]. split; [exact RT|]. split; [reflexivity|]. split; [exact RM|exact RP].
    - repeat split. exact BU.
    - cbn. now rewrite ME3.
    - exact DE3.
  Qed.

  (** ** Horizontal lists *)
  Scheme sets1_mut := Minimality for sets1 Sort Prop with sets_mut := Minimality for sets Sort Prop.
  Definition list_ok (e : env) (ts : list token) (l : list (node N)) (e' : env) : Prop :=
    forall s m r, at_h e s m r -> h_buffer m = [] -> (0 <= h_depth m)%Z -> (h_depth m + Z.of_nat (List.length ts) < size_mod)%Z ->
      (h_restricted m = true -> (0 < h_depth m)%Z) -> leads s ts m r l e'.
  Lemma list_run e ts l e' : sets K e ts l e' -> list_ok e ts l e'.
  Proof.
    revert e ts l e'. apply (sets_mut N K list_ok list_ok).
    - intros e c bs ts U F D s m r A B _ _ _. apply (glyph_run e r c D bs [] ts s m); auto. intros ->. inversion U.
    - intros e a s m r A B _ _ _.
      set (m' := with_hlist m (hb_push_glue (h_list m)
                  (glue_make (hm_space (the_font K e)) (hm_shrink (the_font K e)) Normal (hm_stretch (the_font K e)) Normal))).
      apply (leads_stay e s (TChar a Space) m r m' _ A Logic.I); [|apply A|apply A|repeat split; exact B].
      unfold h_main. rewrite (mem_of e s (proj1 (proj1 A))). reflexivity.
    - intros e a k IK s m r A B _ _ _. apply (leads_stay e s (TChar a k) m r m _ A Logic.I); [|apply A|apply A|].
      + cbn in IK. repeat (destruct IK as [<-|IK]; [reflexivity|]). destruct IK.
      + repeat split; [exact B|now rewrite app_nil_r].
    - intros e a ts b l e' _ IH s m r A B D0 D1 RE. cbn [List.length] in D1. rewrite app_length in D1. cbn [List.length] in D1.
      apply run_braces; auto; [lia|]. intros s' m' A' B' R' D'. rewrite Z.mod_small in D' by lia.
      apply IH; auto; try lia. all: intros; lia.
    - intros e a ts b l e' OR _ IH s m r A B D0 D1 RE. cbn [List.length] in D1. rewrite app_length in D1. cbn [List.length] in D1.
      pose proof A as (A0 & HS & LO).
      assert (E : hbox l = lowered (h_lower m) (hbox l)) by (unfold lowered; now rewrite LO). rewrite E.
      apply run_boxed; auto. intros s' m' A' B' R' D' H'. apply IH; auto; try lia. all: intros; lia.
    - intros e d ts w x OR SP ME ST s m r A B _ _ _. eapply kern_run; eauto.
    - intros e d ts w x a ts' b l e' OL OH SP ME ST _ IH s m r A B D0 D1 RE.
      cbn [List.length] in D1. rewrite !app_length in D1. cbn [List.length] in D1. rewrite app_length in D1. cbn [List.length] in D1.
      eapply lower_run; eauto. intros s' m' p A' B' R' D' H'. apply IH; auto; try lia. all: intros; lia.
    - intros e ts e' AS s m r A B _ _ _. pose proof A as ((R & M) & HS & LO).
      destruct (assigns_run e ts e' AS s R) as (s' & F & R' & M' & U').
      exists s', m. split; [exact F|]. split; [split; [split; [exact R'|now rewrite M']|auto]|]. split; [|exact U'].
      repeat split; [exact B|now rewrite app_nil_r].
    - intros e a ts b l NE F s m r A B _ _ _. now apply formula_run.
    - intros e s m r A B _ _ _. exists s, m. split; [apply runs_nil, (ready_input e), A|]. split; [exact A|].
      split; [repeat split; [exact B|now rewrite app_nil_r]|apply kept_refl].
    - intros e ts l e1 ts' l' e2 _ IH1 _ IH2 s m r A B D0 D1 RE. rewrite app_length in D1.
      apply (leads_app e1); [apply IH1; auto; lia|]. intros s' m' A' (X1 & X2 & X3 & X4 & X5).
      apply IH2; auto; rewrite ?X1, ?X3; auto; lia.
    - intros e d ts x n ts' l e' OR SP ME IN ON _ IH s m r A B D0 D1 RE.
      cbn [List.length] in D1. rewrite app_length in D1.
      eapply kern_word; eauto. intros s' m' A' (X1 & X2 & X3 & X4 & X5). apply IH; auto; rewrite ?X1, ?X3; auto; lia.
  Qed.

  (** ** Vertical mode *)
  Definition at_v (e : env) (s : machine) (b : vbuilder N) : Prop := ready e s /\ ms_modes s = [MV VMain b].
  Definition begun : hmode := mkHMode false HMain [] n0 hbuilder_new 0 RVertical.
  Lemma tok_begin e s b c k u : at_v e s b -> k <> MathShift ->
    tok_step K (m_enter s (MH begun)) (TChar c k) = Ok u -> tok_step K s (TChar c k) = Ok u.
  Proof.
    intros (R & M) KM E. set (s1 := m_enter s (MH begun)) in *.
    apply (tok_enter e s s1); [exact R|exact R|exact Logic.I| | |exact E].
    - unfold mode_write. rewrite M. unfold v_write, v_main.
      assert (X : mathshift (TChar c k) = false) by (destruct k; try reflexivity; congruence). rewrite X.
      unfold enter_h. change (mem (set_cur s (MV VMain b))) with (mem s). rewrite (mem_of e s R). cbn [bind].
      unfold s1, begun, m_enter, insert, set_cur. cbn. rewrite M. destruct R as (_ & _ & _ & T & _). rewrite T. reflexivity.
    - intros x W. unfold mode_write, s1 in W. cbn [ms_modes m_enter set_modes] in W. unfold h_write, begun in W. cbn [h_state] in W.
      rewrite (h_main_char_tokens K _ _ _ _ _ W eq_refl eq_refl). apply R.
  Qed.
  Lemma para_run e s b l ts e' : at_v e s b -> begins ts -> sets K e ts l e' -> (Z.of_nat (List.length ts) < size_mod)%Z ->
    exists s' m', runs ts s s' /\ at_h e' s' m' [MV VMain b] /\ h_routine m' = RVertical /\ hb_result (h_list m') = l.
  Proof.
    intros A BE S LE. pose proof A as (R & M). set (s1 := m_enter s (MH begun)).
    assert (A1 : at_h e s1 begun [MV VMain b]).
    { split; [split; [exact R|]|split; [reflexivity|exact zero]]. unfold s1. cbn. now rewrite M. }
    destruct (list_run e ts l e' S s1 begun _ A1 eq_refl) as (s2 & m2 & F2 & A2 & G2 & U2);
      [cbn; lia|cbn [h_depth begun]; lia|discriminate|].
    destruct ts as [|[c k|n|z] ts]; [destruct BE| |destruct BE|destruct BE]. cbn [begins] in BE.
    exists s2, m2. split; [|split; [exact A2|]].
    - apply runs_same with (s1 := s1); [exact (ready_input e s R)| |exact F2]. intros u E. eapply tok_begin; eauto.
    - destruct G2 as (_ & _ & _ & G4 & G5). split; [exact G4|exact G5].
  Qed.

  (** *** The lines of a paragraph *)
  Lemma last_depth_app d a b : last_depth (N := N) d (a ++ b) = last_depth (last_depth d a) b.
  Proof. apply fold_left_app. Qed.
  Lemma push_put (b : vbuilder N) line : exists ns, vb_push_box b (node_of Horizontal line) (b_metrics line) = put b ns.
  Proof.
    unfold vb_push_box, put.
    destruct (nleb (vb_prevdepth b) (nz (-10000))); [exists [node_of Horizontal line]; reflexivity|].
    destruct (nleb n0 _); (eexists [_; node_of Horizontal line]; reflexivity).
  Qed.
  Lemma put_put (b : vbuilder N) x y : put (put b x) y = put b (x ++ y).
  Proof. unfold put. cbn. now rewrite app_assoc, last_depth_app. Qed.
  Lemma put_nil (b : vbuilder N) : put b [] = b.
  Proof. unfold put. cbn. rewrite app_nil_r. now destruct b. Qed.
  Lemma loop_put (P : para N) l bps : forall it b r, create_loop P l it bps b = Ok r -> exists ns, r = put b ns.
  Proof.
    induction bps as [|x bps IH]; intros it b r E; cbn [create_loop] in E.
    - injection E as <-. exists []. symmetry. apply put_nil.
    - apply bind_Ok in E as (items & _ & E). destruct (push_put b (createLine P (bp_line x - 1) items)) as (ns & W).
      rewrite W in E. destruct bps as [|y bps]; [injection E as <-; eauto|].
      apply bind_Ok in E as (it' & _ & E). destruct (IH _ _ _ E) as (ns' & ->). exists (ns ++ ns'). apply put_put.
  Qed.
  Lemma paragraph_put m b l ls : lines K m b l ls -> add_paragraph K m b l = Ok (put b ls).
  Proof.
    unfold lines, add_paragraph. change (page_para m (vb_prevdepth b)) with (paragraph m (vb_prevdepth b)).
    set (P := paragraph m (vb_prevdepth b)). intros E. rewrite <- para_lines_create in E.
    destruct (para_lines K P (prepare P l)) as [r| | | |] eqn:W; cbn [rmap] in E; try discriminate. injection E as <-. cbn [bind].
    unfold put. f_equal. f_equal. unfold para_lines in W. destruct (prepare P l) as [|x xs].
    - injection W as <-. reflexivity.
    - apply bind_Ok in W as (bps & _ & W). destruct bps as [|y bps]; [discriminate|].
      destruct (loop_put _ _ _ _ _ _ W) as (ns & ->). reflexivity.
  Qed.

  (** *** Steps *)
  Definition in_v (e : env) (s : machine) st (b : vbuilder N) : Prop := ready e s /\ ms_modes s = [MV st b].
  Lemma in_v_cur e s st b st' b' : in_v e s st b -> in_v e (set_cur s (MV st' b')) st' b'.
  Proof. intros (R & M). split; [exact R|]. cbn. now rewrite M. Qed.
  Lemma v_stay e s st b t st' b' : in_v e s st b -> passes e t -> v_write K s st b t = Ok (set_cur s (MV st' b')) ->
    runs [t] s (set_cur s (MV st' b')).
  Proof.
    intros (R & M) P W. pose proof (ready_input e s R) as I. apply runs_one; [exact I| |exact I].
    rewrite (tok_mode e s t (set_cur s (MV st' b'))); [|exact R|exact P| |apply R].
    - now rewrite after_keep by apply R.
    - unfold mode_write. now rewrite M.
  Qed.
  Lemma v_kern_chars e s st0 b0 b us d ts : in_v e s st0 b0 -> spelt d ts -> forall p p', dp_writes p d = Ok p' -> dp_isFinished p' = false ->
    runs ts (set_cur s (MV (VKern us (mkKP false p)) b)) (set_cur s (MV (VKern us (mkKP false p')) b)).
  Proof.
    intros A F. induction F as [|c t d ts (k & ->) _ IH]; intros p p' W NF.
    - cbn in W. injection W as <-. apply runs_nil. exact (ready_input e s (proj1 A)).
    - unfold dp_writes in W. cbn [foldM] in W. apply bind_Ok in W as (p1 & W1 & W).
      pose proof (dp_unfinished c d p p1 p' W1 W NF) as N1.
      apply (runs_cons _ _ _ (set_cur s (MV (VKern us (mkKP false p1)) b))); [|now apply IH].
      apply (v_stay e (set_cur s (MV (VKern us (mkKP false p)) b)) (VKern us (mkKP false p)) b (TChar c k) (VKern us (mkKP false p1)) b);
        [eapply in_v_cur; eauto|exact Logic.I|].
      unfold v_write, v_kern, kp_write. cbn [kp_done kp_dimen]. rewrite W1. cbn [bind kp_done]. rewrite N1. reflexivity.
  Qed.
  Lemma v_kern_start e s b d ts : at_v e s b -> ordinary e (str "kern") -> spelt d ts -> forall x, measures K e d x ->
    exists p, runs (word "kern" :: ts) s (set_cur s (MV (VKern (units K e) (mkKP false p)) b)) /\
      dp_hasResult p = true /\ dp_isFinished p = false /\ kp_finish (k_range K) (units K e) (mkKP false p) = Ok x.
  Proof.
    intros A O SP x (p & q & W & HR & NF & FI & FN & EV). exists p. split; [|split; [exact HR|split; [exact NF|]]].
    - eapply runs_cons; [|eapply v_kern_chars; eauto].
      apply (v_stay e s VMain b (word "kern") _ b A O).
      change (v_write K s VMain b (word "kern")) with (do us <- unitSystem K s; Ok (set_cur s (MV (VKern us kp_init) b))).
      rewrite (units_of e s (proj1 A)). reflexivity.
    - unfold kp_finish. cbn [kp_dimen]. rewrite FI. cbn [bind]. rewrite FN. exact EV.
  Qed.

  (** *** What a text gives *)
  Definition gives (ts : list token) (s : machine) (b' : vbuilder N) : Prop :=
    quiet_on K ts s /\ page_of_tokens K ts s = Ok (vbox (vb_result b')) /\
    exists u, foldM (tok_step K) ts s = Ok u /\ ms_mem u <> [].
  Lemma gives_app a ts s s1 b' : runs a s s1 -> gives ts s1 b' -> gives (a ++ ts) s b'.
  Proof.
    intros (F & Q) (Q' & V & u' & U). split; [|split].
    - apply quiet_join; [exact Q|]. intros u Eu. rewrite F in Eu. injection Eu as <-. exact Q'.
    - unfold page_of_tokens in *. rewrite foldM_app, F. exact V.
    - exists u'. rewrite foldM_app, F. exact U.
  Qed.
  Lemma gives_same t ts s s1 b' : p_input (ms_pre s) = [] -> (forall u, tok_step K s1 t = Ok u -> tok_step K s t = Ok u) ->
    gives (t :: ts) s1 b' -> gives (t :: ts) s b'.
  Proof.
    intros I E (Q & V & u' & U). unfold page_of_tokens in V. cbn [foldM] in V, U.
    destruct (tok_step K s1 t) as [u| | | |] eqn:E1; try discriminate. pose proof (E u eq_refl) as E2.
    assert (F1 : foldM (tok_step K) [t] s1 = Ok u) by (cbn [foldM]; rewrite E1; reflexivity).
    pose proof (quiet_app K [t] ts s1 u Q F1) as Q2.
    apply (gives_app [t] ts s u); [|split; [exact Q2|split; [exact V|exists u'; exact U]]].
    apply runs_one; [exact I|exact E2|]. exact (Q2 [] ts u eq_refl eq_refl).
  Qed.

  Lemma tok_par_v e s b : at_v e s b -> ordinary e (str "par") -> runs [par] s (set_cur s (MV VMain b)).
  Proof. intros A O. apply (v_stay e s VMain b (word "par") VMain b A O). reflexivity. Qed.
  Lemma output_vertical e s m b ls : in_h e s m [MV VMain b] -> h_routine m = RVertical -> lines K (e_mem e) b (hb_result (h_list m)) ls ->
    h_output K s m = Ok (set_leave (set_modes s [MH m; MV VMain (put b ls)]) true).
  Proof.
    intros (R & M) RO L. unfold h_output. rewrite RO, (mem_of e s R). cbn [bind]. rewrite M. cbn [tl change_bottom].
    rewrite (paragraph_put _ _ _ _ L). reflexivity.
  Qed.
  Lemma tok_par_h e s m b ls : at_h e s m [MV VMain b] -> h_routine m = RVertical -> lines K (e_mem e) b (hb_result (h_list m)) ls ->
    ordinary e (str "par") -> exists s', runs [par] s s' /\ at_v e s' (put b ls).
  Proof.
    intros (A & HS & LO) RO L O. pose proof A as (R & M). pose proof (output_vertical e s m b ls A RO L) as W.
    pose proof R as (RA & RF & RL & RT & RV & RM & RP).
    set (s1 := set_leave (set_modes s [MH m; MV VMain (put b ls)]) true) in *.
    exists (after s1). split.
    - apply runs_one; [apply RP| |apply RP].
      apply (tok_mode e s (word "par") s1 R O); [|exact RT].
      unfold mode_write. rewrite M. unfold h_write. rewrite HS. exact W.
    - split; [|reflexivity]. unfold after. change (ms_leave s1) with true. cbn iota.
      split; [exact RA|]. split; [exact RF|]. split; [exact RL|]. split; [exact RT|]. split; [reflexivity|]. split; [exact RM|exact RP].
  Qed.

  (** *** Displays *)
  Lemma display_tail e s b ts a3 a4 l : inside e s mp_init [MV VMain b] 0 (tl (ms_mem s)) (p_defs (ms_pre s)) -> formula K e D ts l ->
    exists s', runs (ts ++ dollars a3 a4) s s' /\ at_v e s' (display (e_mem e) b l).
  Proof.
    intros IN (es & trees & x & FE & G & HE & TY & ->).
    destruct (formula_ok es trees G HE) as (p & C & L & m' & FI & OU).
    destruct (math_run e _ _ _ ts es FE _ _ _ _ _ IN C L) as (s3 & R3 & (RD3 & M3 & ME3 & _)).
    pose proof RD3 as (RA & RF & RL & RT & RV & RM & RP).
    set (s4 := set_cur s3 (MM MMathShift [] p)).
    assert (R4 : runs [TChar a3 MathShift] s3 s4).
    { apply runs_one; [apply RP| |apply RP].
      rewrite (tok_mode e s3 (TChar a3 MathShift) s4 RD3 Logic.I); [now rewrite after_keep| |exact RT].
      unfold mode_write. rewrite M3. cbn [m_write m_main]. rewrite M3. reflexivity. }
    set (b' := display (e_mem e) b (fst x)).
    set (s5 := set_leave (set_modes s4 [MM MMathShift [] m'; MV VMain b']) true).
    assert (W5 : mode_write K s4 (TChar a4 MathShift) = Ok s5).
    { unfold mode_write. unfold s4 at 1. cbn [ms_modes set_cur set_modes]. cbn [m_write].
      change (mathshift (TChar a4 MathShift)) with true. cbn iota. unfold m_finish. rewrite FI. cbn [bind]. unfold m_output.
      unfold s4 at 1. cbn [ms_modes set_cur set_modes]. rewrite M3. cbn [tl]. rewrite OU. cbn [bind]. rewrite TY. cbn [bind].
      change (mem s4) with (mem s3). rewrite (mem_of e s3 RD3). reflexivity. }
    exists (after s5). split.
    - apply (runs_app _ _ _ s3 _ R3). apply (runs_cons _ _ _ s4 _ R4). apply runs_one; [apply RP| |apply RP].
      apply (tok_mode e s4 (TChar a4 MathShift) s5 RD3 Logic.I W5 RT).
    - split; [|reflexivity]. unfold after. change (ms_leave s5) with true. cbn iota.
      split; [exact RA|]. split; [exact RF|]. split; [exact RL|]. split; [exact RT|]. split; [reflexivity|]. split; [exact RM|exact RP].
  Qed.
  Lemma display_run e s b ts a1 a2 a3 a4 l : at_v e s b -> formula K e D ts l ->
    exists s', runs (dollars a1 a2 ++ ts ++ dollars a3 a4) s s' /\ at_v e s' (display (e_mem e) b l).
  Proof.
    intros A F. set (s1 := set_cur s (MV VMathShift b)). set (s2 := set_cur s (MV VMain b)).
    pose proof (in_v_cur e s VMain b VMathShift b A) as A1. fold s1 in A1.
    assert (R1 : runs [TChar a1 MathShift] s s1) by (apply (v_stay e s VMain b (TChar a1 MathShift) VMathShift b A Logic.I); reflexivity).
    assert (A2 : at_v e s2 b) by exact (in_v_cur e s VMain b VMain b A).
    assert (R2 : runs [TChar a2 MathShift] s1 (enter_m s2)).
    { pose proof (ready_input e s (proj1 A)) as I. apply runs_one; [exact I| |exact I].
      rewrite (tok_mode e s1 (TChar a2 MathShift) (enter_m s2) (proj1 A1) Logic.I); [rewrite after_keep; [reflexivity|apply (proj1 A)]| |apply (proj1 A)].
      unfold mode_write. rewrite (proj2 A1). reflexivity. }
    destruct (display_tail e (enter_m s2) b ts a3 a4 l) as (s' & R' & A'); [|exact F|].
    - apply (enter_inside e s2); apply A2.
    - exists s'. split; [|exact A']. apply (runs_cons _ _ _ s1 _ R1), (runs_cons _ _ _ _ _ R2), R'.
  Qed.
  (** two dollars end a paragraph *)
  Lemma display_after e s m b ls ts a1 a2 a3 a4 l : at_h e s m [MV VMain b] -> h_routine m = RVertical ->
    lines K (e_mem e) b (hb_result (h_list m)) ls -> formula K e D ts l ->
    exists s', runs (dollars a1 a2 ++ ts ++ dollars a3 a4) s s' /\ at_v e s' (display (e_mem e) (put b ls) l).
  Proof.
    intros (A & HS & LO) RO L F. pose proof A as (R & M). pose proof R as (RA & RF & RL & RT & RV & RM & RP).
    set (m1 := with_hstate m HMathShift). set (m2 := with_hstate m HMain). set (s1 := set_cur s (MH m1)).
    assert (R1 : runs [TChar a1 MathShift] s s1).
    { apply (h_stay e s m _ (TChar a1 MathShift) m1 A Logic.I). unfold h_write. rewrite HS. reflexivity. }
    pose proof (in_h_cur e s m _ m1 A) as (A1 & M1). fold s1 in A1, M1.
    pose proof (in_h_cur e s m _ m2 A) as A2.
    pose proof (output_vertical e (set_cur s (MH m2)) m2 b ls A2 RO L) as W.
    set (b1 := put b ls) in *. set (s2 := set_leave (set_modes s [MV VMain b1]) false).
    assert (A3 : at_v e s2 b1) by (split; [exact (conj RA (conj RF (conj RL (conj RT (conj eq_refl (conj RM RP))))))|reflexivity]).
    assert (E : tok_step K s1 (TChar a2 MathShift) = Ok (enter_m s2)).
    { rewrite (tok_pass e s1 (TChar a2 MathShift) A1 Logic.I). destruct (fuel_S s1) as [n ->].
      set (t := TChar a2 MathShift) in *. cbn [digest].
      rewrite (digestToken_cons K (set_tokens s1 [t]) t [] eq_refl).
      change (set_tokens (set_tokens s1 [t]) []) with (set_tokens s1 []). rewrite (ready_tokens e s1 A1).
      assert (W1 : mode_write K s1 t = Ok (insert (insert (set_leave (set_modes (set_cur s (MH m2)) [MH m2; MV VMain b1]) true) t) t)).
      { unfold mode_write. rewrite M1. unfold h_write, m1. cbn [h_state with_hstate]. unfold h_mathshift.
        change (mathshift t) with true. cbn iota.
        change (set_cur s1 (MH (with_hstate (with_hstate m HMathShift) HMain))) with (set_cur s (MH m2)).
        change (with_hstate (with_hstate m HMathShift) HMain) with m2. rewrite W. reflexivity. }
      rewrite W1. cbn [bind].
      assert (E1 : after (insert (insert (set_leave (set_modes (set_cur s (MH m2)) [MH m2; MV VMain b1]) true) t) t) = set_tokens s2 [t; t]).
      { unfold after, insert, s2. cbn. rewrite RT. reflexivity. }
      rewrite E1. cbn [ms_tokens set_tokens snd fst].
      rewrite (digestToken_cons K (set_tokens s2 [t; t]) t [t] eq_refl).
      change (set_tokens (set_tokens s2 [t; t]) [t]) with (set_tokens s2 [t]).
      assert (W2 : mode_write K (set_tokens s2 [t]) t = Ok (set_tokens (set_cur s2 (MV VMathShift b1)) [t])) by reflexivity.
      rewrite W2. cbn [bind]. rewrite after_keep by reflexivity. cbn [ms_tokens set_tokens snd fst].
      rewrite (digestToken_cons K (set_tokens (set_cur s2 (MV VMathShift b1)) [t]) t [] eq_refl).
      assert (W3 : mode_write K (set_tokens (set_tokens (set_cur s2 (MV VMathShift b1)) [t]) []) t = Ok (set_tokens (enter_m s2) [])) by reflexivity.
      rewrite W3. cbn [bind]. rewrite after_keep by reflexivity. cbn [ms_tokens set_tokens snd fst].
      f_equal. unfold enter_m, m_enter, s2. destruct s. cbn in RT |- *. now subst. }
    destruct (display_tail e (enter_m s2) b1 ts a3 a4 l) as (s' & R' & A'); [|exact F|].
    - apply (enter_inside e s2); apply A3.
    - exists s'. split; [|exact A']. apply (runs_cons _ _ _ s1 _ R1). apply (runs_cons _ _ _ (enter_m s2)); [|exact R'].
      apply runs_one; [apply RP|exact E|apply RP].
  Qed.

  (** *** Documents *)
  Lemma rich_run e ts b b' : rich K e ts b b' -> (Z.of_nat (List.length ts) < size_mod)%Z ->
    forall s, at_v e s b -> gives ts s b'.
  Proof.
    induction 1 as [e b|e ts b b' O _ IH|e ts e' ts' b b' AS _ IH|e d ts w x ts' b b' O SP ME ST _ IH|e d ts x n ts' b b' O SP ME IN ON _ IH
      |e a1 a2 ts l a3 a4 ts' b b' F _ IH|e ts l e' b ls BE S LI|e ts l e' b ls ts' b' BE S LI O _ IH
      |e ts l e' b ls a1 a2 ts1 l1 a3 a4 ts' b' BE S LI F _ IH]; intros LEN s A.
    - destruct A as (R & M). split; [apply quiet_nil, (ready_input e), R|]. split.
      + unfold page_of_tokens. cbn [foldM bind].
        rewrite M. cbn [List.length Nat.sub finish_modes]. unfold mode_finish. rewrite M. cbn [bind]. rewrite M. reflexivity.
      + exists s. split; [reflexivity|]. destruct R as (_ & _ & _ & _ & _ & (r & ->) & _). discriminate.
    - cbn [List.length] in LEN. apply (gives_app [par] ts s _ _ (tok_par_v e s b A O)). apply IH; [lia|]. apply (in_v_cur e s VMain b VMain b A).
    - rewrite app_length in LEN. destruct A as (R & M). destruct (assigns_run e ts e' AS s R) as (s' & F & R' & M' & U').
      apply (gives_app ts ts' s s' _ F). apply IH; [lia|]. split; [exact R'|now rewrite M'].
    - cbn [List.length] in LEN. rewrite !app_length in LEN. destruct ST as (c & k & -> & LO).
      destruct (v_kern_start e s b d ts A O SP x ME) as (p & F & HR & NF & FI).
      destruct (dp_stop (N := N) (k_range K) p c HR NF LO) as (p' & W & F' & E').
      apply (gives_app (word "kern" :: ts) _ s _ _ F). apply (gives_app [TChar c k] _ _ (set_cur s (MV VMain (put b [NKern x])))).
      + apply (v_stay e (set_cur s (MV (VKern (units K e) (mkKP false p)) b)) (VKern (units K e) (mkKP false p)) b (TChar c k) VMain (put b [NKern x]));
          [eapply in_v_cur; exact A|exact Logic.I|].
        unfold v_write, v_kern, kp_write. cbn [kp_done kp_dimen]. rewrite W. cbn [bind kp_done].
        rewrite F'. unfold kp_finish in *. cbn [kp_dimen] in *. rewrite E', FI. reflexivity.
      + apply IH; [cbn [List.length] in LEN; lia|]. eapply in_v_cur; exact A.
    - cbn [List.length] in LEN. rewrite app_length in LEN.
      destruct (v_kern_start e s b d ts A O SP x ME) as (p & F & HR & NF & FI).
      apply (gives_app (word "kern" :: ts) _ s _ _ F).
      apply gives_same with (s1 := set_cur s (MV VMain (put b [NKern x]))); [exact (ready_input e s (proj1 A))| |].
      + intros u E. rewrite <- E. apply (tok_same e); [exact (proj1 A)|exact (proj1 A)|exact ON|reflexivity|].
        unfold mode_write. cbn [ms_modes set_cur set_modes]. unfold v_write, v_kern. rewrite FI. reflexivity.
      + apply IH; [lia|]. eapply in_v_cur; exact A.
    - rewrite app_length, app_assoc, app_assoc in *. rewrite app_length in LEN. destruct (display_run e s b ts a1 a2 a3 a4 l A F) as (s' & R' & A').
      rewrite <- app_assoc with (l := dollars a1 a2). apply (gives_app _ ts' s s' _ R'). apply IH; [lia|exact A'].
    - destruct (para_run e s b l ts e' A BE S LEN) as (s1 & m1 & F1 & A1 & RO & HL).
      rewrite <- HL in LI. pose proof (output_vertical e' s1 m1 b ls (proj1 A1) RO LI) as W.
      destruct A1 as ((R1 & M1) & _). split; [apply F1|]. split.
      + unfold page_of_tokens. rewrite (proj1 F1). cbn [bind]. rewrite M1. cbn [List.length Nat.sub finish_modes].
        unfold mode_finish at 1. rewrite M1, W. reflexivity.
      + exists s1. split; [apply F1|]. destruct R1 as (_ & _ & _ & _ & _ & (r & ->) & _). discriminate.
    - rewrite app_length in LEN. cbn [List.length] in LEN.
      destruct (para_run e s b l ts e' A BE S) as (s1 & m1 & F1 & A1 & RO & HL); [lia|].
      rewrite <- HL in LI. destruct (tok_par_h e' s1 m1 b ls A1 RO LI O) as (s2 & F2 & A2).
      apply (gives_app ts _ s s1 _ F1). apply (gives_app [par] ts' s1 s2 _ F2). apply IH; [lia|exact A2].
    - rewrite !app_length in LEN.
      destruct (para_run e s b l ts e' A BE S) as (s1 & m1 & F1 & A1 & RO & HL); [lia|].
      rewrite <- HL in LI. destruct (display_after e' s1 m1 b ls ts1 a1 a2 a3 a4 l1 A1 RO LI F) as (s2 & F2 & A2).
      apply (gives_app ts _ s s1 _ F1).
      replace (dollars a1 a2 ++ ts1 ++ dollars a3 a4 ++ ts') with ((dollars a1 a2 ++ ts1 ++ dollars a3 a4) ++ ts') by now rewrite <- !app_assoc.
      apply (gives_app _ ts' s1 s2 _ F2). apply IH; [lia|exact A2].
  Qed.
End Rich.
(** ** From the text *)
Lemma new_rich {N : Num} (K : host N) f h s : machine_new K f h = Ok s -> at_v (new_env K f h) s (new_page K) /\ ms_lex s = lexer_init.
Proof.
  unfold machine_new. intros E.
  assert (X : (do macros <- format_parse pageeditor_format; foldM define macros pinit)
              = match Kdefs with Some p => Ok p | None => UB end) by (vm_compute; reflexivity).
  destruct (format_parse pageeditor_format) as [macros| | | |]; try discriminate. cbn [bind] in X, E. rewrite X in E.
  cbn [bind Kdefs] in E. injection E as <-. split; [|reflexivity].
  split; [|reflexivity]. split; [reflexivity|]. split; [reflexivity|]. split; [reflexivity|]. split; [reflexivity|]. split; [reflexivity|].
  split; [exists []; reflexivity|]. cbn [ms_pre]. split; [reflexivity|]. split; [reflexivity|].
  split; [eexists; reflexivity|]. clear. intros n H. cbn [p_defs find_ptr] in H.
  revert H. unfold table_find. cbn [sc_macros find]. 
  repeat match goal with |- context [name_eqb ?a ?b] => destruct (name_eqb_spec a b) as [->|]; [intros _; (left; reflexivity) || (right; reflexivity)|] end.
  cbn. congruence.
Qed.
Lemma typeset_rich {N : Num} (K : host N) f h s text ts e b :
  nonzero (n0 : N) = false -> machine_new K f h = Ok s ->
  lexes DefaultCatCodes true NewLine text ts e -> e <> BadCharacter -> e <> BadParam ->
  rich K (new_env K f h) ts (new_page K) b -> (Z.of_nat (List.length ts) < size_mod)%Z ->
  exists k, forall n, k <= n -> typeset K n s text = Ok (vbox (vb_result b)).
Proof.
  intros Z0 NW LX E1 E2 D LE. destruct (new_rich K f h s NW) as (A & L).
  destruct (feed DefaultCatCodes (ms_lex s) text) as [l x] eqn:F.
  assert (BT : between_tokens (ms_lex s) NewLine) by (rewrite L; reflexivity).
  destruct (lexer_tokenizes_lemma _ _ _ _ _ _ BT F) as (ts' & O & H). apply H in LX as (-> & EE).
  rewrite L in O. cbn [lexer_init l_out app] in O.
  destruct x as [[|]|]; [cbn in EE; congruence|cbn in EE; congruence|].
  destruct (rich_run K Z0 _ _ _ _ D LE s A) as (Q & V & _).
  destruct (typeset_tokens K s text l ts') as (k & HK); [now rewrite L|exact F|exact O|exact Q|].
  exists k. intros n GE. now rewrite HK.
Qed.
