(** C91: the page of a text with fonts, kerns, boxes, formulas and displays. *)
From Coq Require Import List Ascii String ZArith QArith Qcanon Bool Arith Lia.
From Verif.Base Require Import Result Num.
From Verif.Model Require Import Token Lexer Macro Dimen DimenParser Glue Box ListBuilders LineBreaks MathList MathParser
  MathTypeset PageEditor Preprocessor.
From Verif.Spec Require Import LexerSpec UnicodeSpec DimenSpec MathSpec EquationSpec PageTextSpec RichTextSpec.
From Verif.Proofs Require Import LexerProofs PageRich RichLinks.
From Verif.Properties Require Import PageEditorProps PageTextProps.
Import ListNotations.
Local Open Scope nat_scope.

(** * The page *)
(** Missing: macros; fonts and dimensions inside formulas; dimensions ended by
    a word other than those of [sets] and [rich]; texts that are refused. *)
Theorem C91_document_partial : forall (N : Num) (K : host N) f h s text ts e b,
  nonzero (n0 : N) = false -> machine_new K f h = Ok s ->
  lexes DefaultCatCodes true NewLine text ts e -> e <> BadCharacter -> e <> BadParam ->
  rich K (new_env K f h) ts (new_page K) b -> (Z.of_nat (List.length ts) < 2 ^ 64)%Z ->
  exists k, forall n, k <= n -> typeset K n s text = Ok (vbox (vb_result b)).
Proof. exact @typeset_rich. Qed.
(** In exact arithmetic the dimensions are those of C09, and the shapes of
    C12 are read. *)
Theorem C91_length : forall (K : host QcNum) e d x, measures K e d x <-> length_text (k_range K) (units K e) d x.
Proof. exact measures_iff. Qed.
Theorem C91_shape : forall (K : host QcNum) e (eq : bool) ds ps t,
  Forall digit ds -> ds <> [] -> (whole (digits_in ds) <= 2147483647)%Z ->
  whole (digits_in ds) = Z.of_nat (List.length ps) -> shape_text (k_range K) (units K e) ps t ->
  shapes K e (((if eq then ["="%char] else []) ++ ds ++ [" "%char]) ++ t) ps.
Proof. exact shapes_text. Qed.

(** * What is lost *)
(** "a formula says what its tokens say" is false: [&] says nothing, so a
    matrix has one column. *)
Theorem C91_tab_refuted : forall (N : Num) (K : host N) e sty a c b l,
  formula K e sty (a ++ b) l -> formula K e sty (a ++ TChar c AlignmentTab :: b) l.
Proof.
  intros N K e sty a c b l (es & trees & r & F & G & H). apply Forall2_app_inv_l in F as (ea & eb & Fa & Fb & ->).
  exists (ea ++ [] :: eb), trees, r. split; [apply Forall2_app; [exact Fa|constructor; [apply ask_tab|exact Fb]]|].
  rewrite concat_app in G |- *. split; [exact G|exact H].
Qed.

Lemma text_lexes text l : feed DefaultCatCodes lexer_init text = (l, None) ->
  lexes DefaultCatCodes true NewLine text (l_out l) (lexer_ending l None).
Proof.
  intros F. destruct (lexer_tokenizes_lemma DefaultCatCodes NewLine text lexer_init l None eq_refl F) as (ts & O & H).
  apply H. split; [exact O|reflexivity].
Qed.
Ltac lexed t := refine (text_lexes (txt t) _ eq_refl).
Ltac outside := let H := fresh in intros H; cbn in H; repeat (destruct H as [H|H]; [discriminate|]); exact H.
Ltac ordinary_word := split; [outside|split; [outside|reflexivity]].
Ltac spelt_chars := repeat (constructor; [eexists; reflexivity|]); constructor.
Lemma one_glyph {N : Num} (K : host N) e c k : (Z.of_N (N_of_ascii c) < 128)%Z -> k = Letter \/ k = Other ->
  sets1 K e [TChar c k] [NChar (Z.of_N (N_of_ascii c)) (hm_char (the_font K e) (Z.of_N (N_of_ascii c)))] e.
Proof.
  intros H KK. apply (s_glyph K e _ [Z.of_N (N_of_ascii c)]); [constructor; split; [apply N2Z.is_nonneg|exact H]| |].
  - constructor; [exists c, k; auto|constructor].
  - right. right. lia.
Qed.

(** "every character of a paragraph is on the page" is false: the character
    that ends a dimension is lost. *)
Theorem C91_stop_refuted : forall (N : Num) (K : host N) f h s x ls,
  nonzero (n0 : N) = false -> machine_new K f h = Ok s ->
  let e := new_env K f h in
  measures K e (str "1pt") x ->
  lines K (e_mem e) (new_page K) [NChar 97 (hm_char (the_font K e) 97); NKern x] ls ->
  exists k, forall n, k <= n ->
    typeset K n s (txt "a\kern1ptB") = Ok (vbox (vb_result (put (new_page K) ls))) /\
    typeset K n s (txt "a\kern1pt ") = Ok (vbox (vb_result (put (new_page K) ls))).
Proof.
  intros N K f h s x ls Z0 NW e ME LI.
  assert (X : forall c k, ~ lower c -> rich K e ([TChar "a" Letter] ++ (word "kern" :: [TChar "1" Other; TChar "p" Letter; TChar "t" Letter] ++ [TChar c k]) ++ [])%char
     (new_page K) (put (new_page K) ls)).
  { intros c k L. eapply d_last; [| |exact LI]; [discriminate|].
    apply (s_cons K e _ [NChar 97 _] e); [apply (one_glyph K e "a"%char); [reflexivity|now left]|].
    apply (s_cons K e _ [NKern x] e); [|apply s_nil].
    apply (s_kern K e (str "1pt")); [ordinary_word|spelt_chars|exact ME|]. exists c, k. auto. }
  destruct (C91_document_partial N K f h s (txt "a\kern1ptB") _ _ (put (new_page K) ls) Z0 NW ltac:(lexed "a\kern1ptB"%string)) as (k1 & H1);
    [discriminate|discriminate|apply (X "B"%char); unfold lower, code; cbn; lia|reflexivity|].
  destruct (C91_document_partial N K f h s (txt "a\kern1pt ") _ _ (put (new_page K) ls) Z0 NW ltac:(lexed "a\kern1pt "%string)) as (k2 & H2);
    [discriminate|discriminate|apply (X " "%char); unfold lower, code; cbn; lia|reflexivity|].
  exists (k1 + k2). intros n LE. split; [apply H1|apply H2]; lia.
Qed.

(** "a shape is that of one paragraph" is false: it stays. *)
Theorem C91_shape_stays_refuted : forall (N : Num) (K : host N) f h s ps ls ls',
  nonzero (n0 : N) = false -> machine_new K f h = Ok s ->
  let e := new_env K f h in
  shapes K e (str "1 0pt 9pt ") ps ->
  let m := set_parshape (e_mem e) ps in
  lines K m (new_page K) [NChar 97 (hm_char (the_font K e) 97)] ls ->
  lines K m (put (new_page K) ls) [NChar 98 (hm_char (the_font K e) 98)] ls' ->
  exists k, forall n, k <= n ->
    typeset K n s (txt "\parshape1 0pt 9pt a\par b") = Ok (vbox (vb_result (put (put (new_page K) ls) ls'))).
Proof.
  intros N K f h s ps ls ls' Z0 NW e SH m L1 L2.
  apply (C91_document_partial N K f h s _ _ _ _ Z0 NW ltac:(lexed "\parshape1 0pt 9pt a\par b"%string)); [discriminate|discriminate| |reflexivity].
  set (e1 := mkEnv m (e_font e) (e_loads e)).
  match goal with |- rich K _ ?ts _ _ =>
    change ts with ((word "parshape" :: [TChar "1" Other; TChar " " Space; TChar "0" Other; TChar "p" Letter; TChar "t" Letter; TChar " " Space;
       TChar "9" Other; TChar "p" Letter; TChar "t" Letter; TChar " " Space]) ++ ([TChar "a" Letter] ++ []) ++ par :: ([TChar "b" Letter] ++ []))%char end.
  apply (d_assign K e _ e1); [apply (as_shape K e (str "1 0pt 9pt ") ps); [exact SH|spelt_chars]|].
  eapply (d_para K e1 _ ([NChar 97 _] ++ []) e1 _ ls); [discriminate| |exact L1|ordinary_word|].
  - apply (s_cons K e1 _ _ e1); [apply (one_glyph K e1 "a"%char); [reflexivity|now left]|apply s_nil].
  - eapply (d_last K e1 _ ([NChar 98 _] ++ []) e1 _ ls'); [discriminate| |exact L2].
    apply (s_cons K e1 _ _ e1); [apply (one_glyph K e1 "b"%char); [reflexivity|now left]|apply s_nil].
Qed.

(** * An example *)
Definition got {A} (d : A) (r : result A) : A := match r with Ok x => x | _ => d end.
Definition fine {A} (r : result A) : bool := match r with Ok _ => true | _ => false end.
Lemma got_fine {A} (d : A) r : fine r = true -> r = Ok (got d r).
Proof. destruct r; try discriminate. reflexivity. Qed.
(** a font, a kern, a lowered box, a formula, a display that ends the paragraph *)
Definition rich_text : string := "\font\big=x}\big a\kern1pt \lower2pt\hbox{b}$x^2$$$y$$c".
Definition rich_env : env F32 := new_env toy 0 (fl 100).
Definition big_env : env F32 :=
  mkEnv (set_font (e_mem rich_env) 1) (fun m => if list_eq_dec ascii_dec m (str "big") then Some 1%Z else None) [(str "big", str "x")].
Definition dim_of (d : string) : result F32 :=
  do p <- dp_writes dp_init (str d); do q <- dp_finish (N := F32) (k_range toy) p; d_eval q (units toy big_env).
Definition dim (d : string) : F32 := got (fl 0) (dim_of d).
Definition measure_check (d : string) : bool :=
  match dp_writes dp_init (str d) with
  | Ok p => dp_hasResult p && negb (dp_isFinished p) &&
      match dp_finish (N := F32) (k_range toy) p with Ok q => d_isFinite q && fine (d_eval q (units toy big_env)) | _ => false end
  | _ => false
  end.
Lemma dim_measures d : measure_check d = true -> measures toy big_env (str d) (dim d).
Proof.
  unfold measure_check, dim, dim_of. destruct (dp_writes dp_init (str d)) as [p| | | |] eqn:W; try discriminate. cbn [bind].
  destruct (dp_finish (N := F32) (k_range toy) p) as [q| | | |] eqn:F; rewrite ?andb_false_r; try discriminate. cbn [bind].
  rewrite !andb_true_iff, negb_true_iff. intros ((HR & NF) & FN & OK). exists p, q.
  repeat (split; [first [exact W | exact HR | exact NF | exact F | exact FN]|]). apply got_fine. exact OK.
Qed.
Definition x2 : list tree := [TAtom 0 (MathSpec.Sym (mkSym 120 0 1)) (MathSpec.Sym (mkSym 50 0 0)) Nothing].
Definition y : list tree := [TAtom 0 (MathSpec.Sym (mkSym 121 0 1)) Nothing Nothing].
Definition set_math (sty : style) (t : list tree) : result (list (node F32)) :=
  do r <- mlist2hlist (k_math toy) 20 default_penalties sty (map value t); Ok (fst r).
Definition set_x2 : list (node F32) := got [] (set_math T x2).
Definition set_y : list (node F32) := got [] (set_math D y).
Lemma math_formula e sty ts es t : Forall2 (asks e) ts es -> MathSpec.group (List.concat es) t -> heights t < 20 ->
  fine (set_math sty t) = true -> formula toy e sty ts (got [] (set_math sty t)).
Proof.
  intros F G H OK. unfold set_math in *. destruct (mlist2hlist (k_math toy) 20 default_penalties sty (map value t)) as [r| | | |] eqn:E; try discriminate.
  exists es, t, r. auto.
Qed.
Lemma ask_letter (e : env F32) c : 97 <= nat_of_ascii c <= 122 -> asks e (TChar c Letter) [CSym (mkSym (z_of c) 0 1)].
Proof. intros H. apply (ask_means (N := F32)); [split; discriminate|]. apply t_letter, cm_letter. right. unfold z_of. lia. Qed.
Definition glyph (c : ascii) : node F32 := NChar (Z.of_N (N_of_ascii c)) (hm_char (the_font toy big_env) (Z.of_N (N_of_ascii c))).
Definition rich_list : list (node F32) :=
  [glyph "a"] ++ [NKern (dim "1pt")] ++ [node_of Horizontal (lowered (dim "2pt") (hbox ([glyph "b"] ++ [])))] ++ set_x2 ++ [].
Definition lines_of (b : vbuilder F32) (l : list (node F32)) : result (list (node F32)) :=
  let P := page_para (e_mem big_env) (vb_prevdepth b) in LineBreaks.create (k_pows toy) P (prepare P l).
Lemma lines_got b l : fine (lines_of b l) = true -> lines toy (e_mem big_env) b l (got [] (lines_of b l)).
Proof. apply (got_fine (A := list (node F32))). Qed.
Definition page1 : vbuilder F32 := put (new_page toy) (got [] (lines_of (new_page toy) rich_list)).
Definition page2 : vbuilder F32 := display (e_mem big_env) page1 set_y.
Definition page3 : vbuilder F32 := put page2 (got [] (lines_of page2 ([glyph "c"] ++ []))).
Lemma glyph_sets c : 97 <= nat_of_ascii c <= 122 -> sets1 toy big_env [TChar c Letter] [glyph c] big_env.
Proof.
  intros H. apply one_glyph; [|now left]. unfold nat_of_ascii in H. lia.
Qed.
Definition rich_tokens : list token :=
  ((word "font" :: TCs (str "big") :: TChar "=" Other :: [TChar "x" Letter] ++ [TChar "}" GroupEnd]) ++ [word "big"] ++
        ([TChar "a" Letter] ++ (word "kern" :: [TChar "1" Other; TChar "p" Letter; TChar "t" Letter] ++ [TChar " " Space]) ++
         (word "lower" :: [TChar "2" Other; TChar "p" Letter; TChar "t" Letter] ++ [] ++ word "hbox" :: TChar "{" GroupBegin :: ([TChar "b" Letter] ++ []) ++ [TChar "}" GroupEnd]) ++
         (TChar "$" MathShift :: [TChar "x" Letter; TChar "^" Superscript; TChar "2" Other] ++ [TChar "$" MathShift]) ++ []) ++
        dollars "$" "$" ++ [TChar "y" Letter] ++ dollars "$" "$" ++ [TChar "c" Letter] ++ [])%char.
Lemma rich_lexes : lexes DefaultCatCodes true NewLine (txt rich_text) rich_tokens (EndText MidLine).
Proof.
  destruct (feed DefaultCatCodes lexer_init (txt rich_text)) as [l o] eqn:F.
  assert (X : l_out l = rich_tokens /\ o = None /\ lexer_ending l None = EndText MidLine).
  { replace l with (fst (feed DefaultCatCodes lexer_init (txt rich_text))) by now rewrite F.
    replace o with (snd (feed DefaultCatCodes lexer_init (txt rich_text))) by now rewrite F. vm_compute. auto. }
  destruct X as (<- & -> & <-). now apply text_lexes.
Qed.
Example rich_case : exists k, forall n, k <= n -> forall s, machine_new toy 0 (fl 100) = Ok s ->
  typeset toy n s (txt rich_text) = Ok (vbox (vb_result page3)).
Proof.
  destruct (C84_machine F32 toy 0 (fl 100)) as [s E].
  destruct (C91_document_partial F32 toy 0 (fl 100) s (txt rich_text) _ _ page3 ltac:(vm_compute; reflexivity) E rich_lexes) as [k H].
  - discriminate.
  - discriminate.
  - unfold rich_tokens.
    eapply d_assign.
    { apply (as_load toy _ (str "big") (str "x")) with (f := 1%Z); [outside|intros [H|[]]; discriminate|spelt_chars|reflexivity]. }
    eapply d_assign; [apply as_select with (f := 1%Z); [outside|outside|reflexivity]|].
    change (rich toy big_env
       (([TChar "a" Letter] ++ (word "kern" :: [TChar "1" Other; TChar "p" Letter; TChar "t" Letter] ++ [TChar " " Space]) ++
         (word "lower" :: [TChar "2" Other; TChar "p" Letter; TChar "t" Letter] ++ [] ++ word "hbox" :: TChar "{" GroupBegin :: ([TChar "b" Letter] ++ []) ++ [TChar "}" GroupEnd]) ++
         (TChar "$" MathShift :: [TChar "x" Letter; TChar "^" Superscript; TChar "2" Other] ++ [TChar "$" MathShift]) ++ []) ++
        dollars "$" "$" ++ [TChar "y" Letter] ++ dollars "$" "$" ++ [TChar "c" Letter] ++ [])%char (new_page toy) page3).
    apply (d_para_display toy big_env _ rich_list big_env _ (got [] (lines_of (new_page toy) rich_list)) _ _ _ set_y).
    + discriminate.
    + unfold rich_list.
      apply (s_cons toy big_env _ _ big_env); [apply glyph_sets; cbn; lia|].
      apply (s_cons toy big_env _ _ big_env).
      { apply (s_kern toy big_env (str "1pt")); [ordinary_word|spelt_chars|apply dim_measures; vm_compute; reflexivity|].
        exists " "%char, Space. split; [reflexivity|unfold lower, code; cbn; lia]. }
      apply (s_cons toy big_env _ _ big_env).
      { apply (s_lower toy big_env (str "2pt")) with (e' := big_env); [ordinary_word|ordinary_word|spelt_chars|apply dim_measures; vm_compute; reflexivity|now left|].
        apply (s_cons toy big_env _ _ big_env); [apply glyph_sets; cbn; lia|apply s_nil]. }
      apply (s_cons toy big_env _ _ big_env); [|apply s_nil].
      apply s_formula; [discriminate|].
      apply math_formula with (es := [[CSym (mkSym 120 0 1)]; [CSup]; [CSym (mkSym 50 0 0)]]).
      * constructor; [apply (ask_letter big_env "x"%char); cbn; lia|].
        constructor; [apply ask_means; [split; discriminate|constructor]|].
        constructor; [apply ask_means; [split; discriminate|apply t_other, (cm_digit "2"%char); vm_compute; split; discriminate]|constructor].
      * cbn [List.concat app]. apply group_body, body_items.
        apply (items_cons false [CSym (mkSym 120 0 1); CSup; CSym (mkSym 50 0 0)] _ [] []); [|constructor].
        apply (item_sym false (mkSym 120 0 1)); [discriminate|]. apply scripts_sup, script_sym.
      * cbn. lia.
      * vm_compute. reflexivity.
    + apply lines_got. vm_compute. reflexivity.
    + apply math_formula with (es := [[CSym (mkSym 121 0 1)]]).
      * constructor; [apply (ask_letter big_env "y"%char); cbn; lia|constructor].
      * cbn [List.concat app]. apply group_body, body_items.
        apply (items_cons false [CSym (mkSym 121 0 1)] _ [] []); [|constructor].
        apply (item_sym false (mkSym 121 0 1)); [discriminate|]. constructor.
      * cbn. lia.
      * vm_compute. reflexivity.
    + apply (d_last toy big_env _ ([glyph "c"] ++ []) big_env); [discriminate| |apply lines_got; vm_compute; reflexivity].
      apply (s_cons toy big_env _ _ big_env); [apply glyph_sets; cbn; lia|apply s_nil].
  - reflexivity.
  - exists k. intros n L s' E'. rewrite E in E'. injection E' as <-. now apply H.
Qed.
(** a line, the distance, the display, the distance, a line *)
Example rich_length : List.length (vb_result page3) = 5 /\ List.length rich_list = 4.
Proof. vm_compute. split; reflexivity. Qed.

Print Assumptions C91_document_partial.
Print Assumptions C91_length.
Print Assumptions C91_shape.
Print Assumptions C91_tab_refuted.
Print Assumptions C91_stop_refuted.
Print Assumptions C91_shape_stays_refuted.
