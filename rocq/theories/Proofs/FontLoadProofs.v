(** The font that a specification describes. *)
From Coq Require Import List ZArith Bool QArith Ascii String Lia.
From Verif.Base Require Import Result Num.
From Verif.Model Require Import Token Box Tfm FontLoad.
From Verif.Spec Require Import FontLoadSpec.
From Verif.Proofs Require Import LexerProofs TfmProofs.
Import ListNotations.
Local Open Scope nat_scope.

(** * the parts *)
Lemma split_word cur p t : no_comma p -> split_commas cur (p ++ t) = split_commas (rev p ++ cur) t.
Proof.
  revert cur. induction p as [|c p IH]; intros cur H; [reflexivity|]. cbn [app split_commas].
  destruct (Ascii.eqb_spec c ","%char) as [->|E]; [destruct H; left; reflexivity|].
  rewrite IH by (intros X; apply H; right; exact X). cbn [rev]. now rewrite <- app_assoc.
Qed.
Lemma split_parts t l : parts t l -> split_commas [] t = l.
Proof.
  induction 1 as [|t l P IH|p NE NC|p t l NE NC P IH].
  - reflexivity.
  - cbn [split_commas]. exact IH.
  - rewrite <- (app_nil_r p) at 1. rewrite split_word by exact NC. rewrite app_nil_r. cbn [split_commas].
    destruct (rev p) eqn:E; [apply (f_equal (@rev ascii)) in E; rewrite rev_involutive in E; cbn in E; congruence|].
    rewrite <- E, rev_involutive. reflexivity.
  - rewrite split_word by exact NC. rewrite app_nil_r. cbn [split_commas].
    change (Ascii.eqb ","%char ","%char) with true. cbv beta iota. rewrite IH.
    destruct (rev p) eqn:E; [apply (f_equal (@rev ascii)) in E; rewrite rev_involutive in E; cbn in E; congruence|].
    rewrite <- E, rev_involutive. reflexivity.
Qed.
Lemma comma_dec p : no_comma p \/ exists q t, p = q ++ ","%char :: t /\ no_comma q.
Proof.
  induction p as [|c p IH]; [left; intros []|]. destruct (Ascii.eqb_spec c ","%char) as [->|E].
  - right. exists [], p. split; [reflexivity|intros []].
  - destruct IH as [IH|(q & t & -> & IH)].
    + left. intros [X|X]; [congruence|exact (IH X)].
    + right. exists (c :: q), t. split; [reflexivity|]. intros [X|X]; [congruence|exact (IH X)].
Qed.
Lemma parts_exist t : exists l, parts t l.
Proof.
  remember (List.length t) as n eqn:L. assert (LE : List.length t <= n) by lia. clear L. revert t LE.
  induction n as [|n IH]; intros t LE.
  - destruct t; [exists []; constructor|cbn in LE; lia].
  - destruct (comma_dec t) as [H|(q & r & -> & H)].
    + destruct t as [|c t]; [exists []; constructor|]. exists [c :: t]. constructor; [discriminate|exact H].
    + rewrite app_length in LE. cbn [List.length] in LE. destruct (IH r ltac:(lia)) as (l & P).
      destruct q as [|c q]; [exists l; now constructor|]. exists ((c :: q) :: l). constructor; [discriminate|exact H|exact P].
Qed.
Theorem parts_are t l : parts t l <-> split_commas [] t = l.
Proof.
  split; [apply split_parts|]. intros <-. destruct (parts_exist t) as (l & P). now rewrite (split_parts t l P).
Qed.
Lemma parts_none t : parts t [] <-> Forall (fun c => c = ","%char) t.
Proof.
  split.
  - remember [] as l eqn:E. intros P. revert E. induction P; intros E; try discriminate E; constructor; auto.
  - induction 1 as [|c t -> _ IH]; [constructor|now constructor].
Qed.

(** * the options *)
Lemma last_snoc (P : name -> Prop) l a o : last_of P (l ++ [a]) o <-> (P a /\ o = a) \/ (~ P a /\ last_of P l o).
Proof.
  split.
  - intros (l1 & l2 & E & H & F). destruct l2 as [|x l2] using rev_ind.
    + apply app_inj_tail in E as [-> ->]. left. auto.
    + clear IHl2. rewrite app_comm_cons, app_assoc in E. apply app_inj_tail in E as [-> ->]. right.
      split; [apply F, in_or_app; right; left; reflexivity|]. exists l1, l2. split; [reflexivity|]. split; [exact H|].
      intros y Y. apply F, in_or_app. now left.
  - intros [[H ->]|[H (l1 & l2 & -> & Q & F)]].
    + exists l, []. split; [reflexivity|]. split; [exact H|intros x []].
    + exists l1, (l2 ++ [a]). split; [now rewrite <- app_assoc, app_comm_cons|]. split; [exact Q|].
      intros x X. apply in_app_or in X as [X|[<-|[]]]; auto.
Qed.
Lemma last_nil P o : ~ last_of P [] o.
Proof. intros (l1 & l2 & E & _). now destruct l1. Qed.
Lemma last_in P l o : last_of P l o -> P o.
Proof. intros (? & ? & _ & H & _). exact H. Qed.

Ltac eqs := repeat match goal with |- context [name_eqb ?a ?b] => destruct (name_eqb_spec a b) as [?|?] end.
Section Options.
  Context {N : Num}.
  Variable to_float : name -> option N.
  Variable to_int : N -> option Z.
  Variable line_height : qfont -> N.
  Variable mag : N.
  Notation option_ := (font_option to_float to_int mag).
  Notation gives := (gives to_float to_int mag).
  Notation too_large := (too_large to_float to_int mag).
  Notation says := (says to_float to_int mag).

  Lemma bold_word : words (str "bold"). Proof. now left. Qed.
  Lemma not_gives o z : words o -> ~ gives o z. Proof. intros W (X & _). exact (X W). Qed.
  Lemma gives_one o z z' : gives o z -> gives o z' -> z = z'.
  Proof. intros (_ & x & A & B & _) (_ & x' & A' & B' & _). congruence. Qed.

  Lemma option_says l f o g : says l f -> option_ f o = Ok g -> says (l ++ [o]) g /\ q_family g = q_family f.
  Proof.
    intros [B I S Z] H. unfold font_option in H.
    destruct (name_eqb_spec o (str "bold")) as [->|NB]; [|destruct (name_eqb_spec o (str "italic")) as [->|NI];
      [|destruct (name_eqb_spec o (str "slanted")) as [->|NS]]].
    - injection H as <-. split; [|reflexivity]. constructor; cbn [q_bold q_style q_size].
      + split; [intros _; apply in_or_app; right; left; reflexivity|reflexivity].
      + rewrite I, last_snoc. split; [intros X; right; split; [intros [Y|Y]; discriminate Y|exact X]|intros [[_ X]|[_ X]]; [discriminate X|exact X]].
      + rewrite S, last_snoc. split; [intros X; right; split; [intros [Y|Y]; discriminate Y|exact X]|intros [[_ X]|[_ X]]; [discriminate X|exact X]].
      + intros z. rewrite Z. split; intros (o & L & G); exists o; (split; [|exact G]).
        * apply last_snoc. right. split; [intros (y & Y); exact (not_gives _ _ bold_word Y)|exact L].
        * apply last_snoc in L as [[_ ->]|[_ L]]; [destruct (not_gives _ _ bold_word G)|exact L].
    - assert (W : words (str "italic")) by (right; left; reflexivity).
      injection H as <-. split; [|reflexivity]. constructor; cbn [q_bold q_style q_size].
      + rewrite B, in_app_iff. split; [now left|intros [X|[X|[]]]; [exact X|discriminate X]].
      + split; [intros _; apply last_snoc; left; split; [now left|reflexivity]|reflexivity].
      + split; [discriminate|]. intros X. apply last_snoc in X as [[_ X]|[X _]]; [discriminate X|]. destruct X. now left.
      + intros z. rewrite Z. split; intros (o & L & G); exists o; (split; [|exact G]).
        * apply last_snoc. right. split; [intros (y & Y); exact (not_gives _ _ W Y)|exact L].
        * apply last_snoc in L as [[_ ->]|[_ L]]; [destruct (not_gives _ _ W G)|exact L].
    - assert (W : words (str "slanted")) by (right; right; reflexivity).
      injection H as <-. split; [|reflexivity]. constructor; cbn [q_bold q_style q_size].
      + rewrite B, in_app_iff. split; [now left|intros [X|[X|[]]]; [exact X|discriminate X]].
      + split; [discriminate|]. intros X. apply last_snoc in X as [[_ X]|[X _]]; [discriminate X|]. destruct X. now right.
      + split; [intros _; apply last_snoc; left; split; [now right|reflexivity]|reflexivity].
      + intros z. rewrite Z. split; intros (o & L & G); exists o; (split; [|exact G]).
        * apply last_snoc. right. split; [intros (y & Y); exact (not_gives _ _ W Y)|exact L].
        * apply last_snoc in L as [[_ ->]|[_ L]]; [destruct (not_gives _ _ W G)|exact L].
    - assert (W : ~ words o) by (intros [X|[X|X]]; congruence).
      assert (NST : ~ styles o) by (intros X; apply W; right; exact X).
      assert (KEEP : forall h, q_family h = q_family f -> q_bold h = q_bold f -> q_style h = q_style f ->
        (forall z, q_size h = Pixels z <-> exists x, last_of (fun o => exists z, gives o z) (l ++ [o]) x /\ gives x z) ->
        says (l ++ [o]) h /\ q_family h = q_family f).
      { intros h F1 F2 F3 F4. split; [|exact F1]. constructor; [rewrite F2, B, in_app_iff|rewrite F3, I, last_snoc|rewrite F3, S, last_snoc|exact F4].
        - split; [now left|intros [X|[X|[]]]; [exact X|congruence]].
        - split; [intros X; right; auto|intros [[X _]|[_ X]]; [destruct (NST X)|exact X]].
        - split; [intros X; right; auto|intros [[X _]|[_ X]]; [destruct (NST X)|exact X]]. }
      assert (SAME : (forall z, ~ gives o z) -> forall z, q_size f = Pixels z <->
        exists x, last_of (fun o => exists z, gives o z) (l ++ [o]) x /\ gives x z).
      { intros NG z. rewrite Z. split; intros (x & L & G); exists x; (split; [|exact G]).
        - apply last_snoc. right. split; [intros (y & Y); exact (NG _ Y)|exact L].
        - apply last_snoc in L as [[_ ->]|[_ L]]; [destruct (NG _ G)|exact L]. }
      destruct (to_float o) as [x|] eqn:EF.
      + destruct (to_int (nmul x mag)) as [k|] eqn:EI; [|discriminate H]. injection H as <-. unfold setPixelSize.
        destruct (Z.leb_spec k 0) as [LE|LT].
        * apply KEEP; try reflexivity. apply SAME. intros z (_ & y & A & C & D). assert (z = k) by congruence. lia.
        * apply KEEP; try reflexivity. cbn [q_size]. intros z.
          assert (G : gives o k) by (split; [exact W|]; exists x; auto).
          split.
          -- intros E. injection E as <-. exists o. split; [apply last_snoc; left; split; [exists k; exact G|reflexivity]|exact G].
          -- intros (y & L & Gy). apply last_snoc in L as [[_ ->]|[X _]]; [|destruct X; exists k; exact G].
             now rewrite (gives_one _ _ _ Gy G).
      + injection H as <-. apply KEEP; try reflexivity. apply SAME. intros z (_ & y & A & _). congruence.
  Qed.
  Lemma options_say opts : forall l f g, says l f -> foldM option_ opts f = Ok g -> says (l ++ opts) g /\ q_family g = q_family f.
  Proof.
    induction opts as [|o opts IH]; intros l f g H E; cbn [foldM] in E.
    - injection E as <-. rewrite app_nil_r. auto.
    - apply bind_Ok in E as (h & A & E). destruct (option_says l f o h H A) as [X Y].
      destruct (IH (l ++ [o]) h g X E) as [X' Y']. rewrite <- app_assoc in X'. split; [exact X'|congruence].
  Qed.
  Lemma says_nothing fam : says [] (mkQFont fam false StyleNormal DefaultSize).
  Proof.
    constructor; cbn.
    - split; [discriminate|intros []].
    - split; [discriminate|intros X; destruct (last_nil _ _ X)].
    - split; [discriminate|intros X; destruct (last_nil _ _ X)].
    - intros z. split; [discriminate|intros (o & X & _); destruct (last_nil _ _ X)].
  Qed.
  Theorem font_says spec f : font_of to_float to_int mag spec = Ok f ->
    exists fam opts, parts spec (fam :: opts) /\ q_family f = fam /\ says opts f.
  Proof.
    unfold font_of. destruct (split_commas [] spec) as [|fam opts] eqn:E; [discriminate|]. intros H.
    destruct (options_say opts [] _ _ (says_nothing fam) H) as [A B]. exists fam, opts. split; [now apply parts_are|]. auto.
  Qed.
  (** what is said determines the font *)
  Lemma says_one l f g : says l f -> says l g -> q_family f = q_family g -> f = g.
  Proof.
    intros [A B C D] [A' B' C' D'] F. destruct f as [fa b s z], g as [fa' b' s' z']. cbn in *. subst fa'. f_equal.
    - destruct b, b'; try reflexivity; [symmetry; apply A'; now apply A|apply A; now apply A'].
    - destruct s, s'; try reflexivity; first [exfalso; assert (X := proj2 B' (proj1 B eq_refl)); discriminate X
        |exfalso; assert (X := proj2 C' (proj1 C eq_refl)); discriminate X|exfalso; assert (X := proj2 B (proj1 B' eq_refl)); discriminate X
        |exfalso; assert (X := proj2 C (proj1 C' eq_refl)); discriminate X].
    - destruct z as [|z], z' as [|z']; try reflexivity.
      + assert (X := proj2 (D z') (proj1 (D' z') eq_refl)). discriminate X.
      + assert (X := proj2 (D' z) (proj1 (D z) eq_refl)). discriminate X.
      + symmetry. exact (proj2 (D' z) (proj1 (D z) eq_refl)).
  Qed.

  (** * undefined behaviour *)
  Lemma option_out f o : (exists g, option_ f o = Ok g) /\ ~ too_large o \/ option_ f o = UB /\ too_large o.
  Proof.
    unfold font_option.
    destruct (name_eqb_spec o (str "bold")) as [->|NB]; [left; split; [eauto|intros (X & _); apply X; now left]|].
    destruct (name_eqb_spec o (str "italic")) as [->|NI]; [left; split; [eauto|intros (X & _); apply X; right; now left]|].
    destruct (name_eqb_spec o (str "slanted")) as [->|NS]; [left; split; [eauto|intros (X & _); apply X; right; now right]|].
    destruct (to_float o) as [x|] eqn:EF; [destruct (to_int (nmul x mag)) as [k|] eqn:EI|].
    - left. split; [eauto|]. intros (_ & y & A & B). congruence.
    - right. split; [reflexivity|]. split; [intros [X|[X|X]]; congruence|eauto].
    - left. split; [eauto|]. intros (_ & y & A & _). congruence.
  Qed.
  Lemma options_out opts : forall f, (exists g, foldM option_ opts f = Ok g) /\ Forall (fun o => ~ too_large o) opts \/
    foldM option_ opts f = UB /\ Exists too_large opts.
  Proof.
    induction opts as [|o opts IH]; intros f; cbn [foldM]; [left; eauto|].
    destruct (option_out f o) as [[[g E] NT]|[E T]]; rewrite E; cbn [bind]; [|right; auto].
    destruct (IH g) as [[X F]|[X F]]; [left; auto|right; auto].
  Qed.
  Theorem font_out spec l : parts spec l ->
    (exists f, font_of to_float to_int mag spec = Ok f) /\ l <> [] /\ Forall (fun o => ~ too_large o) (tl l) \/
    font_of to_float to_int mag spec = UB /\ (l = [] \/ Exists too_large (tl l)).
  Proof.
    intros P. apply parts_are in P. unfold font_of. rewrite P. destruct l as [|fam opts]; [right; auto|].
    destruct (options_out opts (mkQFont fam false StyleNormal DefaultSize)) as [[X F]|[X F]].
    - left. split; [exact X|]. split; [discriminate|exact F].
    - right. auto.
  Qed.
  Theorem font_crash spec : font_of to_float to_int mag spec = UB <->
    Forall (fun c => c = ","%char) spec \/ exists fam opts, parts spec (fam :: opts) /\ Exists too_large opts.
  Proof.
    destruct (parts_exist spec) as (l & P). pose proof (proj1 (parts_are _ _) P) as Q.
    destruct (font_out spec l P) as [[[f E] [NE F]]|[E X]].
    - rewrite E. split; [discriminate|]. intros [C|(fam & opts & P' & C)].
      + apply parts_none, parts_are in C. congruence.
      + apply parts_are in P'. rewrite Q in P'. rewrite P' in F. cbn [tl] in F. rewrite Forall_forall in F. apply Exists_exists in C as (o & I & C).
        destruct (F o I C).
    - split; [intros _|intros _; exact E]. destruct X as [->|X]; [left; now apply parts_none|].
      destruct l as [|fam opts]; [inversion X|]. right. eauto.
  Qed.
  Lemma font_total spec : font_of to_float to_int mag spec = UB \/ exists f, font_of to_float to_int mag spec = Ok f.
  Proof. destruct (parts_exist spec) as (l & P). destruct (font_out spec l P) as [[X _]|[X _]]; auto. Qed.

  (** * the brace *)
  Lemma parts_front c fam rest : no_comma (c :: fam) -> rest = [] \/ (exists r, rest = ","%char :: r) ->
    exists l, parts ((c :: fam) ++ rest) ((c :: fam) :: l).
  Proof.
    intros NC [->|(r & ->)].
    - exists []. rewrite app_nil_r. constructor; [discriminate|exact NC].
    - destruct (parts_exist r) as (l & P). exists l. constructor; [discriminate|exact NC|exact P].
  Qed.
  Theorem brace_family fam rest f : no_comma fam -> rest = [] \/ (exists r, rest = ","%char :: r) ->
    font_of to_float to_int mag ("{"%char :: fam ++ rest) = Ok f -> q_family f = "{"%char :: fam.
  Proof.
    intros NC R E. destruct (font_says _ _ E) as (fam' & opts & P & F & _).
    destruct (parts_front "{"%char fam rest) as (l & P'); [intros [X|X]; [discriminate X|exact (NC X)]|exact R|].
    apply parts_are in P, P'. cbn [app] in P'. congruence.
  Qed.
  (** an option that is none *)
  Theorem no_option spec f o g : spec <> [] -> no_comma spec -> no_comma o -> o <> [] -> ~ words o -> to_float o = None ->
    font_of to_float to_int mag spec = Ok f -> font_of to_float to_int mag (spec ++ ","%char :: o) = Ok g -> g = f.
  Proof.
    intros NE NC NO NO' NW NF E E'. unfold font_of in *.
    rewrite (split_parts spec [spec] (parts_last _ NE NC)) in E.
    rewrite (split_parts _ [spec; o] (parts_more _ _ _ NE NC (parts_last _ NO' NO))) in E'. cbn [foldM] in E, E'.
    unfold font_option in E'. destruct (name_eqb_spec o (str "bold")) as [->|NB]; [destruct NW; now left|].
    destruct (name_eqb_spec o (str "italic")) as [->|NI]; [destruct NW; right; now left|].
    destruct (name_eqb_spec o (str "slanted")) as [->|NS]; [destruct NW; right; now right|].
    rewrite NF in E'. cbn [bind] in E'. congruence.
  Qed.

  (** * the table *)
  Theorem load_table any fonts n spec fonts' id : loadFont to_float to_int line_height mag any fonts n spec = Ok (fonts', id) ->
    exists f e, font_of to_float to_int mag spec = Ok f /\ fonts' = fonts ++ [e] /\ id = Z.of_nat (List.length fonts) /\
      f_name e = n /\ f_font e = f /\
      forall k, f_dimen e k = nmul (t_dimen (cmr10_tfm any) k) (line_height f).
  Proof.
    unfold loadFont. intros H. apply bind_Ok in H as (f & E & H).
    assert (INJ : forall x y : list (entry N) * Z, Ok x = Ok y -> x = y) by congruence. apply INJ in H.
    pose proof (f_equal fst H) as H1. pose proof (f_equal snd H) as H2. cbn [fst snd] in H1, H2.
    exists f. eexists. split; [exact E|]. split; [symmetry; exact H1|]. split; [symmetry; exact H2|]. split; [reflexivity|]. split; [reflexivity|].
    intros k. cbn [f_dimen]. rewrite absolute_field. reflexivity.
  Qed.
End Options.
