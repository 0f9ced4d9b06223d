(** What the fields of the viewer make of their texts. *)
From Coq Require Import List Ascii String QArith Qcanon ZArith Bool Arith Lia Lqa.
From Verif.Base Require Import Result Num.
From Verif.Model Require Import Token Glue Dimen DimenParser Viewer.
From Verif.Spec Require Import DimenSpec ViewerSpec.
From Verif.Proofs Require Import DimenProofs ParserProofs ShapeProofs GlueOnly.
Import ListNotations.
Local Open Scope char_scope.

Section Any.
  Context {N : Num} (in_range : Q -> bool) (us : unitsystem N).
  Lemma loop_ok t : forall p g, glue_loop in_range us p t = Ok (Some g) <->
    exists q, gp_writes in_range us p t = Ok q /\ gp_finish in_range us q = Ok g.
  Proof.
    induction t as [|c t IH]; intros p g; cbn [glue_loop].
    - unfold gp_writes. cbn [foldM]. split.
      + intros H. exists p. split; [reflexivity|]. destruct (gp_finish in_range us p); cbn [caught] in H; try discriminate.
        * injection H as <-. reflexivity.
        * destruct (finish_escapes _ _); discriminate.
      + intros (q & E & F). injection E as <-. rewrite F. reflexivity.
    - unfold gp_writes. cbn [foldM]. destruct (gp_write in_range us p c) as [p'| | | |]; cbn [caught bind]; try (split; [discriminate|intros (q & E & _); discriminate]).
      + apply IH.
      + split; [|intros (q & E & _); discriminate]. destruct (write_escapes _ _ _); discriminate.
  Qed.
End Any.

Section Q.
  Context (in_range : Q -> bool) (us : unitsystem QcNum).
  Notation gw := (gp_writes (N := QcNum) in_range us).
  Notation fails := (stof_fails (N := QcNum) in_range).
  Notation spec0 := (gp_spec (@gp_init QcNum)).

  Lemma finish_fails d : fails (dp_factor d) = true <-> dp_finish (N := QcNum) in_range d = Throw.
  Proof.
    unfold stof_fails, dp_finish, stof. destruct (stof_q _) as [q|]; [|cbn; tauto].
    destruct (in_range (Qred q)); [|cbn; tauto]. cbn [bind]. split; [discriminate|].
    destruct (str2phyunit _); discriminate.
  Qed.

  Lemma number_open e neg v kw : number_text e neg v kw ->
    exists d, open_dim e d /\ dp_neg d = neg /\ dp_unit d = kw /\
      stof (N := QcNum) in_range (dp_factor d) = if in_range (Qred v) then Ok (nlit (Qred v)) else Throw.
  Proof.
    intros [s f k Hs Hf Hk].
    assert (W : dp_writes dp_init (s ++ factor_text f ++ k) = dp_writes (pF (negative s) (factor_stored f) (has_frac f)) k).
    { unfold dp_writes. rewrite foldM_app. change (foldM dp_write s dp_init) with (dp_writes (pS false) s).
      rewrite writes_signs by exact Hs. cbn [bind]. rewrite xorb_false_l, foldM_app.
      change (foldM dp_write (factor_text f) ?p) with (dp_writes p (factor_text f)).
      rewrite writes_factor by exact Hf. reflexivity. }
    destruct k as [|c k].
    - exists (pF (negative s) (factor_stored f) (has_frac f)). split; [split; [rewrite W|]; reflexivity|].
      repeat split. apply stof_factor. exact Hf.
    - exists (pU (negative s) (factor_stored f) (has_frac f) (c :: k)). split.
      + split; [rewrite W; apply writes_unit; [exact Hk|discriminate]|reflexivity].
      + repeat split. apply stof_factor. exact Hf.
  Qed.
  Lemma open_shape e d : open_dim e d ->
    (Forall sign e /\ dp_factor d = []) \/ exists v, number_text e (dp_neg d) v (dp_unit d).
  Proof.
    intros [W F]. apply reach_all in W. unfold reach in W. unfold dp_isFinished in F. destruct (dp_st d); try discriminate.
    - destruct W as [H ->]. left. split; [exact H|reflexivity].
    - destruct W as (s & f & -> & Hs & Hf & ->). right. exists (factor_value f). cbn [pF dp_neg dp_unit].
      rewrite <- (app_nil_r (factor_text f)). constructor; auto.
    - destruct W as (s & f & kw & -> & Hs & Hf & Hl & _ & ->). right. exists (factor_value f). constructor; auto.
  Qed.
  Lemma open_same e d d' : open_dim e d -> open_dim e d' -> d = d'.
  Proof. intros [W _] [W' _]. congruence. Qed.

  Lemma open_fails e d : open_dim e d -> fails (dp_factor d) = true <-> no_number in_range e.
  Proof.
    intros O. split.
    - intros H. destruct (open_shape e d O) as [[A _]|(v & A)]; [left; exact A|right].
      exists (dp_neg d), v, (dp_unit d). split; [exact A|]. destruct (number_open _ _ _ _ A) as (d' & O' & _ & _ & E).
      rewrite <- (open_same _ _ _ O O') in E. unfold stof_fails in H. rewrite E in H. destruct (in_range (Qred v)); [discriminate|reflexivity].
    - intros [H|(neg & v & kw & H & R)].
      + destruct O as [W _]. change dp_init with (pS false) in W. rewrite writes_signs in W by exact H. injection W as <-. reflexivity.
      + destruct (number_open _ _ _ _ H) as (d' & O' & _ & _ & E). rewrite (open_same _ _ _ O O').
        unfold stof_fails. rewrite E, R. reflexivity.
  Qed.
  Lemma no_number_open e : no_number in_range e -> exists d, open_dim e d.
  Proof.
    intros [H|(neg & v & kw & H & R)].
    - exists (pS (negative e)). split; [|reflexivity]. change dp_init with (pS false). rewrite writes_signs by exact H. rewrite xorb_false_l. reflexivity.
    - destruct (number_open _ _ _ _ H) as (d & O & _). eauto.
  Qed.

  Lemma closed_fails e d c d' : open_dim e d -> dp_write d c = Ok d' -> dp_isFinished d' = true ->
    fails (dp_factor d') = true -> out_of_range in_range e /\ ~ lower c.
  Proof.
    intros O W F H. destruct (open_close in_range e d c d' O W F) as (q & u & v & D & L & E). split; [|exact L].
    apply finish_fails in H. rewrite E in H. unfold read_as in H. exists q, u, v. split; [exact D|].
    destruct (in_range (Qred v)); [discriminate|reflexivity].
  Qed.
  Lemma range_split e c : out_of_range in_range e -> ~ lower c ->
    exists d d', open_dim e d /\ dp_write d c = Ok d' /\ dp_isFinished d' = true /\ fails (dp_factor d') = true.
  Proof.
    intros (q & u & v & D & R) L. destruct (dim_split in_range e c q u v D L) as (d & d' & W & F & _ & W' & F' & E).
    exists d, d'. split; [split; assumption|]. split; [exact W'|]. split; [exact F'|]. apply finish_fails. rewrite E.
    unfold read_as. rewrite R. reflexivity.
  Qed.

  (** * Glue *)
  Lemma finish_outcome p : (exists g, gp_finish in_range us p = Ok g) \/ gp_finish (N := QcNum) in_range us p = Throw.
  Proof.
    destruct p as [st dd spec w]. unfold gp_finish. cbn [gp_st gp_dimen gp_spec gp_word].
    destruct st; cbn [bind gp_st]; eauto.
    - destruct (space_outcome in_range us (mkGP GParsingSpace dd spec w)) as [[x Ex]|Ex]; rewrite Ex; cbn [bind]; [|auto].
      unfold gp_space in Ex. apply bind_Ok in Ex. destruct Ex as (y & _ & Ex). destruct (negb _); [discriminate|].
      apply bind_Ok in Ex. destruct Ex as (z & _ & Ex). injection Ex as <-. cbn [gp_st]. eauto.
    - cbn [gp_dimen gp_spec]. destruct (comp_outcome in_range us dd) as [[x Ex]|Ex]; destruct (dp_finish in_range dd); cbn [bind] in *; try discriminate; auto; rewrite Ex; cbn [bind]; eauto.
  Qed.
  Lemma write_escapes_throw p c : write_escapes (N := QcNum) in_range p c = true -> gp_write in_range us p c = Throw.
  Proof.
    destruct p as [st dd spec w]. unfold write_escapes, gp_write. cbn [gp_st gp_dimen gp_spec gp_word].
    destruct st; try discriminate; destruct (dp_write dd c); try discriminate; cbn [bind];
      intros H; apply andb_prop in H; destruct H as [-> H]; apply finish_fails in H.
    - unfold gp_space. cbn [gp_dimen]. rewrite H. reflexivity.
    - rewrite H. reflexivity.
    - rewrite H. reflexivity.
  Qed.
  Lemma finish_escapes_throw p : finish_escapes (N := QcNum) in_range p = true -> gp_finish in_range us p = Throw.
  Proof.
    destruct p as [st dd spec w]. unfold finish_escapes, gp_finish. cbn [gp_st gp_dimen gp_spec gp_word].
    destruct st; try discriminate; intros H; apply finish_fails in H.
    - unfold gp_space. cbn [gp_dimen]. rewrite H. reflexivity.
    - cbn [bind gp_st gp_dimen]. rewrite H. reflexivity.
  Qed.

  Lemma loop_outcome t : forall p, (exists o, glue_loop in_range us p t = Ok o) \/ glue_loop (N := QcNum) in_range us p t = Abort.
  Proof.
    induction t as [|c t IH]; intros p; cbn [glue_loop].
    - destruct (finish_outcome p) as [[g ->]| ->]; cbn [caught]; [eauto|]. destruct (finish_escapes _ _); eauto.
    - destruct (gp_write_outcome in_range us p c) as [[q ->]| ->]; cbn [caught bind]; [apply IH|].
      destruct (write_escapes _ _ _); cbn [bind]; eauto.
  Qed.
  Lemma loop_abort t : forall p, glue_loop (N := QcNum) in_range us p t = Abort <->
    (exists a c w q, t = a ++ c :: w /\ gw p a = Ok q /\ write_escapes (N := QcNum) in_range q c = true)
    \/ (exists q, gw p t = Ok q /\ finish_escapes (N := QcNum) in_range q = true).
  Proof.
    induction t as [|c t IH]; intros p; cbn [glue_loop].
    - split.
      + intros H. right. exists p. split; [reflexivity|]. destruct (finish_outcome p) as [[g E]|E]; rewrite E in H; cbn [caught] in H; [discriminate|].
        destruct (finish_escapes _ _); [reflexivity|discriminate].
      + intros [(a & c & w & q & E & _)|(q & E & F)]; [destruct a; discriminate|].
        injection E as <-. rewrite (finish_escapes_throw _ F), F. reflexivity.
    - split.
      + destruct (gp_write_outcome in_range us p c) as [[q E]|E]; rewrite E; cbn [caught bind]; intros H.
        * apply IH in H. destruct H as [(a & x & w & q' & -> & G & H)|(q' & G & H)].
          -- left. exists (c :: a), x, w, q'. split; [reflexivity|]. split; [|exact H]. unfold gp_writes. cbn [foldM]. rewrite E. exact G.
          -- right. exists q'. split; [|exact H]. unfold gp_writes. cbn [foldM]. rewrite E. exact G.
        * destruct (write_escapes _ _ _) eqn:F; [|discriminate]. left. exists [], c, t, p. auto.
      + intros [(a & x & w & q' & E & G & H)|(q' & G & H)].
        * destruct a as [|y a]; injection E as -> ->.
          -- injection G as <-. rewrite (write_escapes_throw _ _ H), H. reflexivity.
          -- unfold gp_writes in G. cbn [foldM] in G. apply bind_Ok in G. destruct G as (q & E & G). rewrite E. cbn [caught bind].
             apply IH. left. exists a, x, w, q'. auto.
        * unfold gp_writes in G. cbn [foldM] in G. apply bind_Ok in G. destruct G as (q & E & G). rewrite E. cbn [caught bind].
          apply IH. right. exists q'. auto.
  Qed.

  Lemma upto_writes t s a oa : upto_plus in_range us t s a oa ->
    exists dd, gw gp_init t = Ok (mkGP GParsedPlusDimen dd (sp2 s a oa) 4).
  Proof.
    intros [d c b1 b2 e x s' a' oa' L Lc B1 B2 C Lx]. destruct L as [d q u v D Fu R]. destruct C as [e q2 u2 v2 D2 R2].
    exact (gw_upto_plus in_range us d c b1 b2 e x q u v q2 u2 v2 D Lc Fu R B1 B2 D2 Lx R2).
  Qed.
  Lemma minus_writes t s a oa b3 b4 : upto_plus in_range us t s a oa -> blanks b3 -> blanks b4 ->
    gw gp_init (t ++ b3 ++ str "minus" ++ b4) = Ok (mkGP GParsedMinus dp_init (sp2 s a oa) 5).
  Proof.
    intros U B3 B4. destruct (upto_writes _ _ _ _ U) as (dd & W). rewrite gw_app, W. cbn [bind].
    rewrite gw_app, (gw_blanks _ _ GParsedPlusDimen b3) by (exact Logic.I || exact B3). cbn [bind].
    rewrite gw_app, gw_minus. cbn [bind]. apply gw_blanks; [exact Logic.I|exact B4].
  Qed.
  (** an unfinished dimension after the keyword *)
  Lemma open_start (plus : bool) e d spec w : open_dim e d -> e <> [] ->
    gw (mkGP (if plus then GParsedPlus else GParsedMinus) dp_init spec w) e
    = Ok (mkGP (if plus then GParsingPlusDimen else GParsingMinusDimen) d spec w).
  Proof.
    intros [W F] Ne. destruct e as [|c t]; [congruence|].
    pose proof (gp_dim_comp in_range us plus (c :: t) dp_init d spec w W F) as G. cbv zeta in G. rewrite <- G.
    unfold dp_writes in W. cbn [foldM] in W. apply bind_Ok in W. destruct W as (p1 & W1 & _).
    assert (F1 : dp_isFinished p1 = false).
    { clear -W1. unfold dp_write in W1. cbn [dp_init dp_st] in W1. unfold dp_write_factor in W1.
      repeat match goal with W : context [if ?b then _ else _] |- _ => destruct b end;
      try discriminate; injection W1 as <-; reflexivity. }
    assert (Hc : ceq c " " = false).
    { apply ceq_false. intros ->. discriminate W1. }
    unfold gp_writes; cbn [foldM].
    destruct plus; unfold gp_write at 1 3; cbn [gp_st gp_dimen gp_spec gp_word]; rewrite Hc, W1; cbn [bind];
      rewrite F1; reflexivity.
  Qed.
  Lemma dim_start e q u v : dim_text e q u v -> e <> [].
  Proof. intros D. destruct (dim_nonempty e q u v D) as (c & t & -> & _). discriminate. Qed.

  Lemma plus_part_upto t s a oa : plus_part in_range us t s a oa -> upto_plus in_range us t s a oa.
  Proof.
    intros (t0 & b1 & b2 & e & x & -> & (d & c & -> & L & Lc) & B1 & B2 & C & Lx).
    rewrite <- app_assoc. econstructor; eauto.
  Qed.

  Theorem read_glue_abort t : read_glue (N := QcNum) in_range us t = Abort <-> glue_breaks in_range us t.
  Proof.
    unfold read_glue. rewrite loop_abort. split.
    - intros [(a & c & w & q & -> & W & E)|(q & W & E)]; apply ginv_all in W; unfold ginv in W.
      + unfold write_escapes in E. destruct (gp_st q) eqn:St; try discriminate;
          destruct (dp_write (gp_dimen q) c) as [d'| | | |] eqn:Wd; try discriminate; apply andb_prop in E; destruct E as [F E].
        * destruct W as [O _]. destruct (closed_fails _ _ _ _ O Wd F E) as [R L]. constructor; assumption.
        * destruct W as (t0 & b1 & b2 & e & s & -> & B1 & B2 & (d & x & -> & L & Lx) & _ & O).
          destruct (closed_fails _ _ _ _ O Wd F E) as [R Lc].
          rewrite <- !app_assoc. eapply gb_plus; eauto.
        * destruct W as (t0 & e & s & a0 & oa & -> & (t1 & b3 & b4 & -> & P & B3 & B4) & _ & O & _).
          destruct (closed_fails _ _ _ _ O Wd F E) as [R Lc]. rewrite <- !app_assoc.
          eapply gb_minus_ended; eauto using plus_part_upto.
      + unfold finish_escapes in E. destruct (gp_st q) eqn:St; try discriminate.
        * destruct W as [O _]. apply gb_space. apply (open_fails _ _ O). exact E.
        * destruct W as (t0 & e & s & a0 & oa & -> & (t1 & b3 & b4 & -> & P & B3 & B4) & _ & O & Ne). rewrite <- !app_assoc.
          eapply gb_minus; eauto using plus_part_upto. apply (open_fails _ _ O). exact E.
    - intros H. destruct H as [t Hn|d c w R L|d c b1 b2 e x w s L Lc B1 B2 R Lx|t s a oa b3 b4 f U B3 B4 Ne Hn|t s a oa b3 b4 f x w U B3 B4 R Lx].
      + right. destruct (no_number_open _ Hn) as (d & O). eexists. split; [exact (gp_dim_space in_range us t d (proj1 O) (proj2 O))|].
        apply (open_fails _ _ O). exact Hn.
      + left. destruct (range_split d c R L) as (p & p' & O & W & F & E). exists d, c, w. eexists. split; [reflexivity|].
        split; [exact (gp_dim_space in_range us d p (proj1 O) (proj2 O))|]. unfold write_escapes. cbn [gp_st gp_dimen]. rewrite W, F, E. reflexivity.
      + left. destruct (range_split e x R Lx) as (p & p' & O & W & F & E). destruct L as [d q u v D Fu Rd].
        exists (d ++ [c] ++ b1 ++ str "plus" ++ b2 ++ e), x, w. eexists. split; [rewrite <- !app_assoc; reflexivity|]. split.
        * destruct (gw_space in_range us d c q u v D Lc Fu Rd) as (dd & W1).
          rewrite (app_assoc d [c]), gw_app, W1. cbn [bind].
          rewrite gw_app, (gw_blanks _ _ GParsedSpace b1) by (exact Logic.I || exact B1). cbn [bind].
          rewrite gw_app, gw_plus. cbn [bind]. rewrite gw_app, (gw_blanks _ _ GParsedPlus b2) by (exact Logic.I || exact B2). cbn [bind].
          destruct R as (q2 & u2 & v2 & D2 & _). apply (open_start true e p _ 4 O). eapply dim_start; eauto.
        * unfold write_escapes. cbn [gp_st gp_dimen]. rewrite W, F, E. reflexivity.
      + right. destruct (no_number_open _ Hn) as (d & O). eexists. split.
        * rewrite (app_assoc (str "minus")), (app_assoc b3), (app_assoc t), gw_app, (minus_writes _ _ _ _ _ _ U B3 B4). cbn [bind].
          apply (open_start false f d _ 5 O Ne).
        * unfold finish_escapes. cbn [gp_st gp_dimen]. apply (open_fails _ _ O). exact Hn.
      + left. destruct (range_split f x R Lx) as (p & p' & O & W & F & E).
        exists (t ++ b3 ++ str "minus" ++ b4 ++ f), x, w. eexists. split; [rewrite <- !app_assoc; reflexivity|]. split.
        * rewrite (app_assoc (str "minus")), (app_assoc b3), (app_assoc t), gw_app, (minus_writes _ _ _ _ _ _ U B3 B4). cbn [bind].
          destruct R as (q2 & u2 & v2 & D2 & _). apply (open_start false f p _ 5 O). eapply dim_start; eauto.
        * unfold write_escapes. cbn [gp_st gp_dimen]. rewrite W, F, E. reflexivity.
  Qed.

  Lemma number_dim e neg v kw : number_text e neg v kw ->
    (exists u k, keyword kw u k) <-> exists q u v', dim_text e q u v'.
  Proof.
    intros H. split.
    - intros (u & k & K). destruct H as [s f kw Hs Hf Hl]. eexists _, u, _. econstructor; eauto.
    - intros (q & u & v' & D). destruct (number_open _ _ _ _ H) as (d & [W F] & _ & <- & _).
      destruct (dim_complete in_range e [] q u v' D Logic.I) as (p & W' & R & F' & _). rewrite app_nil_r in W'.
      assert (p = d) by congruence. subst p.
      apply reach_all in W. unfold reach in W. unfold dp_isFinished in F. destruct (dp_st d) eqn:St; try discriminate.
      + unfold dp_hasResult in R. rewrite St in R. discriminate.
      + unfold dp_hasResult in R. rewrite St in R. discriminate.
      + destruct W as (s & f & kw & _ & _ & _ & Hl & _ & ->). apply keyword_hasResult in R; [exact R|reflexivity|exact Hl].
  Qed.
  Lemma odd_finish d kw v : dp_unit d = kw -> Forall lower kw -> (~ exists u k, keyword kw u k) ->
    stof (N := QcNum) in_range (dp_factor d) = Ok (nlit (Qred v)) ->
    dp_finish (N := QcNum) in_range d = Ok (mkDimen (N := QcNum) (Q2Qc ((if dp_neg d then -1 else 1) * v)%Q) UFilll).
  Proof.
    intros Eu Hl Hn E. unfold dp_finish. rewrite E, Eu. cbn [bind].
    rewrite <- keyword_found in Hn by (apply lower_no_nul; exact Hl).
    destruct (str2phyunit kw); [exfalso; apply Hn; left; discriminate|].
    destruct (str2unit kw); [exfalso; apply Hn; right; discriminate|].
    f_equal. f_equal. cbn. apply Qc_is_canon. rewrite this_mult, !this_lit.
    destruct (dp_neg d); unfold inject_Z; rewrite Qred_correct; ring.
  Qed.

  Theorem read_glue_some t g : read_glue (N := QcNum) in_range us t = Ok (Some g) <-> glue_text in_range us t g.
  Proof.
    unfold read_glue. rewrite loop_ok. split.
    - intros (p & W & F). apply ginv_all in W. unfold ginv in W. unfold gp_finish in F. destruct p as [st dd spec w].
      cbn [gp_st gp_dimen gp_spec gp_word] in *. destruct st; cbn [bind gp_st] in F; try discriminate.
      + destruct W as [O ->]. unfold gp_space in F. cbn [gp_dimen gp_spec gp_word] in F.
        apply bind_Ok in F. destruct F as (p & Hp & F). apply bind_Ok in Hp. destruct Hp as (x & Hx & Hp).
        destruct (d_isFinite x) eqn:Fi; [|discriminate]. cbn [negb] in Hp. apply bind_Ok in Hp. destruct Hp as (v & Hv & Hp).
        injection Hp as <-. injection F as <-. apply isFinite_iff in Fi.
        destruct (open_finish in_range _ _ _ O Hx) as [(q & u & v' & D & Er & ->)|[_ U]].
        * cbn [d_unit] in Fi. rewrite eval_finite in Hv by exact Fi. injection Hv as <-.
          rewrite <- (app_nil_r t). apply glue_text_space; [econstructor; eauto|exact Logic.I].
        * rewrite U in Fi. destruct Fi as [Q|[Q|Q]]; discriminate.
      + destruct W as (t0 & b & s & -> & B & (d & c & -> & L & Lc) & ->). injection F as <-.
        rewrite <- app_assoc. apply glue_text_space; [exact L|split; assumption].
      + destruct W as (t0 & f & s & a & oa & -> & (t1 & b3 & b4 & -> & P & B3 & B4) & -> & O & Ne).
        apply plus_part_upto in P.
        apply bind_Ok in F. destruct F as (y & Hy & F). apply bind_Ok in F. destruct F as (z & Hz & F). injection F as <-.
        rewrite <- !app_assoc.
        destruct (open_finish in_range _ _ _ O Hy) as [(q & u & v' & D & Er & ->)|[Nd U]].
        * rewrite gp_component_ok in Hz. injection Hz as <-. rewrite <- (app_nil_r f).
          eapply glue_text_full; eauto; [econstructor; eauto|exact Logic.I].
        * change (dp_finish (N := QcNum) in_range dd = Ok y) in Hy. destruct (open_shape _ _ O) as [[_ Hf]|(v & Hv)].
          { rewrite (proj1 (finish_fails dd)) in Hy; [discriminate|]. rewrite Hf. reflexivity. }
          destruct (number_open _ _ _ _ Hv) as (d & O' & En & Eu & Ef). rewrite <- (open_same _ _ _ O O') in En, Eu, Ef.
          destruct (in_range (Qred v)) eqn:R; [|rewrite (proj1 (finish_fails dd)) in Hy; [discriminate|unfold stof_fails; rewrite Ef; reflexivity]].
          rewrite <- (number_dim _ _ _ _ Hv) in Nd.
          assert (Hl : Forall lower (dp_unit dd)) by (inversion Hv; assumption).
          rewrite (odd_finish dd _ v eq_refl Hl Nd Ef) in Hy. injection Hy as <-.
          unfold gp_component in Hz. cbn [d_isFinite d_unit negb writeGlueOrder bind d_value] in Hz. injection Hz as <-.
          eapply glue_text_odd; eauto.
      + destruct W as (t0 & f & w0 & s & a & oa & z & oz & -> & (t1 & b3 & b4 & -> & P & B3 & B4) & Cf & _ & W & ->).
        injection F as <-. rewrite <- !app_assoc. eapply glue_text_full; eauto using plus_part_upto.
    - intros H. destruct H as [d w s L T|t s a oa b3 b4 f w z oz U B3 B4 C E|t s a oa b3 b4 f neg v kw U B3 B4 Hv Nk R].
      + destruct L as [d q u v D Fu R]. exact (glue_plain in_range us d w q u v D Fu R T).
      + destruct U as [d c b1 b2 e x s a oa L Lc B1 B2 Ce Lx]. destruct L as [d q u v D Fu R]. destruct Ce as [e q2 u2 v2 D2 R2].
        destruct C as [f q3 u3 v3 D3 R3]. apply (glue_full in_range us d c b1 b2 e x b3 b4 f w q u v q2 u2 v2 q3 u3 v3); assumption.
      + destruct (number_open _ _ _ _ Hv) as (d & O & En & Eu & Ef). rewrite R in Ef.
        assert (Hl : Forall lower kw) by (inversion Hv; assumption).
        pose proof (odd_finish d kw v Eu Hl Nk Ef) as Fd. rewrite En in Fd.
        assert (Ne : f <> []).
        { intros ->. destruct O as [W _]. injection W as <-. cbn in Ef. discriminate. }
        eexists. split.
        * rewrite (app_assoc (str "minus")), (app_assoc b3), (app_assoc t), gw_app, (minus_writes _ _ _ _ _ _ U B3 B4). cbn [bind].
          apply (open_start false f d _ 5 O Ne).
        * unfold gp_finish. cbn [gp_st bind gp_dimen gp_spec]. rewrite Fd. reflexivity.
  Qed.
  Theorem read_glue_outcome t : (exists o, read_glue (N := QcNum) in_range us t = Ok o) \/ read_glue (N := QcNum) in_range us t = Abort.
  Proof. apply loop_outcome. Qed.

  (** * Dimensions *)
  Lemma dp_writes_outcome t : forall p, (exists q, dp_writes p t = Ok q) \/ dp_writes p t = Throw.
  Proof.
    unfold dp_writes. induction t as [|c t IH]; intros p; cbn [foldM]; [eauto|].
    destruct (dp_write_outcome p c) as [[q ->]| ->]; cbn [bind]; [apply IH|auto].
  Qed.
  Lemma finished_text t p : dp_writes dp_init t = Ok p -> dp_isFinished p = true ->
    exists d c w q u v, t = d ++ c :: w /\ dim_text d q u v /\ ~ lower c /\ dp_finish (N := QcNum) in_range p = read_as in_range q u v.
  Proof.
    intros W F. assert (R : dp_hasResult p = true).
    { unfold dp_hasResult. unfold dp_isFinished in F. destruct (dp_st p); try discriminate. reflexivity. }
    destruct (dim_sound in_range t p W R) as (d & w & q & u & v & -> & D & E & F' & Ef). rewrite F in F'.
    destruct w as [|c w]; [discriminate|]. exists d, c, w, q, u, v. auto.
  Qed.

  Lemma eval_isFinite (d : dimen QcNum) : d_isFinite d = true -> exists x, d_eval d us = Ok x.
  Proof. unfold d_isFinite, d_eval. destruct (d_unit d); intros H; try discriminate; eauto. Qed.

  Theorem read_dimen_some t x : read_dimen (N := QcNum) in_range us t = Ok (Some x) <-> dimen_text in_range us t x.
  Proof.
    unfold read_dimen. split.
    - intros H. destruct (dp_writes_outcome t dp_init) as [[p W]|W]; rewrite W in H; cbn [caught bind] in H; [|discriminate].
      destruct (dp_finish in_range p) as [d| | | |] eqn:E; cbn [caught bind] in H; try discriminate.
      2: { destruct (stof_fails _ _); discriminate. }
      destruct (d_isFinite d) eqn:Fi; [|discriminate]. apply bind_Ok in H. destruct H as (y & Ey & H). injection H as <-.
      apply isFinite_iff in Fi. destruct (dp_hasResult p) eqn:R.
      + destruct (dim_sound in_range t p W R) as (a & w & q & u & v & -> & D & Ew & _ & Ef). rewrite E in Ef.
        unfold read_as in Ef. destruct (in_range (Qred v)) eqn:Er; [|discriminate]. injection Ef as ->. cbn [d_unit] in Fi.
        rewrite eval_finite in Ey by exact Fi. injection Ey as <-. constructor; [econstructor; eauto|exact Ew].
      + pose proof (finish_unfinished in_range t p W R d E) as U. rewrite U in Fi. destruct Fi as [Q|[Q|Q]]; discriminate.
    - intros [d w y L E]. destruct L as [d q u v D Fu R].
      destruct (dim_complete in_range d w q u v D E) as (p & W & _ & _ & Ef). rewrite W. cbn [caught bind]. rewrite Ef.
      unfold read_as. rewrite R. cbn [caught bind].
      assert (Fi : d_isFinite (mkDimen (N := QcNum) (Q2Qc q) u) = true) by (apply isFinite_iff; exact Fu).
      rewrite Fi, eval_finite by exact Fu. reflexivity.
  Qed.
  Theorem read_dimen_abort t : read_dimen (N := QcNum) in_range us t = Abort <-> dimen_breaks in_range t.
  Proof.
    unfold read_dimen. split.
    - intros H. destruct (dp_writes_outcome t dp_init) as [[p W]|W]; rewrite W in H; cbn [caught bind] in H; [|discriminate].
      destruct (dp_finish_outcome in_range p) as [[d E]|E]; rewrite E in H; cbn [caught bind] in H.
      + destruct (d_isFinite d) eqn:Fi; [|discriminate]. destruct (eval_isFinite d Fi) as (y & Ey). rewrite Ey in H. discriminate.
      + destruct (stof_fails _ _) eqn:Fs; [|discriminate]. destruct (dp_isFinished p) eqn:F.
        * destruct (finished_text t p W F) as (d & c & w & q & u & v & -> & D & L & Ef). constructor; [|exact L].
          exists q, u, v. split; [exact D|]. rewrite E in Ef. unfold read_as in Ef. destruct (in_range (Qred v)); [discriminate|reflexivity].
        * constructor. apply (open_fails t p); [split; assumption|exact Fs].
    - intros [t' Hn|d c w (q & u & v & D & R) L].
      + destruct (no_number_open _ Hn) as (p & O). pose proof (proj2 (open_fails _ _ O) Hn) as Fs. destruct O as [-> F]. cbn [caught bind].
        rewrite (proj1 (finish_fails p) Fs). rewrite Fs. reflexivity.
      + destruct (dim_complete in_range d (c :: w) q u v D L) as (p & -> & _ & _ & Ef). cbn [caught bind]. unfold read_as in Ef. rewrite R in Ef.
        rewrite Ef, (proj2 (finish_fails p) Ef). reflexivity.
  Qed.
  Theorem read_dimen_outcome t : (exists o, read_dimen (N := QcNum) in_range us t = Ok o) \/ read_dimen (N := QcNum) in_range us t = Abort.
  Proof.
    unfold read_dimen. destruct (dp_writes_outcome t dp_init) as [[p W]|W]; rewrite W; cbn [caught bind]; [|eauto].
    destruct (dp_finish_outcome in_range p) as [[d E]|E]; rewrite E; cbn [caught bind].
    - destruct (d_isFinite d) eqn:Fi; [|eauto]. destruct (eval_isFinite d Fi) as (y & ->). cbn [bind]. eauto.
    - destruct (stof_fails _ _); cbn [bind]; eauto.
  Qed.
End Q.
