(** Which texts are glue and parshape specifications. *)
From Coq Require Import List Ascii String QArith Qcanon ZArith Bool Arith Lia Lqa.
From Verif.Base Require Import Result Num.
From Verif.Model Require Import Token Glue Dimen DimenParser.
From Verif.Spec Require Import DimenSpec.
From Verif.Proofs Require Import DimenProofs ParserProofs ShapeProofs.
Import ListNotations.
Local Open Scope char_scope.

Section G.
  Context (in_range : Q -> bool) (us : unitsystem QcNum).
  Notation gw := (gp_writes (N := QcNum) in_range us).
  Notation pw := (pp_writes (N := QcNum) in_range us).
  Notation spec0 := (gp_spec (@gp_init QcNum)).
  Notation len := (length_text in_range us).
  Notation comp := (comp_text in_range us).

  Definition open_dim (e : name) (d : dparser) : Prop := dp_writes dp_init e = Ok d /\ dp_isFinished d = false.

  Lemma open_nil : open_dim [] dp_init.
  Proof. split; reflexivity. Qed.
  Lemma open_step e d c d' : open_dim e d -> dp_write d c = Ok d' -> dp_isFinished d' = false -> open_dim (e ++ [c]) d'.
  Proof.
    intros [W F] H F'. split; auto. unfold dp_writes. rewrite foldM_app. fold (dp_writes dp_init e).
    rewrite W. cbn [bind foldM]. rewrite H. reflexivity.
  Qed.
  Lemma open_close e d c d' : open_dim e d -> dp_write d c = Ok d' -> dp_isFinished d' = true ->
    exists q u v, dim_text e q u v /\ ~ lower c
      /\ dp_finish (N := QcNum) in_range d' = read_as in_range q u v.
  Proof.
    intros [W F] H F'. eapply finished_last; eauto. unfold dp_writes. rewrite foldM_app. fold (dp_writes dp_init e).
    rewrite W. cbn [bind foldM]. rewrite H. reflexivity.
  Qed.
  Lemma eval_infinite (d : dimen QcNum) : ~ finite (d_unit d) -> d_eval d us = Abort.
  Proof. unfold finite, d_eval. destruct (d_unit d); intros H; try reflexivity; exfalso; apply H; auto. Qed.
  Lemma eval_read q u v w : (do d <- read_as in_range q u v; d_eval d us) = Ok w ->
    finite u /\ in_range (Qred v) = true /\ w = length_in us u q.
  Proof.
    unfold read_as. destruct (in_range (Qred v)); [|discriminate]. cbn [bind]. intros H.
    assert (Fu : finite u).
    { assert (E : d_isFinite (mkDimen (N := QcNum) (Q2Qc q) u) = true).
      { destruct (d_isFinite _) eqn:E; auto. rewrite eval_infinite in H; [discriminate|].
        intros K. apply isFinite_iff in K. congruence. }
      apply isFinite_iff in E. exact E. }
    rewrite eval_finite in H by exact Fu. injection H as <-. auto.
  Qed.
  (** an unfinished dimension that [finish] accepts *)
  Lemma open_finish e d x : open_dim e d -> dp_finish (N := QcNum) in_range d = Ok x ->
    (exists q u v, dim_text e q u v /\ in_range (Qred v) = true /\ x = mkDimen (N := QcNum) (Q2Qc q) u)
    \/ ((~ exists q u v, dim_text e q u v) /\ d_unit x = UFilll).
  Proof.
    intros [W F] H. destruct (dp_hasResult d) eqn:R.
    - destruct (dim_sound in_range e d W R) as (a & w & q & u & v & Ee & Hd & Hw & Fw & Ef).
      rewrite F in Fw. destruct w; [|discriminate]. rewrite app_nil_r in Ee. subst a.
      rewrite H in Ef. unfold read_as in Ef. destruct (in_range (Qred v)) eqn:E; [|discriminate].
      injection Ef as ->. left. exists q, u, v. auto.
    - right. split; [|eapply finish_unfinished; eauto]. intros (q & u & v & D).
      destruct (dim_complete in_range e [] q u v D I) as (p & W' & R' & _). rewrite app_nil_r in W'. congruence.
  Qed.

  (** * Glue *)
  Definition space_part (t : name) (s : Qc) : Prop := exists d c, t = d ++ [c] /\ len d s /\ ~ lower c.
  Definition plus_part (t : name) (s a : Qc) (oa : gorder) : Prop :=
    exists t0 b1 b2 e x, t = t0 ++ b1 ++ str "plus" ++ b2 ++ e ++ [x] /\ space_part t0 s /\
      blanks b1 /\ blanks b2 /\ comp e a oa /\ ~ lower x.
  Definition minus_part (t : name) (s a : Qc) (oa : gorder) : Prop :=
    exists t0 b3 b4, t = t0 ++ b3 ++ str "minus" ++ b4 /\ plus_part t0 s a oa /\ blanks b3 /\ blanks b4.
  Definition sp1 (s : Qc) : glue QcNum := set_space spec0 s.
  Definition sp2 (s a : Qc) (oa : gorder) : glue QcNum := set_stretch (N := QcNum) (sp1 s) (a, oa).

  Definition ginv (t : name) (p : gparser QcNum) : Prop :=
    match gp_st p with
    | GParsingSpace => open_dim t (gp_dimen p) /\ gp_spec p = spec0
    | GParsedSpace => exists t0 b s, t = t0 ++ b /\ blanks b /\ space_part t0 s /\ gp_spec p = sp1 s
    | GParsingPlus => exists t0 b s, t = t0 ++ b ++ firstn (gp_word p) (str "plus") /\ blanks b /\ space_part t0 s /\
        gp_spec p = sp1 s /\ (1 <= gp_word p <= 3)%nat
    | GParsedPlus => exists t0 b1 b2 s, t = t0 ++ b1 ++ str "plus" ++ b2 /\ blanks b1 /\ blanks b2 /\ space_part t0 s /\
        gp_spec p = sp1 s /\ gp_dimen p = dp_init
    | GParsingPlusDimen => exists t0 b1 b2 e s, t = t0 ++ b1 ++ str "plus" ++ b2 ++ e /\ blanks b1 /\ blanks b2 /\
        space_part t0 s /\ gp_spec p = sp1 s /\ open_dim e (gp_dimen p)
    | GParsedPlusDimen => exists t0 b s a oa, t = t0 ++ b /\ blanks b /\ plus_part t0 s a oa /\ gp_spec p = sp2 s a oa
    | GParsingMinus => exists t0 b s a oa, t = t0 ++ b ++ firstn (gp_word p) (str "minus") /\ blanks b /\ plus_part t0 s a oa /\
        gp_spec p = sp2 s a oa /\ (1 <= gp_word p <= 4)%nat
    | GParsedMinus => exists s a oa, minus_part t s a oa /\ gp_spec p = sp2 s a oa /\ gp_dimen p = dp_init
    | GParsingMinusDimen => exists t0 e s a oa, t = t0 ++ e /\ minus_part t0 s a oa /\ gp_spec p = sp2 s a oa /\
        open_dim e (gp_dimen p) /\ e <> []
    | GFinished => exists t0 f w s a oa z oz, t = t0 ++ f ++ w /\ minus_part t0 s a oa /\ comp f z oz /\
        w <> [] /\ ends w /\ gp_spec p = set_shrink (N := QcNum) (sp2 s a oa) (z, oz)
    end.

  Lemma blanks_snoc b : blanks b -> blanks (b ++ [" "]).
  Proof. intros H. apply Forall_app. split; [exact H|]. repeat constructor. Qed.
  Lemma blanks_nil : blanks [].
  Proof. constructor. Qed.
  Lemma comp_read q u v x : (do d <- read_as in_range q u v; gp_component us d) = Ok x ->
    in_range (Qred v) = true /\ x = (length_in us u q, order_of u).
  Proof.
    unfold read_as. destruct (in_range (Qred v)); [|discriminate]. cbn [bind].
    intros H. rewrite gp_component_ok in H. injection H as <-. auto.
  Qed.

  Lemma ginv_step t p c p' : ginv t p -> gp_write in_range us p c = Ok p' -> ginv (t ++ [c]) p'.
  Proof.
    unfold ginv at 1. unfold gp_write. destruct p as [st dd spec w]. cbn [gp_st gp_dimen gp_spec gp_word]. destruct st.
    - intros [O ->] H. apply bind_Ok in H. destruct H as (d & Wd & H). destruct (dp_isFinished d) eqn:F.
      + destruct (open_close _ _ _ _ O Wd F) as (q & u & v & D & L & Ef). unfold gp_space in H. cbn [gp_dimen gp_spec gp_word] in H.
        rewrite Ef in H. unfold read_as in H. destruct (in_range (Qred v)) eqn:Er; [|discriminate]. cbn [bind] in H.
        destruct (d_isFinite _) eqn:Fi; [|discriminate]. cbn [negb] in H. apply isFinite_iff in Fi. cbn [d_unit] in Fi.
        rewrite eval_finite in H by exact Fi. injection H as <-. unfold ginv. cbn [gp_st gp_dimen gp_spec gp_word].
        exists (t ++ [c]), [], (length_in us u q). rewrite app_nil_r. split; [reflexivity|]. split; [constructor|].
        split; [|reflexivity]. exists t, c. split; [reflexivity|]. split; [econstructor; eauto|exact L].
      + injection H as <-. unfold ginv. cbn [gp_st gp_dimen gp_spec gp_word]. split; [|reflexivity]. eapply open_step; eauto.
    - intros (t0 & b & s & -> & B & Sp & ->) H. destruct (ceq c " ") eqn:E.
      + injection H as <-. apply ceq_iff in E. subst c. unfold ginv; cbn [gp_st gp_dimen gp_spec gp_word].
        exists t0, (b ++ [" "]), s. rewrite <- app_assoc. auto using blanks_snoc.
      + destruct (ceq c "p") eqn:E2; [|discriminate]. injection H as <-. apply ceq_iff in E2. subst c.
        unfold ginv; cbn [gp_st gp_dimen gp_spec gp_word]. exists t0, b, s. rewrite <- app_assoc. repeat split; auto; lia.
    - intros (t0 & b & s & -> & B & Sp & -> & Hw) H.
      destruct (ceq c (cat_at (str "plus") w)) eqn:E; [|discriminate]. apply ceq_iff in E. subst c.
      assert (K : firstn w (str "plus") ++ [cat_at (str "plus") w] = firstn (S w) (str "plus")).
      { destruct w as [|[|[|[|w]]]]; try lia; reflexivity. }
      destruct (ceq (cat_at (str "plus") (S w)) NUL) eqn:E2; injection H as <-; unfold ginv; cbn [gp_st gp_dimen gp_spec gp_word].
      + exists t0, b, [], s. rewrite <- !app_assoc, K. destruct w as [|[|[|[|w]]]]; try lia; try discriminate.
        repeat split; auto using blanks_nil.
      + exists t0, b, s. rewrite <- !app_assoc, K. destruct w as [|[|[|[|w]]]]; try lia; try discriminate; repeat split; auto; lia.
    - intros (t0 & b1 & b2 & s & -> & B1 & B2 & Sp & -> & ->) H. destruct (ceq c " ") eqn:E.
      + injection H as <-. apply ceq_iff in E. subst c. unfold ginv; cbn [gp_st gp_dimen gp_spec gp_word].
        exists t0, b1, (b2 ++ [" "]), s. rewrite <- !app_assoc. repeat split; auto using blanks_snoc.
      + apply bind_Ok in H. destruct H as (d & Wd & H). injection H as <-. unfold ginv; cbn [gp_st gp_dimen gp_spec gp_word].
        exists t0, b1, b2, [c], s. rewrite <- !app_assoc. repeat split; auto.
        * unfold dp_writes. cbn [foldM]. rewrite Wd. reflexivity.
        * clear -Wd. unfold dp_write in Wd. cbn [dp_init dp_st] in Wd. unfold dp_write_factor in Wd.
          repeat match goal with W : context [if ?b then _ else _] |- _ => destruct b end;
            try discriminate; injection Wd as <-; reflexivity.
    - intros (t0 & b1 & b2 & e & s & -> & B1 & B2 & Sp & -> & O) H. apply bind_Ok in H. destruct H as (d & Wd & H).
      destruct (dp_isFinished d) eqn:F.
      + destruct (open_close _ _ _ _ O Wd F) as (q & u & v & D & L & Ef). rewrite Ef in H.
        apply bind_Ok in H. destruct H as (x & Hx & H). apply bind_Ok in H. destruct H as (y & Hy & H). injection H as <-.
        destruct (comp_read q u v y) as [Er ->]; [rewrite Hx; exact Hy|].
        unfold ginv; cbn [gp_st gp_dimen gp_spec gp_word].
        exists ((t0 ++ b1 ++ str "plus" ++ b2 ++ e) ++ [c]), [], s, (length_in us u q), (order_of u). rewrite app_nil_r.
        repeat split; auto using blanks_nil. exists t0, b1, b2, e, c. rewrite <- !app_assoc. repeat split; auto. econstructor; eauto.
      + injection H as <-. unfold ginv; cbn [gp_st gp_dimen gp_spec gp_word]. exists t0, b1, b2, (e ++ [c]), s.
        rewrite <- !app_assoc. split; [reflexivity|]. repeat split; auto; apply (open_step _ _ _ _ O Wd F).
    - intros (t0 & b & s & a & oa & -> & B & Sp & ->) H. destruct (ceq c " ") eqn:E.
      + injection H as <-. apply ceq_iff in E. subst c. unfold ginv; cbn [gp_st gp_dimen gp_spec gp_word].
        exists t0, (b ++ [" "]), s, a, oa. rewrite <- app_assoc. auto using blanks_snoc.
      + destruct (ceq c "m") eqn:E2; [|discriminate]. injection H as <-. apply ceq_iff in E2. subst c.
        unfold ginv; cbn [gp_st gp_dimen gp_spec gp_word]. exists t0, b, s, a, oa. rewrite <- app_assoc. repeat split; auto; lia.
    - intros (t0 & b & s & a & oa & -> & B & Sp & -> & Hw) H.
      destruct (ceq c (cat_at (str "minus") w)) eqn:E; [|discriminate]. apply ceq_iff in E. subst c.
      assert (K : firstn w (str "minus") ++ [cat_at (str "minus") w] = firstn (S w) (str "minus")).
      { destruct w as [|[|[|[|[|w]]]]]; try lia; reflexivity. }
      destruct (ceq (cat_at (str "minus") (S w)) NUL) eqn:E2; injection H as <-; unfold ginv; cbn [gp_st gp_dimen gp_spec gp_word].
      + exists s, a, oa. split; [|auto]. exists t0, b, []. rewrite <- !app_assoc, K.
        destruct w as [|[|[|[|[|w]]]]]; try lia; try discriminate. repeat split; auto using blanks_nil.
      + exists t0, b, s, a, oa. rewrite <- !app_assoc, K. destruct w as [|[|[|[|[|w]]]]]; try lia; try discriminate; repeat split; auto; lia.
    - intros (s & a & oa & M & -> & ->) H. destruct (ceq c " ") eqn:E.
      + injection H as <-. apply ceq_iff in E. subst c. unfold ginv; cbn [gp_st gp_dimen gp_spec gp_word].
        exists s, a, oa. split; [|auto]. destruct M as (t0 & b3 & b4 & -> & P & B3 & B4).
        exists t0, b3, (b4 ++ [" "]). rewrite <- !app_assoc. auto using blanks_snoc.
      + apply bind_Ok in H. destruct H as (d & Wd & H). injection H as <-. unfold ginv; cbn [gp_st gp_dimen gp_spec gp_word].
        exists t, [c], s, a, oa. repeat split; auto; [| |discriminate].
        * unfold dp_writes. cbn [foldM]. rewrite Wd. reflexivity.
        * clear -Wd. unfold dp_write in Wd. cbn [dp_init dp_st] in Wd. unfold dp_write_factor in Wd.
          repeat match goal with W : context [if ?b then _ else _] |- _ => destruct b end;
            try discriminate; injection Wd as <-; reflexivity.
    - intros (t0 & e & s & a & oa & -> & M & -> & O & Ne) H. apply bind_Ok in H. destruct H as (d & Wd & H).
      destruct (dp_isFinished d) eqn:F.
      + destruct (open_close _ _ _ _ O Wd F) as (q & u & v & D & L & Ef). rewrite Ef in H.
        apply bind_Ok in H. destruct H as (x & Hx & H). apply bind_Ok in H. destruct H as (y & Hy & H). injection H as <-.
        destruct (comp_read q u v y) as [Er ->]; [rewrite Hx; exact Hy|].
        unfold ginv; cbn [gp_st gp_dimen gp_spec gp_word].
        exists t0, e, [c], s, a, oa, (length_in us u q), (order_of u). rewrite <- !app_assoc.
        split; [reflexivity|]. repeat split; auto; [econstructor; eauto|discriminate].
      + injection H as <-. unfold ginv; cbn [gp_st gp_dimen gp_spec gp_word]. exists t0, (e ++ [c]), s, a, oa.
        rewrite <- !app_assoc. split; [reflexivity|]. pose proof (open_step _ _ _ _ O Wd F) as O'.
        repeat (split; [assumption || reflexivity|]). destruct e; discriminate.
    - intros (t0 & f & w0 & s & a & oa & z & oz & -> & M & C & N & W & ->) H. injection H as <-.
      unfold ginv; cbn [gp_st gp_dimen gp_spec gp_word]. exists t0, f, (w0 ++ [c]), s, a, oa, z, oz. rewrite <- !app_assoc.
      repeat split; auto; [|destruct w0; [congruence|exact W]]. destruct w0; discriminate.
  Qed.

  Lemma ginv_all t p : gw gp_init t = Ok p -> ginv t p.
  Proof.
    revert p. induction t as [|c t IH] using rev_ind; intros p H.
    - injection H as <-. unfold ginv. cbn [gp_st gp_init]. split; [apply open_nil|reflexivity].
    - unfold gp_writes in H. rewrite foldM_app in H. apply bind_Ok in H. destruct H as (q & Hq & Hc).
      cbn [foldM] in Hc. apply bind_Ok in Hc. destruct Hc as (q' & Hw & E). injection E as <-.
      eapply ginv_step; eauto.
  Qed.

  Theorem glue_only t p g : gw gp_init t = Ok p -> gp_finish in_range us p = Ok g ->
    (exists d w s, t = d ++ w /\ len d s /\ tail_ok w /\ g = mkGlue (N := QcNum) s n0 n0 Normal Normal)
    \/ (exists d c b1 b2 e x b3 b4 f w s a oa,
          t = (d ++ [c] ++ b1 ++ str "plus" ++ b2 ++ e ++ [x]) ++ b3 ++ str "minus" ++ b4 ++ f ++ w /\
          len d s /\ comp e a oa /\ ~ lower c /\ ~ lower x /\
          blanks b1 /\ blanks b2 /\ blanks b3 /\ blanks b4 /\ ends w /\
          g_space g = s /\ g_stretch g = a /\ g_stretchOrder g = oa /\
          (comp f (g_shrink g) (g_shrinkOrder g)
           \/ w = [] /\ (~ exists q u v, dim_text f q u v) /\ g_shrinkOrder g = Filll)).
  Proof.
    intros H F. apply ginv_all in H. unfold ginv in H. unfold gp_finish in F. destruct p as [st dd spec w].
    cbn [gp_st gp_dimen gp_spec gp_word] in *. destruct st; cbn [bind gp_st] in F; try discriminate.
    - destruct H as [O ->]. left. unfold gp_space in F. cbn [gp_dimen gp_spec gp_word] in F.
      apply bind_Ok in F. destruct F as (p & Hp & F). apply bind_Ok in Hp. destruct Hp as (x & Hx & Hp).
      destruct (d_isFinite x) eqn:Fi; [|discriminate]. cbn [negb] in Hp. apply bind_Ok in Hp. destruct Hp as (v & Hv & Hp).
      injection Hp as <-. injection F as <-. apply isFinite_iff in Fi.
      destruct (open_finish _ _ _ O Hx) as [(q & u & v' & D & Er & ->)|[_ U]].
      + cbn [d_unit] in Fi. rewrite eval_finite in Hv by exact Fi. injection Hv as <-.
        exists t, [], (length_in us u q). rewrite app_nil_r. repeat split; auto. econstructor; eauto.
      + rewrite U in Fi. destruct Fi as [Q|[Q|Q]]; discriminate.
    - destruct H as (t0 & b & s & -> & B & (d & c & -> & L & Lc) & ->). injection F as <-. left.
      exists d, (c :: b), s. rewrite <- app_assoc. repeat split; auto.
    - right. destruct H as (t0 & f & s & a & oa & -> & (t1 & b3 & b4 & -> & (t2 & b1 & b2 & e & x & -> & (d & c & -> & L & Lc) & B1 & B2 & C & Lx) & B3 & B4) & -> & O & _).
      apply bind_Ok in F. destruct F as (y & Hy & F). apply bind_Ok in F. destruct F as (z & Hz & F). injection F as <-.
      exists d, c, b1, b2, e, x, b3, b4, f, [], s, a, oa. rewrite app_nil_r, <- !app_assoc.
      split; [reflexivity|]. repeat split; auto.
      destruct (open_finish _ _ _ O Hy) as [(q & u & v' & D & Er & ->)|[N U]].
      + left. rewrite gp_component_ok in Hz. injection Hz as <-. cbn [set_shrink g_shrink g_shrinkOrder fst snd]. econstructor; eauto.
      + right. repeat split; auto. unfold gp_component in Hz. unfold d_isFinite in Hz. rewrite U in Hz. cbn in Hz. injection Hz as <-. reflexivity.
    - right. destruct H as (t0 & f & w0 & s & a & oa & z & oz & -> & (t1 & b3 & b4 & -> & (t2 & b1 & b2 & e & x & -> & (d & c & -> & L & Lc) & B1 & B2 & C & Lx) & B3 & B4) & Cf & _ & W & ->).
      injection F as <-.
      exists d, c, b1, b2, e, x, b3, b4, f, w0, s, a, oa. rewrite <- !app_assoc.
      split; [reflexivity|]. repeat split; auto.
  Qed.

  (** nothing but results and exceptions *)
  Lemma dp_finish_outcome d : (exists x, dp_finish (N := QcNum) in_range d = Ok x) \/ dp_finish (N := QcNum) in_range d = Throw.
  Proof.
    unfold dp_finish, stof. destruct (stof_q _) as [q|]; [|right; reflexivity].
    destruct (in_range (Qred q)); [|right; reflexivity]. cbn [bind]. destruct (str2phyunit _); eauto.
  Qed.
  Lemma comp_outcome d : (exists x, (do y <- dp_finish (N := QcNum) in_range d; gp_component us y) = Ok x)
    \/ (do y <- dp_finish (N := QcNum) in_range d; gp_component us y) = Throw.
  Proof.
    unfold dp_finish, stof. destruct (stof_q _) as [q|]; [|right; reflexivity].
    destruct (in_range (Qred q)); [|right; reflexivity]. cbn [bind].
    destruct (str2phyunit _); cbn [bind]; [left; eexists; reflexivity|].
    destruct (str2unit _) as [[]|]; cbn [bind]; left; eexists; reflexivity.
  Qed.
  Lemma space_outcome p : (exists x, gp_space (N := QcNum) in_range us p = Ok x) \/ gp_space (N := QcNum) in_range us p = Throw.
  Proof.
    unfold gp_space, dp_finish, stof. destruct (stof_q _) as [q|]; [|right; reflexivity].
    destruct (in_range (Qred q)); [|right; reflexivity]. cbn [bind].
    destruct (str2phyunit _); cbn [bind]; [left; eexists; reflexivity|].
    destruct (str2unit _) as [[]|]; cbn [bind]; try (left; eexists; reflexivity); right; reflexivity.
  Qed.
  Lemma gp_write_outcome p c : (exists x, gp_write in_range us p c = Ok x) \/ gp_write (N := QcNum) in_range us p c = Throw.
  Proof.
    destruct p as [st dd spec w]. unfold gp_write. cbn [gp_st gp_dimen gp_spec gp_word].
    destruct st; try (destruct (dp_write_outcome dd c) as [[q ->]| ->]; cbn [bind]; auto);
      repeat match goal with
      | |- context [if ?b then _ else _] => destruct b
      end; eauto; try apply space_outcome;
      match goal with |- context [dp_finish in_range ?q] => pose proof (comp_outcome q) as [[x E]|E] end;
      destruct (dp_finish in_range q); cbn [bind] in *; try discriminate; auto; rewrite E; cbn [bind]; eauto.
  Qed.
  Theorem glue_outcomes t :
    (exists p, gw gp_init t = Ok p /\
       ((exists g, gp_finish in_range us p = Ok g) \/ gp_finish in_range us p = Throw))
    \/ gw gp_init t = Throw.
  Proof.
    assert (A : forall p, (exists q, gw p t = Ok q) \/ gw p t = Throw).
    { unfold gp_writes. induction t as [|c t' IH]; intros p; cbn [foldM]; [eauto|].
      destruct (gp_write_outcome p c) as [[q ->]| ->]; cbn [bind]; [apply IH|auto]. }
    destruct (A gp_init) as [[p E]|E]; [left|right; exact E]. exists p. split; [exact E|].
    destruct p as [st dd spec w]. unfold gp_finish. cbn [gp_st gp_dimen gp_spec gp_word].
    destruct st; cbn [bind gp_st]; eauto.
    - pose proof (ginv_all _ _ E) as K. unfold ginv in K; cbn [gp_st] in K.
      destruct (space_outcome (mkGP GParsingSpace dd spec w)) as [[x Ex]|Ex]; rewrite Ex; cbn [bind]; [|auto].
      unfold gp_space in Ex. apply bind_Ok in Ex. destruct Ex as (y & _ & Ex). destruct (negb _); [discriminate|].
      apply bind_Ok in Ex. destruct Ex as (z & _ & Ex). injection Ex as <-. cbn [gp_st]. eauto.
    - cbn [gp_dimen gp_spec]. destruct (comp_outcome dd) as [[x Ex]|Ex]; destruct (dp_finish in_range dd); cbn [bind] in *; try discriminate; auto; rewrite Ex; cbn [bind]; eauto.
  Qed.
End G.
