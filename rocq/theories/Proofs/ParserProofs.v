From Coq Require Import List Ascii String QArith Qcanon ZArith Bool Arith Lia Lqa.
From Verif.Base Require Import Result Num.
From Verif.Model Require Import Token Glue Dimen DimenParser.
From Verif.Spec Require Import DimenSpec.
From Verif.Proofs Require Import DimenProofs.
Import ListNotations.
Local Open Scope char_scope.

Section P.
  Context (in_range : Q -> bool) (us : unitsystem QcNum).

  Lemma eval_finite q u : finite u -> d_eval (mkDimen (N := QcNum) (Q2Qc q) u) us = Ok (length_in us u q).
  Proof. intros [->|[->| ->]]; reflexivity. Qed.
  Lemma isFinite_iff (d : dimen QcNum) : d_isFinite d = true <-> finite (d_unit d).
  Proof. unfold d_isFinite, finite. destruct (d_unit d); split; intros H; auto; try discriminate; intuition discriminate. Qed.

  (** * Kern *)
  Lemma kp_not_done t d : dp_writes dp_init t = Ok d -> dp_isFinished d = false ->
    kp_writes kp_init t = Ok (mkKP false d).
  Proof.
    revert d. induction t as [|c t IH] using rev_ind; intros d H F.
    - injection H as <-. reflexivity.
    - unfold dp_writes in H. rewrite foldM_app in H. apply bind_Ok in H. destruct H as (q & Hq & Hc).
      cbn [foldM] in Hc. apply bind_Ok in Hc. destruct Hc as (q' & Hw & E). injection E as <-.
      assert (Fq : dp_isFinished q = false).
      { unfold dp_write in Hw. unfold dp_isFinished. destruct (dp_st q) eqn:E; try reflexivity.
        injection Hw as <-. unfold dp_isFinished in F. rewrite E in F. discriminate. }
      unfold kp_writes. rewrite foldM_app. fold (kp_writes kp_init t). rewrite (IH q Hq Fq). cbn [bind foldM].
      unfold kp_write. cbn [kp_done kp_dimen]. rewrite Hw. cbn [bind]. rewrite F. reflexivity.
  Qed.

  Lemma kp_blanks b d : blanks b -> kp_writes (mkKP true d) b = Ok (mkKP true d).
  Proof.
    intros H. induction b as [|c b IH]; [reflexivity|]. pose proof (Forall_inv H) as ->. apply Forall_inv_tail in H.
    cbn. apply IH. exact H.
  Qed.

  Lemma kp_complete d w q u v : dim_text d q u v -> tail_ok w ->
    exists p, kp_writes kp_init (d ++ w) = Ok p
      /\ dp_finish (N := QcNum) in_range (kp_dimen p) = read_as in_range q u v.
  Proof.
    intros H Hw. destruct w as [|c b].
    - destruct (dim_complete in_range d [] q u v H I) as (p & W & _ & F & E). rewrite app_nil_r in *.
      exists (mkKP false p). split; [apply kp_not_done; assumption|exact E].
    - destruct Hw as [Hc Hb].
      destruct (dim_complete in_range d [] q u v H I) as (p0 & W0 & _ & F0 & _). rewrite app_nil_r in *.
      destruct (dim_complete in_range d [c] q u v H Hc) as (p & W & _ & F & E).
      exists (mkKP true p). split; [|exact E].
      unfold kp_writes. rewrite foldM_app. fold (kp_writes kp_init d). rewrite (kp_not_done d p0 W0 F0). cbn [bind foldM].
      unfold dp_writes in W. rewrite foldM_app in W. fold (dp_writes dp_init d) in W. rewrite W0 in W. cbn [bind foldM] in W.
      apply bind_Ok in W. destruct W as (p' & Wc & Ep). injection Ep as ->.
      unfold kp_write at 1. cbn [kp_done kp_dimen]. rewrite Wc. cbn [bind]. rewrite F. apply kp_blanks. exact Hb.
  Qed.

  Lemma kp_reach t p : kp_writes kp_init t = Ok p ->
    if kp_done p
    then exists t1 c b, t = (t1 ++ [c]) ++ b /\ blanks b
         /\ dp_writes dp_init (t1 ++ [c]) = Ok (kp_dimen p) /\ dp_isFinished (kp_dimen p) = true
         /\ exists d1, dp_writes dp_init t1 = Ok d1 /\ dp_isFinished d1 = false
    else dp_writes dp_init t = Ok (kp_dimen p) /\ dp_isFinished (kp_dimen p) = false.
  Proof.
    revert p. induction t as [|c t IH] using rev_ind; intros p H.
    - injection H as <-. split; reflexivity.
    - unfold kp_writes in H. rewrite foldM_app in H. apply bind_Ok in H. destruct H as (q & Hq & Hc).
      cbn [foldM] in Hc. apply bind_Ok in Hc. destruct Hc as (q' & Hw & E). injection E as <-.
      specialize (IH q Hq). unfold kp_write in Hw. destruct (kp_done q) eqn:Dq.
      + destruct (ceq c " ") eqn:Ec; [|discriminate]. injection Hw as <-. rewrite Dq.
        destruct IH as (t1 & x & b & -> & Hb & H1 & H2 & H3). exists t1, x, (b ++ [c]). rewrite <- app_assoc.
        apply ceq_iff in Ec. subst c. repeat split; try assumption.
        apply Forall_app. split; [exact Hb|]. constructor; [reflexivity|constructor].
      + apply bind_Ok in Hw. destruct Hw as (d & Hd & E). injection E as <-. cbn [kp_done kp_dimen].
        destruct IH as [I1 I2].
        assert (W : dp_writes dp_init (t ++ [c]) = Ok d).
        { unfold dp_writes. rewrite foldM_app. fold (dp_writes dp_init t). rewrite I1. cbn [bind foldM]. rewrite Hd. reflexivity. }
        destruct (dp_isFinished d) eqn:F; [|auto].
        exists t, c, []. rewrite app_nil_r. repeat split; try assumption; [constructor|]. eauto.
  Qed.

  (** a finished dimension was finished by its last character exactly when
      the text before was not finished *)
  Lemma finished_last t1 c d p :
    dp_writes dp_init t1 = Ok d -> dp_isFinished d = false ->
    dp_writes dp_init (t1 ++ [c]) = Ok p -> dp_isFinished p = true ->
    exists q u v, dim_text t1 q u v /\ ~ lower c
      /\ dp_finish (N := QcNum) in_range p = read_as in_range q u v.
  Proof.
    intros W F W2 F2.
    assert (R : dp_hasResult p = true).
    { unfold dp_hasResult. unfold dp_isFinished in F2. destruct (dp_st p); try discriminate. reflexivity. }
    unfold dp_writes in W2. rewrite foldM_app in W2. fold (dp_writes dp_init t1) in W2. rewrite W in W2.
    cbn [bind foldM] in W2. apply bind_Ok in W2. destruct W2 as (p' & Wc & E). injection E as ->.
    assert (Rd : dp_hasResult d = true /\ ~ lower c /\ p = mkDP DFinished (dp_neg d) (dp_factor d) (dp_decimal d) (dp_unit d)).
    { unfold dp_write in Wc. unfold dp_isFinished in F, F2. destruct (dp_st d) eqn:Ed; try discriminate.
      - exfalso. destruct (ceq c "+"); [injection Wc as <-; rewrite Ed in F2; discriminate|].
        destruct (ceq c "-"); [injection Wc as <-; discriminate|].
        destruct (is_digit c) eqn:Dc.
        { unfold dp_write_factor in Wc. rewrite Dc in Wc. injection Wc as <-. discriminate. }
        destruct (is_sep c); [|discriminate]. injection Wc as <-. discriminate.
      - exfalso. unfold dp_write_factor in Wc. destruct (is_digit c); [injection Wc as <-; discriminate|].
        destruct (is_sep c).
        { destruct (dp_decimal d); [discriminate|]. injection Wc as <-. discriminate. }
        destruct (is_lowercase_letter c); injection Wc as <-; discriminate.
      - destruct (is_lowercase_letter c) eqn:Lc; [injection Wc as <-; discriminate|].
        destruct (dp_hasResult d) eqn:Rd; [|discriminate]. injection Wc as <-.
        split; [reflexivity|]. split; [apply is_lower_false; exact Lc|reflexivity]. }
    destruct Rd as (Rd & Lc & ->).
    destruct (dim_sound in_range t1 d W Rd) as (e & w & q & u & v & Et & Hd & Hw & Fw & Ef).
    rewrite F in Fw. destruct w as [|x w]; [|discriminate]. rewrite app_nil_r in Et. subst e.
    exists q, u, v. split; [exact Hd|]. split; [exact Lc|]. rewrite <- Ef. reflexivity.
  Qed.

  Theorem kern_iff t w :
    (exists p, kp_writes kp_init t = Ok p /\ kp_finish (N := QcNum) in_range us p = Ok w)
    <-> exists d e q u v, t = d ++ e /\ dim_text d q u v /\ tail_ok e /\ finite u
          /\ in_range (Qred v) = true /\ w = length_in us u q.
  Proof.
    split.
    - intros (p & H & F).
      assert (G : forall d, dp_finish (N := QcNum) in_range (kp_dimen p) = Ok d ->
                            d_isFinite d = true /\ d_eval d us = Ok w).
      { intros d E. unfold kp_finish in F. rewrite E in F. cbn [bind] in F.
        destruct (d_isFinite d); [|discriminate]. auto. }
      assert (D : exists d, dp_finish (N := QcNum) in_range (kp_dimen p) = Ok d).
      { unfold kp_finish in F. apply bind_Ok in F. destruct F as (d & E & _). eauto. }
      destruct D as (d & D). destruct (G d D) as [G1 G2]. apply isFinite_iff in G1.
      pose proof (kp_reach t p H) as K. destruct (kp_done p).
      + destruct K as (t1 & c & b & -> & Hb & W & Fp & d1 & W1 & F1).
        destruct (finished_last t1 c d1 _ W1 F1 W Fp) as (q & u & v & Hd & Hc & Ef).
        rewrite D in Ef. unfold read_as in Ef. destruct (in_range (Qred v)) eqn:Er; [|discriminate].
        injection Ef as ->. cbn [d_unit] in G1. exists t1, (c :: b), q, u, v. rewrite <- app_assoc.
        repeat split; try assumption. rewrite eval_finite in G2 by exact G1. injection G2 as <-. reflexivity.
      + destruct K as [W Fp]. destruct (dp_hasResult (kp_dimen p)) eqn:R.
        * destruct (dim_sound in_range t _ W R) as (e & x & q & u & v & Et & Hd & Hx & Fx & Ef).
          rewrite Fp in Fx. destruct x; [|discriminate]. rewrite app_nil_r in Et. subst e.
          rewrite D in Ef. unfold read_as in Ef. destruct (in_range (Qred v)) eqn:Er; [|discriminate].
          injection Ef as ->. cbn [d_unit] in G1. exists t, [], q, u, v. rewrite app_nil_r.
          repeat split; try assumption. rewrite eval_finite in G2 by exact G1. injection G2 as <-. reflexivity.
        * pose proof (finish_unfinished in_range t _ W R d D) as U. rewrite U in G1.
          destruct G1 as [G1|[G1|G1]]; discriminate.
    - intros (d & e & q & u & v & -> & Hd & He & Hu & Hr & ->).
      destruct (kp_complete d e q u v Hd He) as (p & W & E). exists p. split; [exact W|].
      unfold kp_finish. rewrite E. unfold read_as. rewrite Hr. cbn [bind].
      assert (Fi : d_isFinite (mkDimen (N := QcNum) (Q2Qc q) u) = true) by (apply isFinite_iff; exact Hu).
      rewrite Fi. cbn [negb]. apply eval_finite. exact Hu.
  Qed.

  Theorem kern_infinite d e q u v p :
    dim_text d q u v -> ~ finite u -> kp_writes kp_init (d ++ e) = Ok p ->
    tail_ok e -> kp_finish (N := QcNum) in_range us p = Throw.
  Proof.
    intros Hd Hu W He. destruct (kp_complete d e q u v Hd He) as (p' & W' & E).
    rewrite W in W'. injection W' as <-. unfold kp_finish. rewrite E. unfold read_as.
    destruct (in_range (Qred v)); [|reflexivity]. cbn [bind].
    destruct (d_isFinite (mkDimen (N := QcNum) (Q2Qc q) u)) eqn:Fi; [|reflexivity].
    apply isFinite_iff in Fi. cbn [d_unit] in Fi. tauto.
  Qed.

  (** a kern parser only returns or throws *)
  Lemma dp_write_outcome p c : (exists q, dp_write p c = Ok q) \/ dp_write p c = Throw.
  Proof.
    unfold dp_write, dp_write_factor. destruct (dp_st p); [destruct (ceq c "+"); [eauto|]; destruct (ceq c "-"); [eauto|]| | |eauto];
    repeat match goal with |- context [if ?b then _ else _] => destruct b end; eauto.
  Qed.
  Lemma kern_outcome t :
    (exists p, kp_writes kp_init t = Ok p
       /\ ((exists w, kp_finish (N := QcNum) in_range us p = Ok w) \/ kp_finish (N := QcNum) in_range us p = Throw))
    \/ kp_writes kp_init t = Throw.
  Proof.
    assert (A : forall p, (exists q, kp_writes p t = Ok q) \/ kp_writes p t = Throw).
    { unfold kp_writes. induction t as [|c t' IH]; intros p; cbn [foldM]; [eauto|].
      assert (S : (exists q, kp_write p c = Ok q) \/ kp_write p c = Throw).
      { unfold kp_write. destruct (kp_done p); [destruct (ceq c " "); eauto|].
        destruct (dp_write_outcome (kp_dimen p) c) as [[q ->]| ->]; cbn [bind]; eauto. }
      destruct S as [[q ->]| ->]; cbn [bind]; [apply IH|auto]. }
    destruct (A kp_init) as [[p E]|E]; [left|right; exact E]. exists p. split; [exact E|].
    unfold kp_finish, dp_finish, stof. destruct (stof_q _) as [q|]; [|right; reflexivity].
    destruct (in_range (Qred q)); [|right; reflexivity]. cbn [bind].
    destruct (str2phyunit _); cbn [bind].
    - left. eexists. reflexivity.
    - destruct (str2unit _) as [[]|]; cbn [bind d_isFinite d_unit negb]; [left; eexists; reflexivity..|right|right|right|right]; reflexivity.
  Qed.

  (** * Glue *)
  Definition gdp (p : gparser QcNum) d := mkGP (gp_st p) d (gp_spec p) (gp_word p).

  Lemma gp_dim_space t d : dp_writes dp_init t = Ok d -> dp_isFinished d = false ->
    gp_writes (N := QcNum) in_range us gp_init t = Ok (mkGP GParsingSpace d (gp_spec (@gp_init QcNum)) 0).
  Proof.
    revert d. induction t as [|c t IH] using rev_ind; intros d H F.
    - injection H as <-. reflexivity.
    - unfold dp_writes in H. rewrite foldM_app in H. apply bind_Ok in H. destruct H as (q & Hq & Hc).
      cbn [foldM] in Hc. apply bind_Ok in Hc. destruct Hc as (q' & Hw & E). injection E as <-.
      assert (Fq : dp_isFinished q = false).
      { unfold dp_write in Hw. unfold dp_isFinished. destruct (dp_st q) eqn:E; try reflexivity.
        injection Hw as <-. unfold dp_isFinished in F. rewrite E in F. discriminate. }
      unfold gp_writes. rewrite foldM_app. fold (gp_writes (N := QcNum) in_range us gp_init t).
      rewrite (IH q Hq Fq). cbn [bind foldM]. unfold gp_write. cbn [gp_st gp_dimen]. rewrite Hw. cbn [bind].
      rewrite F. reflexivity.
  Qed.

  (** a dimension inside a glue: the state machine of plus (or minus) *)
  Lemma gp_dim_comp (plus : bool) t p0 d spec w : dp_writes p0 t = Ok d -> dp_isFinished d = false ->
    let st := if plus then GParsingPlusDimen else GParsingMinusDimen in
    gp_writes (N := QcNum) in_range us (mkGP st p0 spec w) t = Ok (mkGP st d spec w).
  Proof.
    cbv zeta. revert d. induction t as [|c t IH] using rev_ind; intros d H F.
    - injection H as <-. reflexivity.
    - unfold dp_writes in H. rewrite foldM_app in H. apply bind_Ok in H. destruct H as (q & Hq & Hc).
      cbn [foldM] in Hc. apply bind_Ok in Hc. destruct Hc as (q' & Hw & E). injection E as <-.
      assert (Fq : dp_isFinished q = false).
      { unfold dp_write in Hw. unfold dp_isFinished. destruct (dp_st q) eqn:E; try reflexivity.
        injection Hw as <-. unfold dp_isFinished in F. rewrite E in F. discriminate. }
      specialize (IH q Hq Fq). unfold gp_writes in *. rewrite foldM_app, IH. cbn [bind foldM].
      destruct plus; unfold gp_write; cbn [gp_st gp_dimen gp_spec gp_word]; rewrite Hw; cbn [bind]; rewrite F; reflexivity.
  Qed.

  Lemma dim_split d c q u v : dim_text d q u v -> ~ lower c ->
    exists p0 p, dp_writes dp_init d = Ok p0 /\ dp_isFinished p0 = false
      /\ dp_finish (N := QcNum) in_range p0 = read_as in_range q u v
      /\ dp_write p0 c = Ok p /\ dp_isFinished p = true
      /\ dp_finish (N := QcNum) in_range p = read_as in_range q u v.
  Proof.
    intros H Hc.
    destruct (dim_complete in_range d [] q u v H I) as (p0 & W0 & _ & F0 & E0). rewrite app_nil_r in *.
    destruct (dim_complete in_range d [c] q u v H Hc) as (p & W & _ & F & E).
    unfold dp_writes in W. rewrite foldM_app in W. fold (dp_writes dp_init d) in W. rewrite W0 in W. cbn [bind foldM] in W.
    apply bind_Ok in W. destruct W as (p' & Wc & Ep). injection Ep as ->. exists p0, p. auto 10.
  Qed.

  Lemma dim_nonempty d q u v : dim_text d q u v -> exists c t, d = c :: t /\ c <> " ".
  Proof.
    intros [s f kw u' k Hs Hf Hk]. destruct s as [|c s].
    - cbn [app]. destruct Hf as (_ & _ & Hst). destruct (factor_text f) as [|c t]; [destruct Hst|].
      exists c, (t ++ kw). split; [reflexivity|]. intros ->. destruct Hst as [D|[D|D]]; try discriminate.
      unfold digit, code in D. cbn in D. lia.
    - exists c, (s ++ factor_text f ++ kw). split; [reflexivity|]. intros ->.
      apply Forall_inv in Hs. destruct Hs; discriminate.
  Qed.

  Definition comp_value (q : Q) (u : unit_t) : Qc * gorder := (length_in us u q, order_of u).

  Lemma gp_component_ok q u : gp_component us (mkDimen (N := QcNum) (Q2Qc q) u) = Ok (comp_value q u).
  Proof. destruct u; reflexivity. Qed.

  Notation gw := (gp_writes (N := QcNum) in_range us).
  Notation spec0 := (gp_spec (@gp_init QcNum)).

  Lemma gw_app p a b : gw p (a ++ b) = do q <- gw p a; gw q b.
  Proof. apply foldM_app. Qed.

  (** 'D' then the end of the dimension *)
  Lemma gw_space d c q u v : dim_text d q u v -> ~ lower c -> finite u -> in_range (Qred v) = true ->
    exists dd, gw gp_init (d ++ [c])
      = Ok (mkGP GParsedSpace dd (set_space spec0 (length_in us u q)) 0).
  Proof.
    intros Hd Hc Hu Hr. destruct (dim_split d c q u v Hd Hc) as (p0 & p & W0 & F0 & E0 & Wc & F & E).
    exists p. rewrite gw_app, (gp_dim_space d p0 W0 F0). cbn [bind]. unfold gp_writes; cbn [foldM].
    unfold gp_write. cbn [gp_st gp_dimen gp_spec gp_word]. rewrite Wc. cbn [bind]. rewrite F.
    unfold gp_space. cbn [gp_dimen gp_spec gp_word]. rewrite E. unfold read_as. rewrite Hr. cbn [bind].
    assert (Fi : d_isFinite (mkDimen (N := QcNum) (Q2Qc q) u) = true) by (apply isFinite_iff; exact Hu).
    rewrite Fi. cbn [negb]. rewrite eval_finite by exact Hu. reflexivity.
  Qed.

  Lemma gw_blanks st b dd spec w :
    match st with GParsedSpace | GParsedPlusDimen | GParsedPlus | GParsedMinus => True | _ => False end ->
    blanks b -> gw (mkGP st dd spec w) b = Ok (mkGP st dd spec w).
  Proof.
    intros Hs Hb. induction b as [|c b IH]; [reflexivity|]. pose proof (Forall_inv Hb) as ->. apply Forall_inv_tail in Hb.
    specialize (IH Hb). unfold gp_writes in *. cbn [foldM].
    destruct st; try contradiction; unfold gp_write at 1; cbn [gp_st ceq]; cbn; exact IH.
  Qed.

  Lemma gw_plus dd spec w : gw (mkGP GParsedSpace dd spec w) (str "plus")
    = Ok (mkGP GParsedPlus dp_init spec 4).
  Proof. reflexivity. Qed.
  Lemma gw_minus dd spec w : gw (mkGP GParsedPlusDimen dd spec w) (str "minus")
    = Ok (mkGP GParsedMinus dp_init spec 5).
  Proof. reflexivity. Qed.

  (** the first character of the dimension moves from [ParsedPlus] *)
  Lemma gw_comp_start (plus : bool) d q u v spec w : dim_text d q u v ->
    gw (mkGP (if plus then GParsedPlus else GParsedMinus) dp_init spec w) d
    = gw (mkGP (if plus then GParsingPlusDimen else GParsingMinusDimen) dp_init spec w) d.
  Proof.
    intros Hd. destruct (dim_split d " " q u v Hd) as (p0 & _ & W0 & F0 & _ & _); [unfold lower, code; cbn; lia|].
    destruct (dim_nonempty d q u v Hd) as (c & t & -> & Hc).
    unfold dp_writes in W0. cbn [foldM] in W0. apply bind_Ok in W0. destruct W0 as (p1 & W1 & _).
    assert (F1 : dp_isFinished p1 = false).
    { clear -W1. unfold dp_write in W1. cbn [dp_init dp_st] in W1. unfold dp_write_factor in W1.
      repeat match goal with W : context [if ?b then _ else _] |- _ => destruct b end;
      try discriminate; injection W1 as <-; reflexivity. }
    apply ceq_false in Hc. unfold gp_writes; cbn [foldM].
    destruct plus; unfold gp_write at 1 3; cbn [gp_st gp_dimen gp_spec gp_word]; rewrite Hc, W1; cbn [bind];
      rewrite F1; reflexivity.
  Qed.

  Lemma gw_comp_end (plus : bool) d c q u v spec w : dim_text d q u v -> ~ lower c -> in_range (Qred v) = true ->
    exists dd, gw (mkGP (if plus then GParsedPlus else GParsedMinus) dp_init spec w) (d ++ [c])
      = Ok (if plus then mkGP GParsedPlusDimen dd (set_stretch spec (comp_value q u)) w
            else mkGP GFinished dd (set_shrink spec (comp_value q u)) w).
  Proof.
    intros Hd Hc Hr. destruct (dim_split d c q u v Hd Hc) as (p0 & p & W0 & F0 & E0 & Wc & F & E).
    exists p. rewrite gw_app, (gw_comp_start plus d q u v) by exact Hd.
    rewrite (gp_dim_comp plus d dp_init p0 spec w W0 F0). cbn [bind]. unfold gp_writes; cbn [foldM].
    destruct plus; unfold gp_write; cbn [gp_st gp_dimen gp_spec gp_word]; rewrite Wc; cbn [bind]; rewrite F, E;
      unfold read_as; rewrite Hr; cbn [bind]; rewrite gp_component_ok; reflexivity.
  Qed.

  Theorem glue_plain d w q u v : dim_text d q u v -> finite u -> in_range (Qred v) = true -> tail_ok w ->
    exists p, gw gp_init (d ++ w) = Ok p
      /\ gp_finish in_range us p = Ok (mkGlue (N := QcNum) (length_in us u q) n0 n0 Normal Normal).
  Proof.
    intros Hd Hu Hr Hw. destruct w as [|c b].
    - destruct (dim_split d " " q u v Hd) as (p0 & _ & W0 & F0 & E0 & _ & _); [unfold lower, code; cbn; lia|].
      eexists. rewrite app_nil_r. split; [exact (gp_dim_space d p0 W0 F0)|].
      unfold gp_finish. cbn [gp_st]. unfold gp_space. cbn [gp_dimen]. rewrite E0. unfold read_as. rewrite Hr. cbn [bind].
      assert (Fi : d_isFinite (mkDimen (N := QcNum) (Q2Qc q) u) = true) by (apply isFinite_iff; exact Hu).
      rewrite Fi. cbn [negb]. rewrite eval_finite by exact Hu. reflexivity.
    - destruct Hw as [Hc Hb]. destruct (gw_space d c q u v Hd Hc Hu Hr) as (dd & W).
      eexists. split.
      + change (c :: b) with ([c] ++ b). rewrite app_assoc, gw_app, W. cbn [bind].
        apply gw_blanks; [exact I|exact Hb].
      + reflexivity.
  Qed.

  (** A full glue text up to the end of its stretch *)
  Lemma gw_upto_plus d c b1 b2 e x q u v q2 u2 v2 :
    dim_text d q u v -> ~ lower c -> finite u -> in_range (Qred v) = true -> blanks b1 -> blanks b2 ->
    dim_text e q2 u2 v2 -> ~ lower x -> in_range (Qred v2) = true ->
    exists dd, gw gp_init (d ++ [c] ++ b1 ++ str "plus" ++ b2 ++ e ++ [x])
      = Ok (mkGP GParsedPlusDimen dd (set_stretch (set_space spec0 (length_in us u q)) (comp_value q2 u2)) 4).
  Proof.
    intros Hd Hc Hu Hr Hb1 Hb2 He Hx Hr2. destruct (gw_space d c q u v Hd Hc Hu Hr) as (dd & W).
    rewrite (app_assoc d [c]), gw_app, W. cbn [bind].
    rewrite gw_app, (gw_blanks GParsedSpace b1) by (exact I || exact Hb1). cbn [bind].
    rewrite gw_app, gw_plus. cbn [bind]. rewrite gw_app, (gw_blanks GParsedPlus b2) by (exact I || exact Hb2). cbn [bind].
    destruct (gw_comp_end true e x q2 u2 v2 (set_space spec0 (length_in us u q)) 4 He Hx Hr2) as (dd2 & W2).
    exists dd2. exact W2.
  Qed.

  Theorem glue_full d c b1 b2 e x b3 b4 f w q u v q2 u2 v2 q3 u3 v3 :
    dim_text d q u v -> finite u -> dim_text e q2 u2 v2 -> dim_text f q3 u3 v3 ->
    ~ lower c -> ~ lower x -> ends w -> blanks b1 -> blanks b2 -> blanks b3 -> blanks b4 ->
    in_range (Qred v) = true -> in_range (Qred v2) = true -> in_range (Qred v3) = true ->
    exists p, gw gp_init ((d ++ [c] ++ b1 ++ str "plus" ++ b2 ++ e ++ [x]) ++ b3 ++ str "minus" ++ b4 ++ f ++ w) = Ok p
      /\ gp_finish in_range us p
         = Ok (mkGlue (N := QcNum) (length_in us u q) (length_in us u3 q3) (length_in us u2 q2)
                      (order_of u3) (order_of u2)).
  Proof.
    intros Hd Hu He Hf Hc Hx Hw Hb1 Hb2 Hb3 Hb4 Hr Hr2 Hr3.
    destruct (gw_upto_plus d c b1 b2 e x q u v q2 u2 v2 Hd Hc Hu Hr Hb1 Hb2 He Hx Hr2) as (dd & W).
    rewrite gw_app, W. cbn [bind].
    rewrite gw_app, (gw_blanks GParsedPlusDimen b3) by (exact I || exact Hb3). cbn [bind].
    rewrite gw_app, gw_minus. cbn [bind]. rewrite gw_app, (gw_blanks GParsedMinus b4) by (exact I || exact Hb4). cbn [bind].
    set (sp := set_stretch _ _).
    destruct w as [|y w].
    - rewrite app_nil_r.
      destruct (dim_split f " " q3 u3 v3 Hf) as (p0 & _ & W0 & F0 & E0 & _ & _); [unfold lower, code; cbn; lia|].
      rewrite (gw_comp_start false f q3 u3 v3) by exact Hf. rewrite (gp_dim_comp false f dp_init p0 sp 5 W0 F0).
      eexists. split; [reflexivity|]. unfold gp_finish. cbn [gp_st bind gp_dimen gp_spec]. rewrite E0. unfold read_as.
      rewrite Hr3. cbn [bind]. rewrite gp_component_ok. reflexivity.
    - destruct (gw_comp_end false f y q3 u3 v3 sp 5 Hf Hw Hr3) as (dd3 & W3).
      change (y :: w) with ([y] ++ w). rewrite app_assoc, gw_app, W3. cbn [bind].
      eexists. split.
      + assert (K : forall w p, gp_st p = GFinished -> gw p w = Ok p).
        { clear. intros w p H. unfold gp_writes. induction w as [|a w IH]; [reflexivity|]. cbn [foldM].
          unfold gp_write at 1. rewrite H. cbn [bind]. exact IH. }
        apply K. reflexivity.
      + reflexivity.
  Qed.

  (** without minus, [finish] refuses whatever comes after the stretch *)
  Theorem glue_plus_only d c b1 b2 e q u v q2 u2 v2 w :
    dim_text d q u v -> ~ lower c -> finite u -> in_range (Qred v) = true -> blanks b1 -> blanks b2 ->
    dim_text e q2 u2 v2 -> in_range (Qred v2) = true -> tail_ok w ->
    exists p, gw gp_init ((d ++ [c] ++ b1 ++ str "plus" ++ b2 ++ e) ++ w) = Ok p
              /\ gp_finish in_range us p = Throw.
  Proof.
    intros Hd Hc Hu Hr Hb1 Hb2 He Hr2 Hw. destruct w as [|x b].
    - rewrite app_nil_r. destruct (gw_space d c q u v Hd Hc Hu Hr) as (dd & W).
      rewrite (app_assoc d [c]), gw_app, W. cbn [bind].
      rewrite gw_app, (gw_blanks GParsedSpace b1) by (exact I || exact Hb1). cbn [bind].
      rewrite gw_app, gw_plus. cbn [bind]. rewrite gw_app, (gw_blanks GParsedPlus b2) by (exact I || exact Hb2). cbn [bind].
      destruct (dim_split e " " q2 u2 v2 He) as (p0 & _ & W0 & F0 & E0 & _ & _); [unfold lower, code; cbn; lia|].
      rewrite (gw_comp_start true e q2 u2 v2) by exact He. rewrite (gp_dim_comp true e dp_init p0 _ 4 W0 F0).
      eexists. split; reflexivity.
    - destruct Hw as [Hx Hb].
      destruct (gw_upto_plus d c b1 b2 e x q u v q2 u2 v2 Hd Hc Hu Hr Hb1 Hb2 He Hx Hr2) as (dd & W).
      assert (L : (d ++ [c] ++ b1 ++ str "plus" ++ b2 ++ e) ++ x :: b
                  = (d ++ [c] ++ b1 ++ str "plus" ++ b2 ++ e ++ [x]) ++ b).
      { rewrite <- !app_assoc. reflexivity. }
      rewrite L, gw_app, W. cbn [bind]. rewrite gw_blanks by (exact I || exact Hb).
      eexists. split; reflexivity.
  Qed.

  Theorem glue_minus_only d c b1 q u v w :
    dim_text d q u v -> ~ lower c -> finite u -> in_range (Qred v) = true -> blanks b1 ->
    gw gp_init (d ++ [c] ++ b1 ++ str "minus" ++ w) = Throw.
  Proof.
    intros Hd Hc Hu Hr Hb1. destruct (gw_space d c q u v Hd Hc Hu Hr) as (dd & W).
    rewrite (app_assoc d [c]), gw_app, W. cbn [bind].
    rewrite gw_app, (gw_blanks GParsedSpace b1) by (exact I || exact Hb1). reflexivity.
  Qed.

  Theorem glue_infinite_space d c q u v :
    dim_text d q u v -> ~ lower c -> ~ finite u -> gw gp_init (d ++ [c]) = Throw.
  Proof.
    intros Hd Hc Hu. destruct (dim_split d c q u v Hd Hc) as (p0 & p & W0 & F0 & E0 & Wc & F & E).
    rewrite gw_app, (gp_dim_space d p0 W0 F0). cbn [bind]. unfold gp_writes; cbn [foldM].
    unfold gp_write. cbn [gp_st gp_dimen gp_spec gp_word]. rewrite Wc. cbn [bind]. rewrite F.
    unfold gp_space. cbn [gp_dimen gp_spec gp_word]. rewrite E. unfold read_as.
    destruct (in_range (Qred v)); [|reflexivity]. cbn [bind].
    destruct (d_isFinite (mkDimen (N := QcNum) (Q2Qc q) u)) eqn:Fi; [|reflexivity].
    apply isFinite_iff in Fi. cbn [d_unit] in Fi. tauto.
  Qed.
End P.
