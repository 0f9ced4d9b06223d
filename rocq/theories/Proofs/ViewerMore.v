(** Statements about the linebreaks viewer in the form of the properties. *)
From Coq Require Import List Ascii String ZArith QArith Qcanon Bool Sorted Permutation Arith Lia.
From Verif.Base Require Import Result Num.
From Verif.Model Require Import Token Glue Box Dimen DimenParser ListBuilders LineBreaks Unicode Viewer.
From Verif.Spec Require Import UnicodeSpec DimenSpec BoxSpec LineBreakSpec ViewerSpec.
From Verif.Proofs Require Import UnicodeProofs LineBreakProofs LineBreakOpt LineBreakCreate LineBreakBound LineBreakQc LineBreakSafe LineBreakMore ViewerFields ViewerProofs.
Import ListNotations.

Lemma decode_cases d sg cs : forall ss fuel, Forall2 utf8 cs ss -> (List.length (List.concat ss) <= fuel)%nat ->
  decode_all d sg fuel (List.concat ss) = Ok cs \/ decode_all d sg fuel (List.concat ss) = Abort.
Proof.
  induction cs as [|c cs IH]; intros ss fuel H Hf; inversion H; subst.
  - left. destruct fuel; reflexivity.
  - cbn [List.concat] in *. pose proof (utf8_nonempty _ _ H2) as Hne.
    destruct y as [|y0 y]; [congruence|]. cbn [app List.length] in *.
    destruct fuel as [|n]; [lia|]. rewrite app_length in Hf. cbn [decode_all].
    assert (Hd : (d = false \/ sg = false \/ (List.length (y0 :: y) < 4)%nat) \/ (d = true /\ sg = true /\ (65536 <= c)%Z)).
    { destruct d; [|left; auto]. destruct sg; [|left; auto]. destruct (Z.lt_ge_cases c 65536) as [L|L]; [|right; auto].
      left. right. right. destruct H2; cbn [List.length]; lia. }
    destruct Hd as [Hd|(-> & -> & L)].
    + pose proof (decode_shape d sg (y0 :: y) c (List.concat l') Hd (utf8_is_shape _ _ H2)) as Hdec. cbn [app] in Hdec.
      rewrite Hdec. cbn [bind fst snd]. destruct (IH l' n H4) as [E|E]; [lia| |]; rewrite E; auto.
    + right. pose proof (decode_four_aborts_utf8 c (y0 :: y) (List.concat l') H2 L) as E. cbn [app] in E. rewrite E. reflexivity.
Qed.
Lemma concat_nonempty cs ss : Forall2 utf8 cs ss -> cs <> [] -> List.concat ss <> [].
Proof.
  intros H. destruct H as [|c s cs ss U H]; [congruence|]. intros _. cbn [List.concat].
  pose proof (utf8_nonempty _ _ U). destruct s; [congruence|discriminate].
Qed.

(** A sort by demerits *)
Fixpoint insert_bp {N : Num} (b : bp N) (l : list (bp N)) : list (bp N) :=
  match l with [] => [b] | x :: r => if (bp_dem b <=? bp_dem x)%Z then b :: l else x :: insert_bp b r end.
Definition sort_bps {N : Num} (l : list (bp N)) : list (bp N) := fold_right insert_bp [] l.
Lemma insert_perm {N : Num} (b : bp N) l : Permutation (insert_bp b l) (b :: l).
Proof.
  induction l as [|x r IH]; cbn; [reflexivity|]. destruct (_ <=? _)%Z; [reflexivity|].
  rewrite IH. apply perm_swap.
Qed.
Lemma sort_perm {N : Num} (l : list (bp N)) : Permutation (sort_bps l) l.
Proof. induction l as [|x r IH]; cbn; [reflexivity|]. rewrite insert_perm. rewrite IH. reflexivity. Qed.
Lemma insert_sorted {N : Num} (b : bp N) l : StronglySorted (fun a b : bp N => (bp_dem a <= bp_dem b)%Z) l ->
  StronglySorted (fun a b : bp N => (bp_dem a <= bp_dem b)%Z) (insert_bp b l).
Proof.
  induction 1 as [|x r H IH F]; cbn; [repeat constructor|]. destruct (_ <=? _)%Z eqn:E.
  - apply Z.leb_le in E. constructor; [constructor; assumption|]. constructor; [exact E|]. eapply Forall_impl; [|exact F]. intros; cbv beta in *; lia.
  - apply Z.leb_gt in E. constructor; [exact IH|]. rewrite insert_perm. constructor; [lia|exact F].
Qed.
Lemma sort_sorted {N : Num} (l : list (bp N)) : StronglySorted (fun a b : bp N => (bp_dem a <= bp_dem b)%Z) (sort_bps l).
Proof. induction l as [|x r IH]; cbn; [constructor|]. apply insert_sorted. exact IH. Qed.

Section V.
  Context {N : Num}.
  Variable in_range : Q -> bool.
  Variables debug char_signed : bool.
  Variable pw : pows N.
  Variable us : unitsystem N.
  Variable fm : bool -> hmetrics N.
  Variable sorted : list (bp N) -> list (bp N).
  Variable to_float : name -> option N.
  Notation step := (step in_range debug char_signed pw us fm sorted to_float).
  Notation process := (process debug char_signed pw fm sorted).
  Notation parameter_changed := (parameter_changed in_range debug char_signed pw us fm sorted).
  Notation session := (session in_range debug char_signed pw us fm sorted to_float).
  Notation rg := (read_glue in_range us).
  Notation rd := (read_dimen in_range us).

  Lemma setup_settings (v : viewer N) P : setup v = Ok P <-> settings v P.
  Proof.
    unfold setup, settings. split.
    - destruct (v_glue v LeftSkip), (v_glue v RightSkip), (v_glue v BaselineSkip), (v_glue v LineSkip); try discriminate.
      intros H. injection H as <-. cbn. repeat split.
    - destruct P. cbn. intros (-> & -> & -> & -> & -> & -> & -> & -> & -> & -> & -> & -> & -> & ->). reflexivity.
  Qed.

  Lemma session_snoc es e : session (es ++ [e]) = do v <- session es; step v e.
  Proof.
    unfold Viewer.session. destruct (window _ _ _ _ _ _ _) as [w| | | |]; cbn [bind]; try reflexivity.
    rewrite foldM_app. destruct (foldM step es w); cbn [bind foldM]; try reflexivity. apply bind_ok_r.
  Qed.

  (** ** What is shown *)
  Section Sorted.
    Hypothesis sorted_perm : forall l, Permutation (sorted l) l.
    Hypothesis sorted_sorted : forall l, StronglySorted (fun a b : bp N => (bp_dem a <= bp_dem b)%Z) (sorted l).
    Hypothesis codes : forall b c, (hm_sfcode (fm b) c = 0 \/ 1000 <= hm_sfcode (fm b) c)%Z.

    Lemma fresh_of v cs ss : shown debug char_signed pw fm sorted v -> Forall2 utf8 cs ss -> cs <> [] -> v_text v = List.concat ss ->
      exists P act, settings v P /\ let xs := items_of (fm (v_french v)) 1000 cs in
        v_list v = prepare P xs /\ computeFeasibleBreakpoints pw P (prepare P xs) = Ok act /\ v_bps v = sorted act /\
        (act = [] \/ exists (b : bp N) out, nth_error (v_bps v) (Z.to_nat (v_value v)) = Some b /\
          create_at P (prepare P xs) (bp_chain b) = Ok out /\ v_box v = Some (vbox out) /\ v_label v = Some (bp_dem b)).
    Proof.
      intros Hs HU Hne Et. pose proof (decode_cases debug char_signed cs ss (List.length (List.concat ss)) HU (le_n _)) as Hd.
      destruct Hs as [[Hn|Hn]|(cs' & P & act & F1 & F2 & F3 & F4 & F5 & _ & _ & F8)].
      - exfalso. apply (concat_nonempty cs ss HU Hne). congruence.
      - exfalso. rewrite Et in Hn. destruct Hd; congruence.
      - rewrite Et in F1. assert (cs' = cs) by (destruct Hd; congruence). subst cs'.
        rewrite text_list_items in F3 by apply codes. exists P, act. split; [apply setup_settings; exact F2|]. cbv zeta.
        split; [exact F3|]. rewrite <- F3. auto.
    Qed.

    Theorem viewer_shows es v cs ss : session es = Ok v -> Forall2 utf8 cs ss -> cs <> [] -> text_of (rev es) = List.concat ss ->
      shows pw fm v (french_of (rev es)) cs.
    Proof.
      intros H HU Hne Et. pose proof (session_inv _ _ _ _ _ _ _ _ es v H) as [(I1 & _ & _ & _ & _ & I6 & _) _].
      rewrite <- I6. pose proof (session_shown _ _ _ _ _ _ _ _ sorted_perm es v H) as Hs.
      destruct (fresh_of v cs ss Hs HU Hne) as (P & act & F1 & F2 & F3 & F4 & F5); [congruence|].
      exists P. split; [exact F1|]. cbv zeta. set (xs := items_of (fm (v_french v)) 1000 cs) in *. split.
      - rewrite F4. apply feasible_alternatives; [exact sorted_perm|exact F3|apply sorted_sorted].
      - destruct F5 as [->|(b & out & E1 & E2 & E3 & E4)].
        + left. rewrite F4. apply Permutation_nil. apply Permutation_sym, sorted_perm.
        + right. assert (Hb : In b act).
          { apply (Permutation_in b (sorted_perm act)). rewrite <- F4. eapply nth_error_In; eauto. }
          destruct (feasible_paragraph pw P xs act b out (items_nonempty _ _ _ Hne) F3 Hb E2) as (bs & A & Pg & _).
          exists b, bs, out. auto.
    Qed.

    (** after a change of the text the best one is shown *)
    Theorem viewer_best es t v cs ss : session (es ++ [EText t]) = Ok v -> Forall2 utf8 cs ss -> cs <> [] -> t = List.concat ss ->
      v_value v = 0%Z /\
      exists P, settings v P /\ let l := prepare P (items_of (fm (french_of (rev es))) 1000 cs) in
        forall b r, v_bps v = b :: r -> v_label v = Some (bp_dem b) /\
          forall bs f d, breaking l P pw bs f d -> complete l P bs -> (bp_dem b <= d)%Z.
    Proof.
      intros H HU Hne ->. pose proof (viewer_shows _ v cs ss H HU Hne) as S.
      rewrite rev_app_distr in S. cbn [rev app text_of french_of] in S. destruct (S eq_refl) as (P & F1 & F2 & F3).
      pose proof H as H'. rewrite session_snoc in H. apply bind_Ok in H. destruct H as (w & Hw & H). cbn [Viewer.step] in H.
      pose proof (process_inputs _ _ _ _ _ _ _ H) as I.
      assert (Et : v_text v = List.concat ss) by (injection I; auto).
      assert (V0 : v_value v = 0%Z).
      { destruct (process_shown _ _ _ _ _ sorted_perm _ _ H) as [[Hn|Hn]|[_ V]]; [| |exact V].
        - exfalso. apply (concat_nonempty cs ss HU Hne). congruence.
        - exfalso. rewrite Et in Hn. destruct (decode_cases debug char_signed cs ss (List.length (List.concat ss)) HU (le_n _)); congruence. }
      split; [exact V0|]. exists P. split; [exact F1|]. cbv zeta. intros b r Eb. rewrite Eb, V0 in F3.
      destruct F3 as [F3|(b' & bs' & out & E1 & _ & _ & _ & E4)]; [discriminate|]. cbn in E1. injection E1 as <-.
      split; [exact E4|]. intros bs f d Hb Hc. destruct F2 as (_ & Hall & Hs). destruct (Hall bs f d Hb Hc) as (x & Hx & Hd).
      rewrite Eb in Hx, Hs. destruct Hx as [<-|Hx]; [exact Hd|]. apply StronglySorted_inv in Hs. destruct Hs as [_ Hs].
      rewrite Forall_forall in Hs. specialize (Hs x Hx). cbv beta in Hs. lia.
    Qed.

    (** no alternatives: the old box stays *)
    Theorem viewer_stale es t v v' : session es = Ok v -> session (es ++ [EText t]) = Ok v' -> v_bps v' = [] ->
      v_box v' = v_box v /\ v_label v' = v_label v.
    Proof.
      intros H H' Hb. rewrite session_snoc, H in H'. cbn [bind Viewer.step] in H'. unfold Viewer.process in H'.
      cbn [v_text with_text] in H'. destruct t as [|c t]; [injection H' as <-; auto|].
      destruct (decode_all _ _ _ _) as [cs| | | |]; try discriminate; [|injection H' as <-; auto].
      apply bind_Ok in H'. destruct H' as (P & _ & H').
      destruct (computeFeasibleBreakpoints _ _ _) as [act| | | |]; try discriminate; [|injection H' as <-; auto].
      apply bind_Ok in H'. destruct H' as (v1 & H1 & H2). apply bind_Ok in H2. destruct H2 as (v2 & H2 & H3).
      assert (K : forall a b : viewer N, selected a = Ok b -> v_bps b = v_bps a /\ (v_bps a = [] -> b = a)).
      { intros a b. unfold selected. destruct (v_bps a) eqn:E; [intros X; injection X as <-; auto|].
        destruct (nth_error _ _); [|discriminate]. intros X. apply bind_Ok in X. destruct X as (? & _ & X). apply bind_Ok in X.
        destruct X as (? & _ & X). injection X as <-. split; [exact E|discriminate]. }
      assert (K2 : forall (a b : viewer N) z, set_value a z = Ok b -> v_bps b = v_bps a /\ (v_bps a = [] -> v_box b = v_box a /\ v_label b = v_label a)).
      { intros a b z. unfold set_value. cbv zeta. destruct (_ =? _)%Z; [intros X; injection X as <-; auto|].
        intros X. apply K in X. destruct X as [X1 X2]. split; [exact X1|]. intros E. rewrite (X2 E). auto. }
      unfold set_range in H1. cbv zeta in H1. apply K2 in H1. apply K2 in H2. apply K in H3.
      destruct H1 as [A1 B1], H2 as [A2 B2], H3 as [A3 B3].
      assert (E2 : v_bps v2 = []) by congruence. assert (E1 : v_bps v1 = []) by congruence.
      rewrite (B3 E2). destruct (B2 E1) as [-> ->]. cbn in A1. rewrite E1 in A1. destruct (B1 (eq_sym A1)) as [-> ->]. auto.
    Qed.
  End Sorted.

  Theorem viewer_empty es v : session es = Ok v ->
    exists v', session (es ++ [EText []]) = Ok v' /\ v_text v' = [] /\ v_box v' = v_box v /\ v_label v' = v_label v.
  Proof. intros H. exists (with_text v []). rewrite session_snoc, H. cbn. auto. Qed.

  (** ** Fields whose texts end the program *)
  Definition clean (v : viewer N) : Prop :=
    (forall f, exists o, rg (v_gtext v f) = Ok o) /\ (forall f, exists o, rd (v_dtext v f) = Ok o).
  Lemma clean_texts v v' : texts v' = texts v -> clean v -> clean v'.
  Proof. intros E. injection E as _ E1 E2 _ _ _ _. unfold clean. rewrite E1, E2. auto. Qed.
  Lemma write_glue_texts f v v' : write_glue in_range us f v = Ok v' -> texts v' = texts v /\ exists o, rg (v_gtext v f) = Ok o.
  Proof.
    unfold write_glue. intros H. apply bind_Ok in H. destruct H as (o & Ho & H). split; [|eauto].
    destruct o; injection H as <-; reflexivity.
  Qed.
  Lemma write_dimen_texts f v v' : write_dimen in_range us f v = Ok v' -> texts v' = texts v /\ exists o, rd (v_dtext v f) = Ok o.
  Proof.
    unfold write_dimen. intros H. apply bind_Ok in H. destruct H as (o & Ho & H). split; [|eauto].
    destruct o; injection H as <-; reflexivity.
  Qed.
  Lemma texts_gtext (v v' : viewer N) : texts v' = texts v -> v_gtext v' = v_gtext v.
  Proof. intros E. injection E as _ E _ _ _ _ _. exact E. Qed.
  Lemma texts_dtext (v v' : viewer N) : texts v' = texts v -> v_dtext v' = v_dtext v.
  Proof. intros E. injection E as _ _ E _ _ _ _. exact E. Qed.
  Lemma read_all_clean v v' : read_all in_range us v = Ok v' -> clean v /\ texts v' = texts v.
  Proof.
    unfold read_all. intros H.
    apply bind_Ok in H. destruct H as (v1 & H1 & H). apply write_glue_texts in H1. destruct H1 as [X1 G1].
    apply bind_Ok in H. destruct H as (v2 & H2 & H). apply write_glue_texts in H2. destruct H2 as [X2 G2].
    apply bind_Ok in H. destruct H as (v3 & H3 & H). apply write_glue_texts in H3. destruct H3 as [X3 G3].
    apply bind_Ok in H. destruct H as (v4 & H4 & H). apply write_glue_texts in H4. destruct H4 as [X4 G4].
    apply bind_Ok in H. destruct H as (v5 & H5 & H). apply write_dimen_texts in H5. destruct H5 as [X5 G5].
    apply write_dimen_texts in H. destruct H as [X6 G6].
    assert (Y2 : texts v2 = texts v) by congruence. assert (Y3 : texts v3 = texts v) by congruence.
    assert (Y4 : texts v4 = texts v) by congruence. assert (Y5 : texts v5 = texts v) by congruence.
    rewrite (texts_gtext _ _ X1) in G2. rewrite (texts_gtext _ _ Y2) in G3. rewrite (texts_gtext _ _ Y3) in G4.
    rewrite (texts_dtext _ _ Y4) in G5. rewrite (texts_dtext _ _ Y5) in G6.
    split; [|congruence]. split; intros []; assumption.
  Qed.
  Lemma parameter_clean v v' : parameter_changed v = Ok v' -> clean v'.
  Proof.
    intros H. apply parameter_changed_read in H. destruct H as (w & R & P). apply read_all_clean in R. destruct R as [C E].
    apply process_inputs in P. apply (clean_texts v); [|exact C]. unfold inputs in P. congruence.
  Qed.
  Lemma step_clean1 v e v' : single e -> step v e = Ok v' -> clean v -> clean v'.
  Proof.
    intros Se H Hs. destruct e as [t|f t|f t|t|s z|b|z|]; cbn [Viewer.step] in H; [| | | | | | |destruct Se].
    - apply process_inputs in H. injection H as E1 E2 E3 E4 E5 E6 E7 E8 E9. unfold clean. rewrite E2, E3. exact Hs.
    - unfold set_gtext in H. destruct (name_eqb _ _); [injection H as <-; exact Hs|eapply parameter_clean; eauto].
    - unfold set_dtext in H. destruct (name_eqb _ _); [injection H as <-; exact Hs|eapply parameter_clean; eauto].
    - unfold set_ptext in H. destruct (name_eqb _ _); [injection H as <-; exact Hs|eapply parameter_clean; eauto].
    - unfold set_spin in H. cbv zeta in H. destruct (_ =? _)%Z; [injection H as <-; exact Hs|eapply parameter_clean; eauto].
    - unfold set_french in H. destruct (Bool.eqb _ _); [injection H as <-; exact Hs|eapply parameter_clean; eauto].
    - apply set_value_inputs in H. apply (clean_texts v); [|exact Hs]. unfold inputs in H. congruence.
  Qed.
  Lemma fold_clean1 es : forall v v', Forall single es -> foldM step es v = Ok v' -> clean v -> clean v'.
  Proof.
    induction es as [|e es IH]; intros v v' Hs H Hi; cbn [foldM] in H.
    - injection H as <-. exact Hi.
    - apply bind_Ok in H. destruct H as (w & Hw & H). apply (IH w v'); [apply Forall_inv_tail in Hs; exact Hs|exact H|].
      eapply step_clean1; eauto. apply Forall_inv in Hs. exact Hs.
  Qed.
  Lemma session_clean es v : session es = Ok v -> clean v.
  Proof.
    unfold Viewer.session. intros H. apply bind_Ok in H. destruct H as (w & Hw & H). apply parameter_clean in Hw. clear - H Hw.
    revert w v H Hw. induction es as [|e es IH]; intros w v H Hi; cbn [foldM] in H.
    - injection H as <-. exact Hi.
    - apply bind_Ok in H. destruct H as (u & Hu & H). eapply IH; eauto.
      destruct e as [t|f t|f t|t|s z|b|z|]; try (eapply step_clean1; eauto; exact Logic.I).
      rewrite reset_fold in Hu. exact (fold_clean1 reset_events w u reset_single Hu Hi).
  Qed.

  Lemma write_glue_clean f v o : rg (v_gtext v f) = Ok o -> exists v', write_glue in_range us f v = Ok v' /\ texts v' = texts v.
  Proof. intros E. unfold write_glue. rewrite E. cbn [bind]. destruct o; eauto. Qed.
  Lemma write_dimen_clean f v o : rd (v_dtext v f) = Ok o -> exists v', write_dimen in_range us f v = Ok v' /\ texts v' = texts v.
  Proof. intros E. unfold write_dimen. rewrite E. cbn [bind]. destruct o; eauto. Qed.
  Lemma write_glue_abort f v : rg (v_gtext v f) = Abort -> write_glue in_range us f v = Abort.
  Proof. intros E. unfold write_glue. rewrite E. reflexivity. Qed.
  Lemma write_dimen_abort f v : rd (v_dtext v f) = Abort -> write_dimen in_range us f v = Abort.
  Proof. intros E. unfold write_dimen. rewrite E. reflexivity. Qed.
  (** each field is read or ends the program *)
  Definition settled (v : viewer N) : Prop :=
    (forall f, (exists o, rg (v_gtext v f) = Ok o) \/ rg (v_gtext v f) = Abort) /\
    (forall f, (exists o, rd (v_dtext v f) = Ok o) \/ rd (v_dtext v f) = Abort).
  Lemma read_all_settled v : settled v ->
    (exists f, rg (v_gtext v f) = Abort) \/ (exists f, rd (v_dtext v f) = Abort) -> read_all in_range us v = Abort.
  Proof.
    intros [SG SD] HA. unfold read_all.
    assert (WG : forall f w, texts w = texts v -> write_glue in_range us f w = Abort \/
      (rg (v_gtext v f) <> Abort /\ exists w', write_glue in_range us f w = Ok w' /\ texts w' = texts v)).
    { intros f w E. destruct (SG f) as [[o Ho]|Ho]; rewrite <- (texts_gtext _ _ E) in Ho.
      - right. split; [rewrite <- (texts_gtext _ _ E); congruence|]. destruct (write_glue_clean f w o Ho) as (w' & E' & X). exists w'. split; [exact E'|congruence].
      - left. apply write_glue_abort. exact Ho. }
    assert (WD : forall f w, texts w = texts v -> write_dimen in_range us f w = Abort \/
      (rd (v_dtext v f) <> Abort /\ exists w', write_dimen in_range us f w = Ok w' /\ texts w' = texts v)).
    { intros f w E. destruct (SD f) as [[o Ho]|Ho]; rewrite <- (texts_dtext _ _ E) in Ho.
      - right. split; [rewrite <- (texts_dtext _ _ E); congruence|]. destruct (write_dimen_clean f w o Ho) as (w' & E' & X). exists w'. split; [exact E'|congruence].
      - left. apply write_dimen_abort. exact Ho. }
    destruct (WG LeftSkip v eq_refl) as [->|(N1 & v1 & -> & X1)]; cbn [bind]; [reflexivity|].
    destruct (WG RightSkip v1 X1) as [->|(N2 & v2 & -> & X2)]; cbn [bind]; [reflexivity|].
    destruct (WG BaselineSkip v2 X2) as [->|(N3 & v3 & -> & X3)]; cbn [bind]; [reflexivity|].
    destruct (WG LineSkip v3 X3) as [->|(N4 & v4 & -> & X4)]; cbn [bind]; [reflexivity|].
    destruct (WD LineSkipLimit v4 X4) as [->|(N5 & v5 & -> & X5)]; cbn [bind]; [reflexivity|].
    destruct (WD HangIndent v5 X5) as [->|(N6 & v6 & -> & X6)]; [reflexivity|].
    destruct HA as [(f & E)|(f & E)]; destruct f; congruence.
  Qed.
  Lemma parameter_abort v : read_all in_range us v = Abort -> parameter_changed v = Abort.
  Proof.
    unfold read_all, Viewer.parameter_changed. intros H.
    repeat match type of H with bind ?a _ = Abort => destruct a; cbn [bind] in *; try discriminate; try reflexivity end.
    rewrite H. reflexivity.
  Qed.
  Theorem crash_glue es v f t : session es = Ok v -> rg t = Abort -> session (es ++ [EGlue f t]) = Abort.
  Proof.
    intros H Ht. pose proof (session_clean es v H) as [CG CD]. rewrite session_snoc, H. cbn [bind Viewer.step]. unfold set_gtext.
    destruct (name_eqb t (v_gtext v f)) eqn:E.
    - apply name_eqb_iff in E. subst t. destruct (CG f) as [o Eo]. congruence.
    - apply parameter_abort, read_all_settled.
      + split; [|intros g; left; apply CD]. intros g. cbn [v_gtext with_gtext]. unfold update. destruct (gfield_eqb g f); [right; exact Ht|left; apply CG].
      + left. exists f. cbn [v_gtext with_gtext]. unfold update. rewrite (proj2 (gfield_eqb_iff f f) eq_refl). exact Ht.
  Qed.
  Theorem crash_dimen es v f t : session es = Ok v -> rd t = Abort -> session (es ++ [EDimen f t]) = Abort.
  Proof.
    intros H Ht. pose proof (session_clean es v H) as [CG CD]. rewrite session_snoc, H. cbn [bind Viewer.step]. unfold set_dtext.
    destruct (name_eqb t (v_dtext v f)) eqn:E.
    - apply name_eqb_iff in E. subst t. destruct (CD f) as [o Eo]. congruence.
    - apply parameter_abort, read_all_settled.
      + split; [intros g; left; apply CG|]. intros g. cbn [v_dtext with_dtext]. unfold update. destruct (dfield_eqb g f); [right; exact Ht|left; apply CD].
      + right. exists f. cbn [v_dtext with_dtext]. unfold update. rewrite (proj2 (dfield_eqb_iff f f) eq_refl). exact Ht.
  Qed.
  Lemma read_none : rg [] = Abort /\ rd [] = Abort /\ rg ["-"%char] = Abort /\ rd ["-"%char] = Abort.
  Proof. repeat split. Qed.
End V.

(** * Fields, exact arithmetic *)
Section Fields.
  Variable in_range : Q -> bool.
  Variables debug char_signed : bool.
  Variable pw : pows QcNum.
  Variable us : unitsystem QcNum.
  Variable fm : bool -> hmetrics QcNum.
  Variable sorted : list (bp QcNum) -> list (bp QcNum).
  Variable to_float : name -> option Qc.
  Notation session := (session (N := QcNum) in_range debug char_signed pw us fm sorted to_float).

  Lemma last_exists {A} (good : name -> A -> Prop) r x : (forall t, (exists a, good t a) \/ forall a, ~ good t a) ->
    In x r -> (exists a, good x a) -> exists a, last_good good r a.
  Proof.
    intros Dc. induction r as [|t r IH]; intros Hi Hx; [destruct Hi|].
    destruct (Dc t) as [[a Ha]|Ng]; [exists a; constructor; exact Ha|].
    destruct Hi as [->|Hi]; [destruct Hx as [a Ha]; exfalso; exact (Ng a Ha)|].
    destruct (IH Hi Hx) as [a Ha]. exists a. constructor 2; assumption.
  Qed.

  Lemma session_window es v : session es = Ok v -> exists w, window (N := QcNum) in_range debug char_signed pw us fm sorted = Ok w.
  Proof. unfold Viewer.session. intros H. apply bind_Ok in H. destruct H as (w & Hw & _). eauto. Qed.
  Lemma default_read es v : session es = Ok v ->
    (forall f, exists o, read_glue in_range us (gtext_default f) = Ok o) /\ (forall f, exists o, read_dimen in_range us (dtext_default f) = Ok o).
  Proof.
    intros H. apply session_window in H. destruct H as (w & H). unfold window in H. apply parameter_changed_read in H.
    destruct H as (u & R & _). apply read_all_clean in R. destruct R as [[C1 C2] _]. split; assumption.
  Qed.
  Lemma pt_dim (n : Z) (s : name) : (exists f, s = factor_text f /\ factor_ok f /\ factor_value f == inject_Z n)%Q ->
    exists q v, dim_text (s ++ str "pt") q UPt v /\ (q == inject_Z n)%Q /\ (v == inject_Z n)%Q.
  Proof.
    intros (f & -> & Hf & Hv). eexists _, (factor_value f). split; [|split; [|exact Hv]].
    - apply (dim_text_intro [] f (str "pt") UPt 1); [constructor|exact Hf|constructor].
    - cbn [negative]. rewrite Hv. ring.
  Qed.
  Definition default_points (f : gfield) : Z := match f with LeftSkip | RightSkip => 0 | BaselineSkip => 12 | LineSkip => 1 end.
  Lemma default_dim f : exists q v, dim_text (gtext_default f) q UPt v /\ (q == inject_Z (default_points f))%Q /\ (v == inject_Z (default_points f))%Q.
  Proof.
    assert (K : forall s, Forall digit s -> s <> [] -> (exists f, s = factor_text f /\ factor_ok f /\ (factor_value f == factor_value (mkFactor s None)))%Q).
    { intros s Hs Hn. exists (mkFactor s None). split; [unfold factor_text; cbn; rewrite app_nil_r; reflexivity|]. split; [|reflexivity].
      split; [|split]; cbn [f_whole f_frac].
      - eapply Forall_impl; [|exact Hs]. intros c Hc. split; [apply DimenProofs.digit_not_lower|apply DimenProofs.digit_not_sep]; exact Hc.
      - exact Logic.I.
      - unfold factor_text. cbn [f_whole f_frac]. rewrite app_nil_r. destruct s; [congruence|]. left. apply Forall_inv in Hs. exact Hs. }
    destruct f; cbn [gtext_default default_points].
    1, 2: change (str "0pt") with (str "0" ++ str "pt"); apply (pt_dim 0).
    3: change (str "12pt") with (str "12" ++ str "pt"); apply (pt_dim 12).
    4: change (str "1pt") with (str "1" ++ str "pt"); apply (pt_dim 1).
    all: match goal with |- exists f, ?s = _ /\ _ => destruct (K s) as (f & E1 & E2 & E3);
      [repeat constructor; unfold digit, code; cbn; lia|discriminate|exists f; split; [exact E1|split; [exact E2|rewrite E3; reflexivity]]] end.
  Qed.
  Definition points (n : Z) : Qc := (us_pt us * Q2Qc (inject_Z n))%Qc.
  Lemma length_points q n : (q == inject_Z n)%Q -> length_in us UPt q = points n.
  Proof. intros E. unfold points, length_in. f_equal. apply Qc_is_canon. cbn [this Q2Qc]. rewrite !Qred_correct. exact E. Qed.
  Lemma default_glue f o : read_glue in_range us (gtext_default f) = Ok o ->
    glue_text in_range us (gtext_default f) (mkGlue (N := QcNum) (points (default_points f)) n0 n0 Normal Normal).
  Proof.
    intros H. destruct (default_dim f) as (q & v & Dm & Eq & Ev). rewrite <- (length_points q _ Eq), <- (app_nil_r (gtext_default f)).
    apply glue_text_space; [|exact Logic.I]. econstructor; [exact Dm|left; reflexivity|].
    destruct (in_range (Qred v)) eqn:E; [reflexivity|exfalso].
    assert (X : read_glue (N := QcNum) in_range us (gtext_default f) = Abort).
    { apply read_glue_abort. apply gb_space. right. inversion Dm as [s g kw u k Hs Hg Hk]. subst. exists (negative s), (factor_value g), kw.
      split; [|exact E]. constructor; auto. eapply DimenProofs.keyword_lower; eauto. }
    congruence.
  Qed.
  Lemma default_dimen f o : read_dimen in_range us (dtext_default f) = Ok o -> dimen_text in_range us (dtext_default f) (points 0).
  Proof.
    intros H. destruct (default_dim LeftSkip) as (q & v & Dm & Eq & Ev). change (gtext_default LeftSkip) with (dtext_default f) in Dm.
    change (points 0) with (points (default_points LeftSkip)).
    rewrite <- (length_points q _ Eq), <- (app_nil_r (dtext_default f)).
    constructor; [|exact Logic.I]. econstructor; [exact Dm|left; reflexivity|].
    destruct (in_range (Qred v)) eqn:E; [reflexivity|exfalso].
    assert (X : read_dimen (N := QcNum) in_range us (dtext_default f) = Abort).
    { apply read_dimen_abort. apply db_number. right. inversion Dm as [s g kw u k Hs Hg Hk]. subst. exists (negative s), (factor_value g), kw.
      split; [|exact E]. constructor; auto. eapply DimenProofs.keyword_lower; eauto. }
    congruence.
  Qed.
  Lemma good_dec t : (exists a, read_glue (N := QcNum) in_range us t = Ok (Some a)) \/ forall a, read_glue in_range us t <> Ok (Some a).
  Proof. destruct (read_glue in_range us t) as [[a|]| | | |]; [left; eauto| | | | |]; right; intros; discriminate. Qed.
  Lemma dgood_dec t : (exists a, read_dimen (N := QcNum) in_range us t = Ok (Some a)) \/ forall a, read_dimen in_range us t <> Ok (Some a).
  Proof. destruct (read_dimen in_range us t) as [[a|]| | | |]; [left; eauto| | | | |]; right; intros; discriminate. Qed.

  Theorem field_glue es v f : session es = Ok v ->
    exists g, v_glue v f = Some g /\ last_good (glue_text in_range us) (gtexts f (rev es) ++ [gtext_default f]) g.
  Proof.
    intros H. pose proof (default_read es v H) as [DG _]. destruct (DG f) as [o Ho].
    pose proof (session_inv _ _ _ _ _ _ _ _ es v H) as [_ [VG _]].
    destruct (last_exists (fun t g => read_glue (N := QcNum) in_range us t = Ok (Some g)) (T (rev es) f) (gtext_default f)) as [g Hg].
    - intros t. apply good_dec.
    - unfold T. apply in_or_app. right. left. reflexivity.
    - eexists. apply read_glue_some. eapply default_glue; eauto.
    - exists g. split; [apply VG; exact Hg|]. eapply last_good_ext; [|exact Hg]. intros t b. apply read_glue_some.
  Qed.
  Theorem field_dimen es v f : session es = Ok v ->
    last_good (dimen_text in_range us) (dtexts f (rev es) ++ [dtext_default f]) (v_dimen v f).
  Proof.
    intros H. pose proof (default_read es v H) as [_ DD]. destruct (DD f) as [o Ho].
    pose proof (session_inv _ _ _ _ _ _ _ _ es v H) as [_ [_ VD]].
    destruct (last_exists (fun t g => read_dimen (N := QcNum) in_range us t = Ok (Some g)) (D (rev es) f) (dtext_default f)) as [x Hx].
    - intros t. apply dgood_dec.
    - unfold D. apply in_or_app. right. left. reflexivity.
    - eexists. apply read_dimen_some. eapply default_dimen; eauto.
    - rewrite (VD f x Hx). eapply last_good_ext; [|exact Hx]. intros t b. apply read_dimen_some.
  Qed.
  (** the lists of texts determine the values *)
  Lemma glue_text_fn t a b : glue_text in_range us t a -> glue_text in_range us t b -> a = b.
  Proof. rewrite <- !read_glue_some. congruence. Qed.
  Lemma dimen_text_fn t a b : dimen_text in_range us t a -> dimen_text in_range us t b -> a = b.
  Proof. rewrite <- !read_dimen_some. congruence. Qed.

  (** ** Reset *)
  Theorem reset_defaults es v : session (es ++ [EReset]) = Ok v ->
    (forall s, v_spin v s = spin_default s) /\ v_ptext v = [] /\ v_parshape v = [] /\
    (forall f, v_gtext v f = gtext_default f) /\ (forall f, v_dtext v f = dtext_default f) /\
    (forall f, v_glue v f = Some (mkGlue (N := QcNum) (points (default_points f)) n0 n0 Normal Normal)) /\
    (forall f, v_dimen v f = points 0) /\
    v_french v = french_of (rev es) /\ v_text v = text_of (rev es).
  Proof.
    intros H. pose proof (session_inv _ _ _ _ _ _ _ _ _ v H) as [(I1 & I2 & I3 & I4 & I5 & I6 & I7) _].
    pose proof (default_read _ v H) as [DG DD].
    rewrite rev_app_distr in *. cbn [rev app] in *.
    split; [exact I5|]. split; [exact I4|]. split; [rewrite I7, I4; reflexivity|].
    split; [intros f; rewrite <- I2; reflexivity|]. split; [intros f; rewrite <- I3; reflexivity|].
    split; [|split; [|split; [exact I6|exact I1]]].
    - intros f. destruct (field_glue _ v f H) as (g & Eg & L). rewrite Eg. f_equal. rewrite rev_app_distr in L. cbn [rev app gtexts] in L.
      destruct (DG f) as [o Ho]. pose proof (default_glue f o Ho) as G.
      inversion L as [? ? ? G'|? ? ? Ng _]; subst; [exact (glue_text_fn _ _ _ G' G)|]. exfalso. exact (Ng _ G).
    - intros f. pose proof (field_dimen _ v f H) as L. rewrite rev_app_distr in L. cbn [rev app dtexts] in L.
      destruct (DD f) as [o Ho]. pose proof (default_dimen f o Ho) as G.
      inversion L as [? ? ? G'|? ? ? Ng _]; subst; [exact (dimen_text_fn _ _ _ G' G)|]. exfalso. exact (Ng _ G).
  Qed.

  (** ** The shape of the paragraph *)
  Lemma split_blanks b t : blanks b -> split_spaces [] (b ++ t) = split_spaces [] t.
  Proof.
    induction b as [|c b IH]; intros H; [reflexivity|]. pose proof (Forall_inv H) as ->. apply Forall_inv_tail in H.
    cbn. apply IH. exact H.
  Qed.
  Lemma split_word w : forall cur t, ~ In " "%char w -> (t = [] \/ exists r, t = " "%char :: r) -> w ++ cur <> [] ->
    split_spaces cur (w ++ t) = (rev cur ++ w) :: split_spaces [] t.
  Proof.
    induction w as [|c w IH]; intros cur t Hn Ht Hne; cbn [app] in *.
    - rewrite app_nil_r. destruct Ht as [->|(r & ->)]; cbn [split_spaces]; destruct cur as [|x cur]; try congruence; reflexivity.
    - cbn [split_spaces]. destruct (ceq c " "%char) eqn:E.
      { exfalso. apply Hn. left. apply DimenProofs.ceq_iff in E. exact E. }
      rewrite IH; [|intros X; apply Hn; right; exact X|exact Ht|destruct w; discriminate]. cbn [rev]. rewrite <- app_assoc. reflexivity.
  Qed.
  Lemma split_words t ws : spaced_words t ws -> split_spaces [] t = ws.
  Proof.
    induction 1 as [b B|b w t ws B Nw Hn Ht H IH].
    - rewrite <- (app_nil_r b), split_blanks by exact B. reflexivity.
    - rewrite split_blanks by exact B. rewrite split_word; [cbn [rev app]; rewrite IH; reflexivity|exact Hn|exact Ht|]. rewrite app_nil_r. exact Nw.
  Qed.
  Lemma shape_pairs ws ps : pairs_of to_float ws ps -> shape_of (N := QcNum) to_float ws = ps /\ Nat.even (List.length ws) = true.
  Proof.
    induction 1 as [|i w x y ws ps Hx Hy H [IH1 IH2]]; [split; reflexivity|]. split; [|exact IH2].
    cbn [shape_of]. unfold float_of. rewrite Hx, Hy, IH1. f_equal. f_equal.
    cbn [nltb QcNum]. change (nz (N := QcNum) 10) with (Q2Qc 10).
    destruct (Qclt_le_dec (Q2Qc 10) y) as [L|L].
    - apply Qc_ltb_lt in L. rewrite L. reflexivity.
    - apply Qc_ltb_ge in L. rewrite L. reflexivity.
  Qed.
  Theorem parshape_pairs es v ws ps : session es = Ok v -> spaced_words (ptext_of (rev es)) ws -> pairs_of to_float ws ps ->
    v_parshape v = ps.
  Proof.
    intros H Hw Hp. pose proof (session_inv _ _ _ _ _ _ _ _ _ v H) as [(I1 & I2 & I3 & I4 & I5 & I6 & I7) _].
    rewrite I7, I4. unfold parseParshape. rewrite (split_words _ _ Hw). destruct (shape_pairs _ _ Hp) as [E ->]. exact E.
  Qed.
  Theorem parshape_odd es v ws : session es = Ok v -> spaced_words (ptext_of (rev es)) ws -> Nat.odd (List.length ws) = true ->
    v_parshape v = [].
  Proof.
    intros H Hw Hp. pose proof (session_inv _ _ _ _ _ _ _ _ _ v H) as [(I1 & I2 & I3 & I4 & I5 & I6 & I7) _].
    rewrite I7, I4. unfold parseParshape. rewrite (split_words _ _ Hw). rewrite <- Nat.negb_even in Hp. destruct (Nat.even _); [discriminate|reflexivity].
  Qed.
  Theorem parshape_bad es v i w y : session es = Ok v -> spaced_words (ptext_of (rev es)) [i; w] -> to_float i = None -> to_float w = Some y ->
    v_parshape v = [(0%Qc, if Qclt_le_dec (Q2Qc 10) y then y else Q2Qc 10)].
  Proof.
    intros H Hw Hi Hy. pose proof (session_inv _ _ _ _ _ _ _ _ _ v H) as [(I1 & I2 & I3 & I4 & I5 & I6 & I7) _].
    rewrite I7, I4. unfold parseParshape. rewrite (split_words _ _ Hw). cbn [List.length Nat.even shape_of]. unfold float_of. rewrite Hi, Hy.
    cbn [nltb QcNum]. change (nz (N := QcNum) 10) with (Q2Qc 10). f_equal.
    destruct (Qclt_le_dec (Q2Qc 10) y) as [L|L].
    - apply Qc_ltb_lt in L. rewrite L. reflexivity.
    - apply Qc_ltb_ge in L. rewrite L. reflexivity.
  Qed.
End Fields.

(** * Ordinary texts and parameters, exact arithmetic *)
Section Safe.
  Variable in_range : Q -> bool.
  Variables debug char_signed : bool.
  Variable us : unitsystem QcNum.
  Variable fm : bool -> hmetrics QcNum.
  Variable sorted : list (bp QcNum) -> list (bp QcNum).
  Variable to_float : name -> option Qc.
  Notation session := (session (N := QcNum) in_range debug char_signed QcPows us fm sorted to_float).
  Hypothesis sorted_perm : forall l, Permutation (sorted l) l.
  Hypothesis codes : forall b c, (hm_sfcode (fm b) c = 0 \/ 1000 <= hm_sfcode (fm b) c)%Z.
  Hypothesis fonts : forall b, (0 <= hm_space (fm b) /\ 0 <= hm_extra (fm b) /\ 0 <= hm_stretch (fm b) /\
    forall c, 0 <= m_width (hm_char (fm b) c))%Qc.

  Lemma mul_nonneg (x y : Qc) : (0 <= x)%Qc -> (0 <= y)%Qc -> (0 <= x * y)%Qc.
  Proof. intros H1 H2. pose proof (Qmult_le_0_compat _ _ H1 H2) as H. unfold Qcle. change (0 <= Qred (x * y))%Q. rewrite Qred_correct. exact H. Qed.
  Lemma nz_nonneg z : (0 <= z)%Z -> (0 <= nz (N := QcNum) z)%Qc.
  Proof.
    intros H. unfold Qcle. change (0 <= Qred (inject_Z z))%Q. rewrite Qred_correct. unfold Qle. cbn. lia.
  Qed.
  Lemma items_ordinary b cs : forall sf, (1000 <= sf)%Z -> Forall ordinary (items_of (N := QcNum) (fm b) sf cs).
  Proof.
    destruct (fonts b) as (F1 & F2 & F3 & F4).
    induction cs as [|c cs IH]; intros sf Hs; cbn [items_of]; [constructor|].
    destruct (_ || _)%bool.
    - constructor; [|apply IH; exact Hs]. unfold interword. cbn [ordinary g_space g_stretch g_stretchOrder]. split; [|split; [|reflexivity]].
      + destruct (2000 <=? sf)%Z; [|exact F1]. cbn [nadd QcNum]. change 0%Qc with (0 + 0)%Qc. apply Qcplus_le_compat; assumption.
      + cbn [nmul ndiv QcNum]. assert (L : (0 <= nz (N := QcNum) sf / nz (N := QcNum) 1000)%Qc).
        { unfold Qcdiv. apply mul_nonneg; [apply nz_nonneg; lia|discriminate]. }
        apply mul_nonneg; assumption.
    - constructor; [apply F4|]. apply IH. unfold sf_after. destruct (codes b c) as [E|E].
      + rewrite E. cbn. exact Hs.
      + destruct (hm_sfcode (fm b) c =? 0)%Z; [exact Hs|]. destruct (_ && _)%bool; lia.
  Qed.

  Lemma items_penalties b cs : forall sf, ~ exists p, In (NPenalty p) (items_of (N := QcNum) (fm b) sf cs).
  Proof.
    induction cs as [|c cs IH]; intros sf; cbn [items_of]; [intros (p & [])|].
    destruct (_ || _)%bool; intros (p & [E|Hp]); try (unfold interword in E; discriminate); eapply IH; eauto.
  Qed.
  Lemma items_length b cs : forall sf, List.length (items_of (N := QcNum) (fm b) sf cs) = List.length cs.
  Proof.
    induction cs as [|c cs IH]; intros sf; cbn [items_of]; [reflexivity|].
    destruct (_ || _)%bool; cbn [List.length]; rewrite IH; reflexivity.
  Qed.

  (** every alternative can be made into lines *)
  Lemma all_created (P : para QcNum) (xs : list (node QcNum)) (pm : Z) :
    xs <> [] -> Forall ordinary xs ->
    (forall n, (0 < linelength P n)%Qc) ->
    (0 <= g_space (p_leftskip P))%Qc -> (0 <= g_space (p_rightskip P))%Qc ->
    g_stretch (p_leftskip P) = 0%Qc -> g_stretch (p_rightskip P) = 0%Qc ->
    (p_tolerance P <= int_max)%Z ->
    penalties_within xs pm -> (0 <= pm)%Z ->
    (Z.of_nat (List.length xs + 3) * line_bound P (Z.max 100 (p_tolerance P)) pm < int_max)%Z ->
    exists act, computeFeasibleBreakpoints QcPows P (prepare P xs) = Ok act /\
      forall b, In b act -> exists out, create_at P (prepare P xs) (bp_chain b) = Ok out.
  Proof.
    intros Hne Hord Hlen H1 H2 H3 H4 Ht Hpm Hpm0 Hb.
    set (pre := drop_last_glue xs).
    assert (E : prepare P xs = pre ++ [NPenalty 10000; NGlue (p_parfillskip P); NPenalty (-10000)]) by (apply prepare_form; exact Hne).
    assert (Hsub : forall x, In x pre -> In x xs).
    { unfold pre, drop_last_glue. destruct (last xs NOther); auto. clear.
      induction xs as [|x xs IH]; intros y; [auto|]. cbn [removelast]. destruct xs; [intros []|].
      intros [->|H]; [left; reflexivity|right; apply IH; exact H]. }
    assert (Hlp : (List.length pre <= List.length xs)%nat).
    { unfold pre, drop_last_glue. destruct (last xs NOther); auto. clear.
      induction xs as [|x xs IH]; [auto|]. cbn [removelast]. destruct xs; cbn [List.length] in *; lia. }
    assert (Hop : Forall ordinary pre).
    { apply Forall_forall. intros x Hx. rewrite Forall_forall in Hord. auto. }
    rewrite E. set (l := pre ++ _).
    assert (Hno : computeBreakpoints QcPows P l <> UB).
    { apply (no_overflow_lemma QcPows P l (Z.max 100 (p_tolerance P)) pm).
      - intros r. apply badness_bound.
      - intros p Hp Hr. unfold l in Hp. apply in_app_or in Hp. destruct Hp as [Hp|Hp]; [apply Hpm; auto|].
        cbn in Hp. destruct Hp as [Hp|[Hp|[Hp|[]]]]; inversion Hp; subst; lia.
      - exact Hpm0.
      - assert (HK := K_nonneg P (Z.max 100 (p_tolerance P)) pm).
        assert (Hll : (List.length l <= List.length xs + 3)%nat) by (unfold l; rewrite app_length; cbn [List.length]; lia). nia. }
    destruct (feasible_cases QcPows P l) as [(act & Ea)|Ea].
    2: { exfalso. apply Hno. unfold computeBreakpoints. rewrite Ea. reflexivity. }
    exists act. split; [exact Ea|]. intros b Hin.
    pose proof (feasible_inv QcPows P l act Ea) as (_ & Hg & _).
    destruct (Hg b Hin) as (bs & e & T1 & T2 & T3 & T4 & T5 & T6 & T7).
    destruct (chain_tracks QcPows P l b bs T1) as (U1 & U2 & _).
    pose proof (alive_complete P l bs e T3 T7) as Cp.
    pose proof (last_forced QcPows P l bs _ _ _ T2 Cp (l_length pre (p_parfillskip P)) (l_forced pre (p_parfillskip P))) as Hl.
    assert (Hn : nonempty_lines l (rev bs)).
    { eapply (ordinary_nonempty pre (p_parfillskip P) P Hop Hlen H1 H2 H3 H4 Ht bs); [exact T2|].
      destruct bs; [exact Logic.I|]. left. simpl in Hl. congruence. }
    assert (Hll : l <> []) by (unfold l; destruct pre; discriminate).
    unfold create_at. destruct l as [|x l0] eqn:El; [congruence|]. rewrite <- El in *.
    destruct (bp_chain b) as [|b0 bps]; [discriminate|]. cbn [map] in U1. injection U1 as E0 E1.
    destruct (brk_sorted QcPows P l bs _ _ T2) as (Hs & Hlg).
    destruct (create_loop_total P l bps 0 (para_builder P)) as [((vb & ->) & _)|(_ & Hnn)].
    - destruct (map bp_pos bps); [exact Logic.I|lia].
    - rewrite E1. intros a Ha. apply legal_discardable. rewrite Forall_forall in Hlg. apply Hlg. apply in_rev in Ha. exact Ha.
    - rewrite E1. apply sorted_rev. exact Hs.
    - cbn. eauto.
    - rewrite E1 in Hnn. contradiction.
  Qed.

  Lemma selected_ok (w : viewer QcNum) P act : setup w = Ok P -> v_bps w = sorted act ->
    (forall b, In b act -> exists out, create_at P (v_list w) (bp_chain b) = Ok out) ->
    (0 <= v_value w <= Z.max 0 (Z.of_nat (List.length act) - 1))%Z -> exists w', selected w = Ok w'.
  Proof.
    intros S B C V. unfold selected. destruct (v_bps w) as [|x r] eqn:Eb; [eauto|].
    assert (L : List.length (x :: r) = List.length act) by (rewrite B; apply Permutation_length, sorted_perm).
    destruct (nth_error (x :: r) (Z.to_nat (v_value w))) as [b|] eqn:En.
    - rewrite S. cbn [bind]. destruct (C b) as (out & ->); [|cbn [bind]; eauto].
      apply (Permutation_in b (sorted_perm act)). rewrite <- B. eapply nth_error_In; eauto.
    - exfalso. apply nth_error_None in En. rewrite L in En. assert (List.length act <> 0%nat) by (rewrite <- L; discriminate). lia.
  Qed.
  Lemma set_value_ok (w : viewer QcNum) P act z : setup w = Ok P -> v_bps w = sorted act ->
    (forall b, In b act -> exists out, create_at P (v_list w) (bp_chain b) = Ok out) ->
    v_max w = Z.max 0 (Z.of_nat (List.length act) - 1) -> exists w', set_value w z = Ok w'.
  Proof.
    intros S B C M. unfold set_value. cbv zeta. destruct (_ =? _)%Z; [eauto|].
    apply (selected_ok _ P act); [exact S|exact B|exact C|]. cbn [v_value with_value]. unfold clamp. cbn [fst snd]. lia.
  Qed.

  Lemma process_ok (v : viewer QcNum) P cs act : v_text v <> [] ->
    decode_all debug char_signed (List.length (v_text v)) (v_text v) = Ok cs -> setup v = Ok P ->
    computeFeasibleBreakpoints QcPows P (prepare P (text_list (fm (v_french v)) cs)) = Ok act ->
    (forall b, In b act -> exists out, create_at P (prepare P (text_list (fm (v_french v)) cs)) (bp_chain b) = Ok out) ->
    exists v', process debug char_signed QcPows fm sorted v = Ok v'.
  Proof.
    intros Hne Hd HS Hf Hc. unfold process. destruct (v_text v) as [|c t] eqn:Et; [congruence|]. rewrite Hd, HS. cbn [bind]. rewrite Hf.
    set (l := prepare P (text_list (fm (v_french v)) cs)) in *. unfold set_range.
    destruct (set_value_ok (with_value (with_list v l (sorted act)) (v_value (with_list v l (sorted act)))
      (Z.max 0 (Z.of_nat (List.length act) - 1))) P act (v_value (with_list v l (sorted act)))) as (v1 & E1); [exact HS|reflexivity|exact Hc|reflexivity|].
    cbv zeta. rewrite E1. cbn [bind]. apply set_value_frame in E1; [|cbn; lia]. destruct E1 as (L1 & M1 & _).
    change ((inputs v1, v_list v1, v_bps v1) = (inputs v, l, sorted act)) in L1.
    assert (X1 : inputs v1 = inputs v /\ v_list v1 = l /\ v_bps v1 = sorted act) by (repeat split; congruence). destruct X1 as (X1 & W1 & B1).
    assert (S1 : setup v1 = Ok P) by (rewrite <- HS; apply setup_inputs; exact X1).
    cbn [v_max with_value] in M1.
    destruct (set_value_ok v1 P act 0%Z S1 B1) as (v2 & E2); [rewrite W1; exact Hc|exact M1|].
    rewrite E2. cbn [bind]. apply set_value_frame in E2; [|lia]. destruct E2 as (L2 & M2 & V2).
    change ((inputs v2, v_list v2, v_bps v2) = (inputs v1, v_list v1, v_bps v1)) in L2.
    assert (X2 : inputs v2 = inputs v1 /\ v_list v2 = l /\ v_bps v2 = sorted act) by (repeat split; congruence). destruct X2 as (X2 & W2 & B2).
    apply (selected_ok v2 P act).
    - rewrite <- S1. apply setup_inputs. exact X2.
    - exact B2.
    - rewrite W2. exact Hc.
    - lia.
  Qed.

  Lemma shape_lengths ws : Forall (fun p : Qc * Qc => (Q2Qc 10 <= snd p)%Qc) (shape_of (N := QcNum) to_float ws).
  Proof.
    assert (K : forall n (ws : list name), (List.length ws <= n)%nat -> Forall (fun p : Qc * Qc => (Q2Qc 10 <= snd p)%Qc) (shape_of (N := QcNum) to_float ws)).
    { induction n as [|n IH]; intros [|i [|w r]] L; cbn [List.length shape_of] in *; try constructor; try lia.
      - cbn [snd]. cbn [nltb QcNum]. change (nz (N := QcNum) 10) with (Q2Qc 10).
        destruct (Qc_ltb _ _) eqn:E; [apply Qc_ltb_lt in E; apply Qclt_le_weak; exact E|apply Qcle_refl].
      - apply IH. lia. }
    apply (K _ _ (le_n _)).
  Qed.
  Lemma parshape_lengths t : Forall (fun p : Qc * Qc => (Q2Qc 10 <= snd p)%Qc) (parseParshape (N := QcNum) to_float t).
  Proof. unfold parseParshape. destruct (Nat.even _); [apply shape_lengths|constructor]. Qed.

  Lemma lengths_positive (P : para QcNum) : p_hsize P = nz 800 ->
    Forall (fun p : Qc * Qc => (Q2Qc 10 <= snd p)%Qc) (p_parshape P) ->
    (p_parshape P = [] -> - Q2Qc 800 < p_hangindent P < Q2Qc 800)%Qc ->
    forall n, (0 < linelength P n)%Qc.
  Proof.
    intros Hh Hp Hi n. unfold linelength. rewrite Hh. change (nz (N := QcNum) 800) with (Q2Qc 800).
    destruct (p_parshape P) as [|x r] eqn:E.
    - specialize (Hi eq_refl). destruct Hi as [Hi1 Hi2]. destruct (_ && _)%bool; [|reflexivity].
      cbn [nsub nabs QcNum]. clear - Hi1 Hi2. revert Hi1 Hi2. generalize (p_hangindent P).
      intros h Hi1 Hi2. unfold nabs. destruct (nltb h n0); unfold nopp; cbn [nsub QcNum]; clear - Hi1 Hi2.
      + apply Qclt_minus_iff in Hi1. replace (h + - - Q2Qc 800)%Qc with (Q2Qc 800 - Q2Qc (inject_Z (-1)) * h)%Qc in Hi1; [exact Hi1|].
        change (Q2Qc (inject_Z (-1))) with (- (1))%Qc. ring.
      + apply Qclt_minus_iff in Hi2. exact Hi2.
    - assert (K : (Q2Qc 10 <= snd (parshape_at P n))%Qc).
      { unfold parshape_at. rewrite E. rewrite Forall_forall in Hp. destruct (Nat.leb _ _) eqn:El.
        - apply Hp. destruct (exists_last (l := x :: r)) as (l' & a & El'); [discriminate|]. rewrite El'. rewrite last_last. apply in_or_app. right. left. reflexivity.
        - apply Hp. apply nth_In. apply Nat.leb_gt in El. exact El. }
      eapply Qclt_le_trans; [|exact K]. reflexivity.
  Qed.

  Theorem viewer_safe es v cs ss P : session es = Ok v -> Forall2 utf8 cs ss -> cs <> [] ->
    (debug = false \/ char_signed = false \/ Forall (fun c => c < 65536)%Z cs) ->
    settings v P ->
    (0 <= g_space (p_leftskip P))%Qc -> (0 <= g_space (p_rightskip P))%Qc ->
    g_stretch (p_leftskip P) = 0%Qc -> g_stretch (p_rightskip P) = 0%Qc ->
    (p_parshape P = [] -> - Q2Qc 800 < p_hangindent P < Q2Qc 800)%Qc ->
    (Z.of_nat (List.length cs + 3) * line_bound P (Z.max 100 (p_tolerance P)) 0 < int_max)%Z ->
    exists v', session (es ++ [EText (List.concat ss)]) = Ok v'.
  Proof.
    intros H HU Hne Hd HP L1 L2 L3 L4 Hh Hb. rewrite session_snoc, H. cbn [bind step].
    pose proof (session_inv _ _ _ _ _ _ _ _ es v H) as [(I1 & I2 & I3 & I4 & I5 & I6 & I7) _].
    pose proof HP as HP'. apply setup_settings in HP'. destruct HP as (A1 & A2 & A3 & A4 & A5 & A6 & A7 & _).
    set (xs := items_of (fm (v_french v)) 1000 cs).
    destruct (all_created P xs 0) as (act & Ea & Hc); try assumption; try lia.
    - apply items_nonempty. exact Hne.
    - apply items_ordinary. lia.
    - apply lengths_positive; [exact A5| |exact Hh]. rewrite A7, I7. apply parshape_lengths.
    - rewrite A1, I5. assert (K : forall L, (spin_of Tolerance L <= 20000)%Z).
      { clear. induction L as [|e L IH]; [cbn; lia|]. destruct e; cbn [spin_of]; try exact IH; [|cbn; lia].
        destruct (spin_eqb _ _); [cbn [spin_least spin_most]; lia|exact IH]. }
      specialize (K (rev es)). unfold int_max. lia.
    - intros p Hp. exfalso. eapply items_penalties. exists p. exact Hp.
    - unfold xs. rewrite items_length. exact Hb.
    - apply (process_ok (with_text v (List.concat ss)) P cs act).
      + cbn. eapply concat_nonempty; eauto.
      + cbn [v_text with_text]. apply decode_all_utf8; auto.
      + exact HP'.
      + cbn [v_french with_text]. rewrite text_list_items by apply codes. exact Ea.
      + cbn [v_french with_text]. rewrite text_list_items by apply codes. exact Hc.
  Qed.
End Safe.
