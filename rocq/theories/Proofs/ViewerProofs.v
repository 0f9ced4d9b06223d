(** Sessions of the linebreaks viewer. *)
From Coq Require Import List Ascii String ZArith QArith Qcanon Bool Sorted Permutation Arith Lia.
From Verif.Base Require Import Result Num.
From Verif.Model Require Import Token Glue Box Dimen DimenParser ListBuilders LineBreaks Unicode Viewer.
From Verif.Spec Require Import DimenSpec BoxSpec LineBreakSpec ViewerSpec.
From Verif.Proofs Require Import LineBreakOpt LineBreakCreate LineBreakMore.
Import ListNotations.

Lemma gfield_eqb_iff a b : gfield_eqb a b = true <-> a = b.
Proof. destruct a, b; cbn; split; congruence. Qed.
Lemma dfield_eqb_iff a b : dfield_eqb a b = true <-> a = b.
Proof. destruct a, b; cbn; split; congruence. Qed.
Lemma spin_eqb_iff a b : spin_eqb a b = true <-> a = b.
Proof. destruct a, b; cbn; split; congruence. Qed.
Lemma name_eqb_iff a b : name_eqb a b = true <-> a = b.
Proof. unfold name_eqb. destruct (list_eq_dec ascii_dec a b); split; congruence. Qed.

(** * The last good text *)
Section Last.
  Context {A : Type} (good : name -> A -> Prop).
  Hypothesis fn : forall t a b, good t a -> good t b -> a = b.

  Lemma last_good_fn r : forall a b, last_good good r a -> last_good good r b -> a = b.
  Proof.
    induction r as [|t r IH]; intros a b Ha Hb; inversion Ha as [? ? ? Ga|? ? ? Na La]; subst; inversion Hb as [? ? ? Gb|? ? ? Nb Lb]; subst.
    - eapply fn; eauto.
    - exfalso. exact (Nb _ Ga).
    - exfalso. exact (Na _ Gb).
    - apply IH; assumption.
  Qed.
  Lemma last_good_dup t r a : last_good good (t :: t :: r) a <-> last_good good (t :: r) a.
  Proof.
    split; intros H; inversion H as [? ? ? G|? ? ? Ng L]; subst.
    - constructor; exact G.
    - exact L.
    - constructor; exact G.
    - constructor 2; [exact Ng|exact H].
  Qed.
  Lemma last_good_ext (good' : name -> A -> Prop) r a : (forall t b, good t b <-> good' t b) ->
    last_good good r a -> last_good good' r a.
  Proof.
    intros E H. induction H as [t r a G|t r a Ng L IH].
    - constructor. apply E. exact G.
    - constructor 2; [|exact IH]. intros b G. apply (Ng b). apply E. exact G.
  Qed.
End Last.

Section V.
  Context {N : Num}.
  Variable in_range : Q -> bool.
  Variables debug char_signed : bool.
  Variable pw : pows N.
  Variable us : unitsystem N.
  Variable fm : bool -> hmetrics N.
  Variable sorted : list (bp N) -> list (bp N).
  Variable to_float : name -> option N.
  Notation step := (step in_range debug char_signed pw us fm sorted to_float).
  Notation process := (process debug char_signed pw fm sorted).
  Notation parameter_changed := (parameter_changed in_range debug char_signed pw us fm sorted).
  Notation rg := (read_glue in_range us).
  Notation rd := (read_dimen in_range us).
  Notation ggood := (fun t g => rg t = Ok (Some g)).
  Notation dgood := (fun t x => rd t = Ok (Some x)).

  Lemma spin_clamp s z : clamp (spin_range s) z = Z.max (spin_least s) (Z.min z (spin_most s)).
  Proof. destruct s; reflexivity. Qed.
  Definition texts (v : viewer N) := (v_text v, v_gtext v, v_dtext v, v_ptext v, v_spin v, v_french v, v_parshape v).
  Definition inputs (v : viewer N) := (texts v, v_glue v, v_dimen v).

  Lemma selected_inputs v v' : selected v = Ok v' -> inputs v' = inputs v.
  Proof.
    unfold selected. destruct (v_bps v); [intros H; injection H as <-; reflexivity|].
    destruct (nth_error _ _); [|discriminate]. intros H. apply bind_Ok in H. destruct H as (P & _ & H).
    apply bind_Ok in H. destruct H as (l' & _ & H). injection H as <-. reflexivity.
  Qed.
  Lemma set_value_inputs v z v' : set_value v z = Ok v' -> inputs v' = inputs v.
  Proof.
    unfold set_value. cbv zeta. destruct (_ =? _)%Z; [intros H; injection H as <-; reflexivity|].
    intros H. apply selected_inputs in H. exact H.
  Qed.
  Lemma set_range_inputs v m v' : set_range v m = Ok v' -> inputs v' = inputs v.
  Proof. unfold set_range. cbv zeta. intros H. apply set_value_inputs in H. exact H. Qed.
  Lemma process_inputs v v' : process v = Ok v' -> inputs v' = inputs v.
  Proof.
    unfold Viewer.process. destruct (v_text v) as [|c t] eqn:Et; [intros H; injection H as <-; reflexivity|].
    destruct (decode_all _ _ _ _) as [cs| | | |]; try discriminate; [|intros H; injection H as <-; reflexivity].
    intros H. apply bind_Ok in H. destruct H as (P & _ & H).
    destruct (computeFeasibleBreakpoints _ _ _) as [act| | | |]; try discriminate; [|injection H as <-; reflexivity].
    apply bind_Ok in H. destruct H as (v1 & H1 & H). apply bind_Ok in H. destruct H as (v2 & H2 & H).
    apply selected_inputs in H. apply set_value_inputs in H2. apply set_range_inputs in H1. rewrite H, H2, H1. reflexivity.
  Qed.

  (** * The values of the fields *)
  Definition gholds (r : list name) (o : option (glue N)) : Prop := forall g, o = Some g <-> last_good ggood r g.
  Definition dholds (r : list name) (y : N) : Prop := forall x, last_good dgood r x -> y = x.
  Lemma ggood_fn t (a b : glue N) : rg t = Ok (Some a) -> rg t = Ok (Some b) -> a = b.
  Proof. congruence. Qed.
  Lemma dgood_fn t (a b : N) : rd t = Ok (Some a) -> rd t = Ok (Some b) -> a = b.
  Proof. congruence. Qed.

  (** the part of a list of texts after which a value is up to date *)
  Definition gready (v : viewer N) (T : gfield -> list name) (f : gfield) : Prop :=
    exists r, T f = v_gtext v f :: r /\ (gholds r (v_glue v f) \/ gholds (T f) (v_glue v f)).
  Definition dready (v : viewer N) (D : dfield -> list name) (f : dfield) : Prop :=
    exists r, D f = v_dtext v f :: r /\ (dholds r (v_dimen v f) \/ dholds (D f) (v_dimen v f)).

  Lemma write_glue_holds f v v' T : write_glue in_range us f v = Ok v' -> (forall f, gready v T f) ->
    gholds (T f) (v_glue v' f) /\ (forall f', gready v' T f') /\ (forall f', f' <> f -> v_glue v' f' = v_glue v f') /\
    texts v' = texts v /\ v_dimen v' = v_dimen v.
  Proof.
    unfold write_glue. intros H R. apply bind_Ok in H. destruct H as (o & Ho & H).
    destruct (R f) as (r & Er & Hr).
    assert (G : gholds (T f) (match o with Some g => Some g | None => v_glue v f end)).
    { destruct o as [g|].
      - intros g'. rewrite Er. split.
        + intros E. injection E as <-. constructor. exact Ho.
        + intros L. inversion L as [? ? ? G|? ? ? Ng L']; subst; [congruence|]. exfalso. apply (Ng g). exact Ho.
      - destruct Hr as [Hr|Hr]; [|exact Hr]. intros g'. rewrite (Hr g'), Er. split; intros L.
        + constructor 2; [|exact L]. intros b E. congruence.
        + inversion L as [? ? ? G|? ? ? Ng L']; subst; [congruence|exact L']. }
    destruct o as [g|]; injection H as <-.
    - cbn [v_glue with_glue v_gtext v_dimen]. unfold update.
      assert (E : gfield_eqb f f = true) by (apply gfield_eqb_iff; reflexivity). rewrite E.
      split; [exact G|]. split; [|split; [|split; reflexivity]].
      + intros f'. destruct (R f') as (r' & E' & R'). exists r'. split; [exact E'|]. cbn [v_glue with_glue]. unfold update.
        destruct (gfield_eqb f' f) eqn:Ef; [|exact R']. apply gfield_eqb_iff in Ef. subst f'. right. exact G.
      + intros f' Nf. destruct (gfield_eqb f' f) eqn:Ef; [|reflexivity]. apply gfield_eqb_iff in Ef. congruence.
    - split; [exact G|]. split; [exact R|]. auto.
  Qed.
  Lemma write_dimen_holds f v v' D : write_dimen in_range us f v = Ok v' -> (forall f, dready v D f) ->
    dholds (D f) (v_dimen v' f) /\ (forall f', dready v' D f') /\ (forall f', f' <> f -> v_dimen v' f' = v_dimen v f') /\
    texts v' = texts v /\ v_glue v' = v_glue v.
  Proof.
    unfold write_dimen. intros H R. apply bind_Ok in H. destruct H as (o & Ho & H).
    destruct (R f) as (r & Er & Hr).
    assert (G : dholds (D f) (match o with Some g => g | None => v_dimen v f end)).
    { destruct o as [g|].
      - intros g'. rewrite Er. intros L. inversion L as [? ? ? G|? ? ? Ng L']; subst; [congruence|]. exfalso. apply (Ng g). exact Ho.
      - destruct Hr as [Hr|Hr]; [|exact Hr]. intros g'. rewrite Er. intros L. apply Hr.
        inversion L as [? ? ? G|? ? ? Ng L']; subst; [congruence|exact L']. }
    destruct o as [g|]; injection H as <-.
    - cbn [v_dimen with_dimen v_dtext v_glue]. unfold update.
      assert (E : dfield_eqb f f = true) by (apply dfield_eqb_iff; reflexivity). rewrite E.
      split; [exact G|]. split; [|split; [|split; reflexivity]].
      + intros f'. destruct (R f') as (r' & E' & R'). exists r'. split; [exact E'|]. cbn [v_dimen with_dimen]. unfold update.
        destruct (dfield_eqb f' f) eqn:Ef; [|exact R']. apply dfield_eqb_iff in Ef. subst f'. right. exact G.
      + intros f' Nf. destruct (dfield_eqb f' f) eqn:Ef; [|reflexivity]. apply dfield_eqb_iff in Ef. congruence.
    - split; [exact G|]. split; [exact R|]. auto.
  Qed.

  Definition read_all (v : viewer N) : result (viewer N) :=
    do v <- write_glue in_range us LeftSkip v;
    do v <- write_glue in_range us RightSkip v;
    do v <- write_glue in_range us BaselineSkip v;
    do v <- write_glue in_range us LineSkip v;
    do v <- write_dimen in_range us LineSkipLimit v;
    write_dimen in_range us HangIndent v.
  Lemma parameter_changed_read v v' : parameter_changed v = Ok v' <-> exists w, read_all v = Ok w /\ process w = Ok v'.
  Proof.
    unfold Viewer.parameter_changed, read_all. split.
    - intros H. repeat (apply bind_Ok in H; let w := fresh "w" in let E := fresh "E" in destruct H as (w & E & H); rewrite E; cbn [bind]; clear E).
      eexists. split; [reflexivity|exact H].
    - intros (u & H & P). repeat (apply bind_Ok in H; let w := fresh "w" in let E := fresh "E" in destruct H as (w & E & H); rewrite E; cbn [bind]; clear E).
      rewrite H. exact P.
  Qed.

  Lemma gready_frame v v' T : texts v' = texts v -> v_glue v' = v_glue v -> (forall f, gready v T f) -> forall f, gready v' T f.
  Proof.
    intros E G R f. destruct (R f) as (r & Er & Hr). exists r. rewrite G. injection E as _ -> _ _ _ _ _. auto.
  Qed.
  Lemma dready_frame v v' D : texts v' = texts v -> v_dimen v' = v_dimen v -> (forall f, dready v D f) -> forall f, dready v' D f.
  Proof.
    intros E G R f. destruct (R f) as (r & Er & Hr). exists r. rewrite G. injection E as _ _ -> _ _ _ _. auto.
  Qed.

  Lemma read_all_holds v v' T D : read_all v = Ok v' -> (forall f, gready v T f) -> (forall f, dready v D f) ->
    (forall f, gholds (T f) (v_glue v' f)) /\ (forall f, dholds (D f) (v_dimen v' f)) /\ texts v' = texts v.
  Proof.
    unfold read_all. intros H RG RD.
    apply bind_Ok in H. destruct H as (v1 & H1 & H). destruct (write_glue_holds _ _ _ T H1 RG) as (G1 & R1 & U1 & X1 & Y1).
    apply bind_Ok in H. destruct H as (v2 & H2 & H). destruct (write_glue_holds _ _ _ T H2 R1) as (G2 & R2 & U2 & X2 & Y2).
    apply bind_Ok in H. destruct H as (v3 & H3 & H). destruct (write_glue_holds _ _ _ T H3 R2) as (G3 & R3 & U3 & X3 & Y3).
    apply bind_Ok in H. destruct H as (v4 & H4 & H). destruct (write_glue_holds _ _ _ T H4 R3) as (G4 & R4 & U4 & X4 & Y4).
    assert (RD4 : forall f, dready v4 D f) by (apply (dready_frame v v4 D); [congruence|congruence|exact RD]).
    apply bind_Ok in H. destruct H as (v5 & H5 & H). destruct (write_dimen_holds _ _ _ D H5 RD4) as (G5 & R5 & U5 & X5 & Y5).
    destruct (write_dimen_holds _ _ _ D H R5) as (G6 & R6 & U6 & X6 & Y6).
    split; [|split; [|congruence]].
    - rewrite Y6, Y5. intros []; auto.
      + rewrite U4, U3, U2 by discriminate. exact G1.
      + rewrite U4, U3 by discriminate. exact G2.
      + rewrite U4 by discriminate. exact G3.
    - intros []; auto. rewrite U6 by discriminate. exact G5.
  Qed.

  (** * Histories *)
  Definition T (L : list event) (f : gfield) : list name := gtexts f L ++ [gtext_default f].
  Definition D (L : list event) (f : dfield) : list name := dtexts f L ++ [dtext_default f].
  Definition texts_inv (v : viewer N) (L : list event) : Prop :=
    v_text v = text_of L /\
    (forall f, hd [] (T L f) = v_gtext v f) /\ (forall f, hd [] (D L f) = v_dtext v f) /\
    v_ptext v = ptext_of L /\ (forall s, v_spin v s = spin_of s L) /\ v_french v = french_of L /\
    v_parshape v = parseParshape to_float (v_ptext v).
  Definition values_inv (v : viewer N) (L : list event) : Prop :=
    (forall f, gholds (T L f) (v_glue v f)) /\ (forall f, dholds (D L f) (v_dimen v f)).
  Definition inv v L := texts_inv v L /\ values_inv v L.

  Lemma T_cons L f : exists t r, T L f = t :: r.
  Proof. unfold T. destruct (gtexts f L); cbn; eauto. Qed.
  Lemma D_cons L f : exists t r, D L f = t :: r.
  Proof. unfold D. destruct (dtexts f L); cbn; eauto. Qed.

  Lemma parameter_inv v v' L : parameter_changed v = Ok v' -> texts_inv v L ->
    (forall f, gready v (T L) f) -> (forall f, dready v (D L) f) -> inv v' L.
  Proof.
    intros H TI RG RD. apply parameter_changed_read in H. destruct H as (w & R & P).
    destruct (read_all_holds v w (T L) (D L) R RG RD) as (G & Dm & E).
    apply process_inputs in P. injection P as E1 E2 E3 E4 E5 E6 E7 E8 E9.
    injection E as F1 F2 F3 F4 F5 F6 F7. split.
    - unfold texts_inv. rewrite E1, E2, E3, E4, E5, E6, E7, F1, F2, F3, F4, F5, F6, F7. exact TI.
    - unfold values_inv. rewrite E8, E9. auto.
  Qed.
  (** what is up to date is ready *)
  Lemma inv_ready v L : texts_inv v L -> values_inv v L -> (forall f, gready v (T L) f) /\ (forall f, dready v (D L) f).
  Proof.
    intros (_ & HT & HD & _) (VG & VD). split; intros f.
    - destruct (T_cons L f) as (t & r & E). exists r. specialize (HT f). rewrite E in HT. cbn in HT. subst t. split; [exact E|right; apply VG].
    - destruct (D_cons L f) as (t & r & E). exists r. specialize (HD f). rewrite E in HD. cbn in HD. subst t. split; [exact E|right; apply VD].
  Qed.

  (** The events that set one thing *)
  Definition single (e : event) : Prop := match e with EReset => False | _ => True end.

  Lemma step_inv1 v e v' L : single e -> step v e = Ok v' -> inv v L -> inv v' (e :: L).
  Proof.
    intros Se H [TI VI]. pose proof (inv_ready v L TI VI) as [RG RD].
    destruct TI as (I1 & I2 & I3 & I4 & I5 & I6 & I7). destruct VI as [VG VD].
    destruct e as [t|f t|f t|t|s z|b|z|]; cbn [Viewer.step] in H; [| | | | | | |destruct Se].
    - apply process_inputs in H. injection H as E1 E2 E3 E4 E5 E6 E7 E8 E9. split.
      + unfold texts_inv. rewrite E1, E2, E3, E4, E5, E6, E7. split; [reflexivity|]. repeat split; assumption.
      + unfold values_inv. rewrite E8, E9. split; assumption.
    - unfold set_gtext in H. destruct (name_eqb t (v_gtext v f)) eqn:Eq.
      + apply name_eqb_iff in Eq. injection H as <-. destruct (RG f) as (r & Er & _).
        assert (Tf : forall f', T (EGlue f t :: L) f' = if gfield_eqb f' f then t :: T L f' else T L f').
        { intros f'. unfold T. cbn [gtexts]. destruct (gfield_eqb f' f); reflexivity. }
        split.
        * unfold texts_inv. split; [exact I1|]. split; [|repeat split; assumption]. intros f'. rewrite Tf.
          destruct (gfield_eqb f' f) eqn:Ef; [|apply I2]. apply gfield_eqb_iff in Ef. subst f'. exact Eq.
        * split; [|exact VD]. intros f'. rewrite Tf. destruct (gfield_eqb f' f) eqn:Ef; [|apply VG].
          apply gfield_eqb_iff in Ef. subst f'. intros g. rewrite (VG f g), Er, <- Eq. symmetry. apply last_good_dup.
      + eapply parameter_inv; [exact H| | |].
        * unfold texts_inv. split; [exact I1|]. split; [|repeat split; assumption]. intros f'. unfold T. cbn [gtexts with_gtext v_gtext]. unfold update.
          destruct (gfield_eqb f' f) eqn:Ef; [reflexivity|apply I2].
        * intros f'. unfold gready. cbn [with_gtext v_gtext v_glue]. unfold update, T. cbn [gtexts].
          destruct (gfield_eqb f' f) eqn:Ef; [|apply RG]. eexists. split; [reflexivity|]. left. apply VG.
        * exact RD.
    - unfold set_dtext in H. destruct (name_eqb t (v_dtext v f)) eqn:Eq.
      + apply name_eqb_iff in Eq. injection H as <-. destruct (RD f) as (r & Er & _).
        assert (Tf : forall f', D (EDimen f t :: L) f' = if dfield_eqb f' f then t :: D L f' else D L f').
        { intros f'. unfold D. cbn [dtexts]. destruct (dfield_eqb f' f); reflexivity. }
        split.
        * unfold texts_inv. split; [exact I1|]. split; [exact I2|]. split; [|repeat split; assumption]. intros f'. rewrite Tf.
          destruct (dfield_eqb f' f) eqn:Ef; [|apply I3]. apply dfield_eqb_iff in Ef. subst f'. exact Eq.
        * split; [exact VG|]. intros f'. rewrite Tf. destruct (dfield_eqb f' f) eqn:Ef; [|apply VD].
          apply dfield_eqb_iff in Ef. subst f'. intros x Hx. apply VD. rewrite Er, <- Eq in *. apply last_good_dup. exact Hx.
      + eapply parameter_inv; [exact H| | |].
        * unfold texts_inv. split; [exact I1|]. split; [exact I2|]. split; [|repeat split; assumption]. intros f'. unfold D. cbn [dtexts with_dtext v_dtext]. unfold update.
          destruct (dfield_eqb f' f) eqn:Ef; [reflexivity|apply I3].
        * exact RG.
        * intros f'. unfold dready. cbn [with_dtext v_dtext v_dimen]. unfold update, D. cbn [dtexts].
          destruct (dfield_eqb f' f) eqn:Ef; [|apply RD]. eexists. split; [reflexivity|]. left. apply VD.
    - unfold set_ptext in H. destruct (name_eqb t (v_ptext v)) eqn:Eq.
      + apply name_eqb_iff in Eq. injection H as <-. split; [|split; assumption]. repeat split; try assumption. symmetry. exact Eq.
      + eapply parameter_inv; [exact H| |exact RG|exact RD]. repeat split; assumption.
    - unfold set_spin in H. cbv zeta in H. destruct (_ =? _)%Z eqn:Eq.
      + injection H as <-. apply Z.eqb_eq in Eq. split; [|split; assumption]. repeat split; try assumption.
        intros s'. cbn [spin_of]. destruct (spin_eqb s' s) eqn:Es; [|apply I5]. apply spin_eqb_iff in Es. subst s'. symmetry. rewrite <- spin_clamp. exact Eq.
      + eapply parameter_inv; [exact H| |exact RG|exact RD]. repeat split; try assumption.
        intros s'. cbn [spin_of with_spin v_spin]. unfold update. destruct (spin_eqb s' s) eqn:Es; [|apply I5]. apply spin_eqb_iff in Es. subst s'. apply spin_clamp.
    - unfold set_french in H. destruct (Bool.eqb b (v_french v)) eqn:Eq.
      + injection H as <-. apply eqb_prop in Eq. split; [|split; assumption]. repeat split; try assumption. symmetry. exact Eq.
      + eapply parameter_inv; [exact H| |exact RG|exact RD]. repeat split; assumption.
    - apply set_value_inputs in H. injection H as E1 E2 E3 E4 E5 E6 E7 E8 E9. split.
      + unfold texts_inv. rewrite E1, E2, E3, E4, E5, E6, E7. repeat split; assumption.
      + unfold values_inv. rewrite E8, E9. split; assumption.
  Qed.

  Definition reset_events : list event :=
    [ESpin Tolerance 800; ESpin AdjDemerits 10000; ESpin LinePenalty 10; EParshape [];
     EGlue LeftSkip (str "0pt"); EGlue RightSkip (str "0pt"); EGlue BaselineSkip (str "12pt"); EGlue LineSkip (str "1pt");
     EDimen LineSkipLimit (str "0pt"); EDimen HangIndent (str "0pt"); ESpin HangAfter 1].
  Lemma bind_ok_r {A : Type} (r : result A) : (do x <- r; Ok x) = r.
  Proof. destruct r; reflexivity. Qed.
  Lemma reset_fold v : step v EReset = foldM step reset_events v.
  Proof.
    cbn [Viewer.step]. unfold reset, reset_events. cbn [foldM Viewer.step].
    repeat match goal with |- bind ?a _ = bind ?a _ => destruct a; cbn [bind]; try reflexivity end.
    symmetry. apply bind_ok_r.
  Qed.

  Lemma fold_inv1 es : forall v v' L, Forall single es -> foldM step es v = Ok v' -> inv v L -> inv v' (rev es ++ L).
  Proof.
    induction es as [|e es IH]; intros v v' L Hs H Hi; cbn [foldM] in H.
    - injection H as <-. exact Hi.
    - apply bind_Ok in H. destruct H as (w & Hw & H). cbn [rev]. rewrite <- app_assoc. cbn [app].
      apply (IH w v'); [apply Forall_inv_tail in Hs; exact Hs|exact H|]. eapply step_inv1; eauto. apply Forall_inv in Hs. exact Hs.
  Qed.
  Lemma reset_single : Forall single reset_events.
  Proof. repeat constructor. Qed.

  Lemma step_inv v e v' L : step v e = Ok v' -> inv v L -> inv v' (e :: L).
  Proof.
    intros H Hi. destruct e as [t|f t|f t|t|s z|b|z|]; try (eapply step_inv1; eauto; exact Logic.I).
    rewrite reset_fold in H. pose proof (fold_inv1 _ _ _ L reset_single H Hi) as (TI & VG & VD).
    assert (ET : forall f, T (rev reset_events ++ L) f = T (EReset :: L) f) by (intros []; reflexivity).
    assert (ED : forall f, D (rev reset_events ++ L) f = D (EReset :: L) f) by (intros []; reflexivity).
    destruct TI as (I1 & I2 & I3 & I4 & I5 & I6 & I7). split; [|split].
    - split; [exact I1|]. split; [intros f; rewrite <- ET; apply I2|]. split; [intros f; rewrite <- ED; apply I3|].
      split; [exact I4|]. split; [|split; [exact I6|exact I7]]. intros s. rewrite I5. destruct s; reflexivity.
    - intros f. rewrite <- ET. apply VG.
    - intros f. rewrite <- ED. apply VD.
  Qed.
  Lemma fold_inv es : forall v v' L, foldM step es v = Ok v' -> inv v L -> inv v' (rev es ++ L).
  Proof.
    induction es as [|e es IH]; intros v v' L H Hi; cbn [foldM] in H.
    - injection H as <-. exact Hi.
    - apply bind_Ok in H. destruct H as (w & Hw & H). cbn [rev]. rewrite <- app_assoc. cbn [app].
      apply (IH w v'); [exact H|]. eapply step_inv; eauto.
  Qed.
  Notation window := (window in_range debug char_signed pw us fm sorted).
  Notation session := (session in_range debug char_signed pw us fm sorted to_float).
  Lemma window_inv v : window = Ok v -> inv v [].
  Proof.
    unfold Viewer.window. intros H. eapply parameter_inv; [exact H| | |].
    - repeat split; try (intros []; reflexivity). 
    - intros f. exists []. split; [destruct f; reflexivity|]. left. intros g. split; [discriminate|intros L; inversion L].
    - intros f. exists []. split; [destruct f; reflexivity|]. left. intros x L. inversion L.
  Qed.
  Theorem session_inv es v : session es = Ok v -> inv v (rev es).
  Proof.
    unfold Viewer.session. intros H. apply bind_Ok in H. destruct H as (w & Hw & H).
    rewrite <- (app_nil_r (rev es)). eapply fold_inv; eauto. apply window_inv. exact Hw.
  Qed.

  (** * What is shown *)
  Hypothesis sorted_perm : forall l, Permutation (sorted l) l.

  Definition fresh (v : viewer N) : Prop := exists cs P act,
    decode_all debug char_signed (List.length (v_text v)) (v_text v) = Ok cs /\ setup v = Ok P /\
    v_list v = prepare P (text_list (fm (v_french v)) cs) /\
    computeFeasibleBreakpoints pw P (v_list v) = Ok act /\ v_bps v = sorted act /\
    v_max v = Z.max 0 (Z.of_nat (List.length act) - 1) /\ (0 <= v_value v <= v_max v)%Z /\
    (act = [] \/ exists (b : bp N) out, nth_error (v_bps v) (Z.to_nat (v_value v)) = Some b /\
       create_at P (v_list v) (bp_chain b) = Ok out /\ v_box v = Some (vbox out) /\ v_label v = Some (bp_dem b)).
  Definition no_text (v : viewer N) : Prop :=
    v_text v = [] \/ decode_all debug char_signed (List.length (v_text v)) (v_text v) = Throw.

  Lemma setup_inputs v v' : inputs v' = inputs v -> setup v' = setup v.
  Proof. intros E. injection E as E1 E2 E3 E4 E5 E6 E7 E8 E9. unfold setup. rewrite E5, E7, E8, E9. reflexivity. Qed.

  Definition lists (v : viewer N) := (inputs v, v_list v, v_bps v).
  Lemma selected_frame v v' : selected v = Ok v' -> lists v' = lists v /\ v_value v' = v_value v /\ v_max v' = v_max v.
  Proof.
    unfold selected. destruct (v_bps v); [intros H; injection H as <-; auto|].
    destruct (nth_error _ _); [|discriminate]. intros H. apply bind_Ok in H. destruct H as (P & _ & H).
    apply bind_Ok in H. destruct H as (l' & _ & H). injection H as <-. auto.
  Qed.
  Lemma set_value_frame v z v' : (0 <= v_max v)%Z -> set_value v z = Ok v' ->
    lists v' = lists v /\ v_max v' = v_max v /\ v_value v' = Z.max 0 (Z.min z (v_max v)).
  Proof.
    unfold set_value. cbv zeta. intros M. unfold clamp; cbn [fst snd]. destruct (_ =? _)%Z eqn:E.
    - intros H; injection H as <-. apply Z.eqb_eq in E. auto.
    - intros H. apply selected_frame in H. destruct H as (H1 & H2 & H3). auto.
  Qed.
  Lemma selected_shows v v' P : selected v = Ok v' -> setup v = Ok P ->
    v_bps v = [] \/ exists (b : bp N) out, nth_error (v_bps v) (Z.to_nat (v_value v)) = Some b /\
       create_at P (v_list v) (bp_chain b) = Ok out /\ v_box v' = Some (vbox out) /\ v_label v' = Some (bp_dem b).
  Proof.
    unfold selected. destruct (v_bps v) as [|x r] eqn:Eb; [auto|]. rewrite <- Eb. intros H S. right.
    destruct (nth_error _ _) as [b|]; [|discriminate]. rewrite S in H. cbn [bind] in H.
    apply bind_Ok in H. destruct H as (out & Ho & H). injection H as <-. exists b, out. auto.
  Qed.

  Lemma process_shown v v' : process v = Ok v' -> no_text v' \/ (fresh v' /\ v_value v' = 0%Z).
  Proof.
    intros H. pose proof (process_inputs v v' H) as I. pose proof (setup_inputs _ _ I) as S.
    unfold Viewer.process in H. destruct (v_text v) as [|c t] eqn:Et.
    { injection H as <-. left. left. exact Et. }
    assert (Et' : v_text v' = v_text v) by (injection I; auto).
    assert (Ef : v_french v' = v_french v) by (injection I; auto).
    rewrite <- Et in H. destruct (decode_all _ _ _ _) as [cs| | | |] eqn:Ed; try discriminate.
    2: { injection H as <-. left. right. exact Ed. }
    right. apply bind_Ok in H. destruct H as (P & HP & H).
    destruct (computeFeasibleBreakpoints _ _ _) as [act| | | |] eqn:Ea; try discriminate.
    2: { exfalso. destruct (feasible_cases pw P (prepare P (text_list (fm (v_french v)) cs))) as [[o E]|E]; congruence. }
    apply bind_Ok in H. destruct H as (v1 & H1 & H). apply bind_Ok in H. destruct H as (v2 & H2 & H).
    unfold set_range in H1. cbv zeta in H1.
    apply set_value_frame in H1; [|cbn; lia]. destruct H1 as (L1 & M1 & V1). cbn [v_max with_value v_value with_list] in M1, V1.
    apply set_value_frame in H2; [|lia]. destruct H2 as (L2 & M2 & V2).
    pose proof (selected_frame _ _ H) as (L3 & V3 & M3).
    assert (V2' : v_value v2 = 0%Z) by lia.
    assert (X : inputs v2 = inputs v /\ v_list v2 = prepare P (text_list (fm (v_french v)) cs) /\ v_bps v2 = sorted act).
    { assert (X : (inputs v2, v_list v2, v_bps v2) = (inputs v, prepare P (text_list (fm (v_french v)) cs), sorted act)).
      { etransitivity; [exact L2|]. etransitivity; [exact L1|]. reflexivity. }
      repeat split; congruence. }
    destruct X as (Xi & Xl & Xb).
    assert (S2 : setup v2 = Ok P) by (rewrite <- HP; apply setup_inputs; exact Xi).
    assert (Y : v_list v' = v_list v2 /\ v_bps v' = v_bps v2).
    { unfold lists in L3. split; congruence. }
    destruct Y as [Yl Yb].
    split; [|congruence]. exists cs, P, act. rewrite Et', Ef, Yl, Yb, Xl, Xb. split; [exact Ed|]. split; [congruence|]. split; [reflexivity|].
    split; [exact Ea|]. split; [reflexivity|]. split; [congruence|]. split; [lia|].
    destruct (selected_shows v2 v' P H S2) as [E|(b & out & E1 & E2 & E3 & E4)].
    - left. rewrite Xb in E. apply Permutation_nil. rewrite <- E. apply sorted_perm.
    - right. exists b, out. rewrite V3. rewrite Xl in E2. rewrite Xb in E1. auto.
  Qed.
  Definition shown v := no_text v \/ fresh v.

  Lemma parameter_shown v v' : parameter_changed v = Ok v' -> shown v'.
  Proof.
    intros H. apply parameter_changed_read in H. destruct H as (w & _ & P). apply process_shown in P. unfold shown. tauto.
  Qed.
  Lemma select_shown v z v' : set_value v z = Ok v' -> shown v -> shown v'.
  Proof.
    intros H [Hn|Hf].
    - left. apply set_value_inputs in H. unfold no_text in *. injection H as -> _. exact Hn.
    - right. pose proof (set_value_inputs v z v' H) as I. pose proof (setup_inputs _ _ I) as S.
      destruct Hf as (cs & P & act & F1 & F2 & F3 & F4 & F5 & F6 & F7 & F8).
      pose proof H as H'. apply set_value_frame in H'; [|lia]. destruct H' as (L & M & V).
      assert (Y : v_list v' = v_list v /\ v_bps v' = v_bps v).
      { unfold lists in L. split; congruence. }
      destruct Y as [Yl Yb].
      assert (Et : v_text v' = v_text v) by (injection I; auto).
      assert (Ef : v_french v' = v_french v) by (injection I; auto).
      exists cs, P, act. rewrite Et, Ef, Yl, Yb, M. split; [exact F1|]. split; [congruence|]. split; [exact F3|]. split; [exact F4|].
      split; [exact F5|]. split; [exact F6|]. split; [lia|].
      unfold set_value in H. cbv zeta in H. unfold clamp in H; cbn [fst snd] in H. destruct (_ =? _)%Z eqn:E.
      + injection H as <-. exact F8.
      + destruct (selected_shows _ v' P H) as [Eb|(b & out & E1 & E2 & E3 & E4)].
        * exact F2.
        * left. cbn [with_value v_bps] in Eb. rewrite F5 in Eb. apply Permutation_nil. rewrite <- Eb. apply sorted_perm.
        * right. exists b, out. rewrite V. auto.
  Qed.
  Lemma step_shown1 v e v' : single e -> step v e = Ok v' -> shown v -> shown v'.
  Proof.
    intros Se H Hs. destruct e as [t|f t|f t|t|s z|b|z|]; cbn [Viewer.step] in H; [| | | | | | |destruct Se].
    - apply process_shown in H. unfold shown. tauto.
    - unfold set_gtext in H. destruct (name_eqb _ _); [injection H as <-; exact Hs|eapply parameter_shown; eauto].
    - unfold set_dtext in H. destruct (name_eqb _ _); [injection H as <-; exact Hs|eapply parameter_shown; eauto].
    - unfold set_ptext in H. destruct (name_eqb _ _); [injection H as <-; exact Hs|eapply parameter_shown; eauto].
    - unfold set_spin in H. cbv zeta in H. destruct (_ =? _)%Z; [injection H as <-; exact Hs|eapply parameter_shown; eauto].
    - unfold set_french in H. destruct (Bool.eqb _ _); [injection H as <-; exact Hs|eapply parameter_shown; eauto].
    - eapply select_shown; eauto.
  Qed.
  Lemma fold_shown1 es : forall v v', Forall single es -> foldM step es v = Ok v' -> shown v -> shown v'.
  Proof.
    induction es as [|e es IH]; intros v v' Hs H Hi; cbn [foldM] in H.
    - injection H as <-. exact Hi.
    - apply bind_Ok in H. destruct H as (w & Hw & H). apply (IH w v'); [apply Forall_inv_tail in Hs; exact Hs|exact H|].
      eapply step_shown1; eauto. apply Forall_inv in Hs. exact Hs.
  Qed.
  Lemma step_shown v e v' : step v e = Ok v' -> shown v -> shown v'.
  Proof.
    intros H Hi. destruct e as [t|f t|f t|t|s z|b|z|]; try (eapply step_shown1; eauto; exact Logic.I).
    rewrite reset_fold in H. apply (fold_shown1 reset_events v v' reset_single H Hi).
  Qed.
  Theorem session_shown es v : session es = Ok v -> shown v.
  Proof.
    unfold Viewer.session. intros H. apply bind_Ok in H. destruct H as (w & Hw & H). apply parameter_shown in Hw. clear - H Hw sorted_perm.
    revert w v H Hw. induction es as [|e es IH]; intros w v H Hi; cbn [foldM] in H.
    - injection H as <-. exact Hi.
    - apply bind_Ok in H. destruct H as (u & Hu & H). eapply IH; eauto. eapply step_shown; eauto.
  Qed.

  (** * The alternatives *)
  Lemma feasible_alternatives (P : para N) l act : computeFeasibleBreakpoints pw P l = Ok act ->
    StronglySorted (fun a b => (bp_dem a <= bp_dem b)%Z) (sorted act) -> alternatives pw P l (sorted act).
  Proof.
    intros H Hs. pose proof (feasible_inv pw P l act H) as HI. split; [|split; [|exact Hs]].
    - intros b Hb. apply (Permutation_in b (sorted_perm act)) in Hb. destruct HI as (_ & Hg & _).
      destruct (Hg b Hb) as (bs & e & H1 & H2 & H3 & H4 & H5 & H6 & H7). exists bs.
      destruct (chain_tracks pw P l b bs H1) as (T1 & _). split; [exact T1|]. split; [exact H2|]. eapply alive_complete; eauto.
    - intros bs f d Hb Hc. destruct (complete_active pw P l bs f d act HI Hb Hc) as (a & Ha & Hd). exists a. split; [|exact Hd].
      apply (Permutation_in a (Permutation_sym (sorted_perm act))). exact Ha.
  Qed.
  Lemma feasible_paragraph (P : para N) xs act b out : xs <> [] ->
    computeFeasibleBreakpoints pw P (prepare P xs) = Ok act -> In b act ->
    create_at P (prepare P xs) (bp_chain b) = Ok out ->
    exists bs, alternative pw P (prepare P xs) b bs /\ paragraph P xs (prepare P xs) bs out /\
      exists lines, out = vb_result (fold_left vb_push (line_nodes P 0 lines) (para_builder P)).
  Proof.
    intros Hne H Hb Hc. set (l := prepare P xs) in *. pose proof (feasible_inv pw P l act H) as (_ & Hg & _).
    destruct (Hg b Hb) as (bs & e & H1 & H2 & H3 & H4 & H5 & H6 & H7).
    destruct (chain_tracks pw P l b bs H1) as (T1 & T2 & _).
    pose proof (alive_complete P l bs e H3 H7) as Cp. exists bs. split; [split; [exact T1|split; assumption]|].
    destruct (prepare_forced P xs Hne) as (Hlen & Hf). fold l in Hlen, Hf.
    assert (Hl : l <> []) by (intros E; rewrite E in Hlen; discriminate).
    unfold create_at in Hc. destruct l as [|x l0] eqn:El; [congruence|]. rewrite <- El in *.
    destruct (bp_chain b) as [|b0 bps]; [discriminate|].
    unfold rmap in Hc. apply bind_Ok in Hc. destruct Hc as (vb & Hc & E). injection E as <-.
    cbn [map] in T1, T2. injection T1 as E0 E1. cbn [List.length seq] in T2. injection T2 as E2 E3.
    assert (Hlb : List.length bps = List.length bs).
    { rewrite <- (map_length bp_pos), E1, rev_length. reflexivity. }
    rewrite <- Hlb in E3.
    destruct (create_loop_ok P l bps 0 0 _ vb E3 Hc) as (lines & Hcut & ->). rewrite E1 in Hcut.
    split; [|exists lines; reflexivity].
    exists lines. split; [exact Hcut|]. split.
    - pose proof (last_forced pw P _ bs _ _ _ H2 Cp Hlen Hf) as E.
      destruct bs as [|b1 bs]; [discriminate|]. simpl in E. inversion E as [E'].
      destruct (cut_keeps _ _ _ _ Hcut) as (Hk & _); [cbn; intros X; destruct (rev bs); discriminate|].
      rewrite Hk. cbn [rev]. rewrite last_last, items_0, E'. rewrite El. unfold l in El. rewrite <- El.
      rewrite (prepare_form P xs Hne). rewrite app_length. cbn [List.length].
      replace (pred (List.length (drop_last_glue xs) + 3)) with (List.length (drop_last_glue xs) + 2)%nat by lia.
      rewrite firstn_app_2. cbn [firstn]. rewrite filter_app. cbn [filter keeps]. rewrite app_nil_r.
      apply keeps_drop.
    - assert (E : filter keeps (vb_result (fold_left vb_push (line_nodes P 0 lines) (para_builder P))) = line_nodes P 0 lines).
      { rewrite push_keeps; [reflexivity|]. apply line_nodes_boxes. }
      rewrite E. split; [apply line_nodes_length|]. intros i its Hi. rewrite (line_nodes_nth P 0 lines i its Hi). reflexivity.
  Qed.

  (** * The list of a text *)
  Lemma text_items (m : hmetrics N) cs : (forall c, hm_sfcode m c = 0 \/ 1000 <= hm_sfcode m c)%Z ->
    forall b, (1000 <= hb_sf b)%Z -> hb_result (fold_left (push_text m) cs b) = hb_result b ++ items_of m (hb_sf b) cs.
  Proof.
    intros Hm. induction cs as [|c cs IH]; intros b Hb; cbn [fold_left items_of]; [rewrite app_nil_r; reflexivity|].
    unfold push_text at 2. destruct ((c =? 32) || (c =? 10))%Z.
    - rewrite IH by exact Hb. unfold hb_push_space, hb_push_glue. cbn [hb_result hb_sf]. rewrite <- app_assoc. reflexivity.
    - assert (E : hb_sf (hb_push_char m b c) = sf_after (hb_sf b) (hm_sfcode m c) /\ (1000 <= hb_sf (hb_push_char m b c))%Z).
      { unfold hb_push_char. cbn [hb_sf]. unfold sf_after. destruct (Hm c) as [E|E].
        - rewrite E. cbn. auto.
        - destruct (Z.eqb_spec (hm_sfcode m c) 0); [lia|]. cbn [negb]. destruct (Z.ltb_spec (hb_sf b) 1000); [lia|]. cbn [andb]. auto. }
      destruct E as [E1 E2]. rewrite IH by exact E2. rewrite E1. unfold hb_push_char at 1. cbn [hb_result]. rewrite <- app_assoc. reflexivity.
  Qed.
  Lemma text_list_items (m : hmetrics N) cs : (forall c, hm_sfcode m c = 0 \/ 1000 <= hm_sfcode m c)%Z -> text_list m cs = items_of m 1000 cs.
  Proof. intros Hm. unfold text_list. rewrite text_items; [reflexivity|exact Hm|cbn; lia]. Qed.
  Lemma items_nonempty m sf cs : cs <> [] -> items_of (N := N) m sf cs <> [].
  Proof. destruct cs as [|c cs]; [congruence|]. cbn [items_of]. destruct (_ || _); discriminate. Qed.
End V.
