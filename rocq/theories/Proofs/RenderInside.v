From Coq Require Import List QArith Qcanon ZArith Bool Lia.
From Verif.Base Require Import Result Num.
From Verif.Model Require Import Glue Box Layout Render.
From Verif.Spec Require Import BoxSpec RenderSpec.
From Verif.Proofs Require Import BoxProofs LayoutProofs RenderProofs.
Import ListNotations.
Local Open Scope Qc_scope.

Lemma packed_list k m s r o l : packed (NList k m s r o l) <-> sound (NList k m s r o l) /\ Forall packed l.
Proof.
  cbn [packed]. split; intros (A & B); (split; [exact A|]).
  - clear A. induction l as [|c l IH]; constructor; [apply B|apply IH, B].
  - clear A. induction B as [|c l H B IH]; split; assumption.
Qed.
Lemma packed_sound n : packed n -> sound n.
Proof. destruct n; cbn [packed]; tauto. Qed.

Lemma packed_glue l : Forall packed l -> glue_nonneg l.
Proof.
  intros F g I. rewrite Forall_forall in F. destruct (F _ I) as ((A & B & _) & _). split; assumption.
Qed.

Lemma tame_size r o g : tame g -> (o = Normal -> Q2Qc (inject_Z (-1)) <= r) -> 0 <= set_glue_size r o g.
Proof.
  unfold tame, set_glue_size. generalize (g_stretch g) as st, (g_shrink g) as sh, (g_space g) as sp. intros st sh sp.
  change (num QcNum) with Qc in *. intros (St & Sh & Sp & Or) R.
  assert (P : 0 <= sp) by (eapply Qcle_trans; eassumption).
  destruct (Qclt_le_dec r 0) as [L|L].
  - destruct (gorder_eqb_spec o (g_shrinkOrder g)) as [E|E]; [|exact P].
    destruct (Qc_eq_dec sh 0) as [Z|Z].
    { rewrite Z. replace (sp + r * 0) with sp by ring. exact P. }
    rewrite (Or Z) in E. specialize (R E).
    assert (M : Q2Qc (inject_Z (-1)) * sh <= r * sh) by (apply Qcmult_le_compat_r; assumption).
    revert M Sp. replace (Q2Qc (inject_Z (-1)) * sh) with (- sh).
    2:{ replace (Q2Qc (inject_Z (-1))) with (-(1)) by (apply Qc_is_canon; reflexivity). ring. }
    generalize (r * sh). intros x M Sp'. qclra.
  - destruct (gorder_eqb o (g_stretchOrder g)); [|exact P].
    assert (M : 0 * st <= r * st) by (apply Qcmult_le_compat_r; assumption).
    revert M. replace (0 * st) with 0 by ring. generalize (r * st). intros x M. qclra.
Qed.

Lemma ratio_bound x w l r o f v : glue_nonneg l -> glue_set x w (stretch_total l) (shrink_total l) r o f v ->
  o = Normal -> Q2Qc (inject_Z (-1)) <= r.
Proof.
  intros G H E. assert (Z : Q2Qc (inject_Z (-1)) <= 0) by discriminate.
  inversion H; subst; try exact Z; try discriminate.
  - eapply Qcle_trans; [exact Z|]. apply Qcdiv_sign.
    + destruct H1 as (A & _). apply nonzero_neq in A. destruct (totals_nonneg l Normal G) as (B & _).
      destruct (Qcle_lt_or_eq _ _ B) as [C|C]; [exact C|]. exfalso. apply A. symmetry. exact C.
    + clear -H0. qclra.
  - apply Qcnot_lt_le. apply H2. reflexivity.
Qed.

(** ** Horizontal lists *)
Definition hpackaged (m : metrics QcNum) (r : Qc) (o : gorder) (l : list (node QcNum)) : Prop :=
  (o = Normal -> Q2Qc (inject_Z (-1)) <= r) /\
  qsum (flat_map (set_width r o) l) = m_width m /\
  largest (flat_map item_height l) (m_height m) /\ largest (flat_map item_depth l) (m_depth m).

Lemma hbox_packaged m s r o l : sound (NList Horizontal m s r o l) -> Forall packed l -> hpackaged m r o l.
Proof.
  intros (b & [E|(w & E)] & -> & -> & ->) F; pose proof (packed_glue l F) as G; unfold hpackaged.
  - subst b. destruct (hbox_height_lemma l) as (A & B). split; [|split; [apply hbox_fills_lemma|split; assumption]].
    intros _. discriminate.
  - subst b. destruct (hbox_height_lemma l) as (A & B). destruct (hbox_to_same_vertical l w) as (C & D & _).
    rewrite C, D. split; [|split; [apply hbox_to_fills_lemma; exact G|split; assumption]].
    eapply ratio_bound; [exact G|apply hbox_to_glue_lemma].
Qed.

Definition vpackaged (m : metrics QcNum) (r : Qc) (o : gorder) (l : list (node QcNum)) : Prop :=
  (o = Normal -> Q2Qc (inject_Z (-1)) <= r) /\
  qsum (flat_map (set_extent r o) l) = m_height m + m_depth m /\
  largest (flat_map box_width l) (m_width m).

Lemma vbox_packaged m s r o l : sound (NList Vertical m s r o l) -> Forall packed l -> vpackaged m r o l.
Proof.
  intros (U & b & [E|(h & E)] & -> & -> & W & T) F; pose proof (packed_glue l F) as G; unfold vpackaged; rewrite W, T.
  - subst b. split; [intros _; discriminate|]. split; [apply vbox_fills_lemma|apply vbox_dims_lemma].
  - subst b. destruct (vbox_to_glue_lemma l h) as (A & B & C & _). cbv zeta in *.
    split; [eapply ratio_bound; [exact G|exact A]|]. split; [apply vbox_to_fills_lemma; exact G|].
    rewrite C. apply vbox_dims_lemma.
Qed.

(** every packed box has an area *)
Lemma packed_upright n m : packed n -> box_metrics n = Some m -> 0 <= m_width m /\ 0 <= m_height m + m_depth m.
Proof.
  revert m. induction n as [c m|m|m|x|g|q| |k m sh r o l IH] using node_ind2; intros m' P B; inversion B; subst m';
    try (apply packed_sound in P; exact P).
  apply packed_list in P as (S0 & F).
  assert (IW : forall n, In n l -> packed n /\ forall m, box_metrics n = Some m -> 0 <= m_width m /\ 0 <= m_height m + m_depth m).
  { intros n I. rewrite Forall_forall in F, IH. split; [now apply F|]. intros m0. now apply IH; [|apply F]. }
  destruct k.
  - destruct (hbox_packaged _ _ _ _ _ S0 F) as (R & W & (H & _) & (D & _)). split; [|qclra].
    rewrite <- W. apply qsum_nonneg. intros x I. apply in_flat_map in I as (n & I & X).
    destruct (IW n I) as (Pn & Bn). destruct n; cbn [set_width item_width In] in X; try contradiction;
      destruct X as [<-|[]]; try (apply (Bn _ eq_refl)).
    + exact (packed_sound _ Pn).
    + apply tame_size; [exact (packed_sound _ Pn)|exact R].
  - destruct (vbox_packaged _ _ _ _ _ S0 F) as (R & W & (H & _)). split; [exact H|].
    rewrite <- W. apply qsum_nonneg. intros x I. apply in_flat_map in I as (n & I & X).
    destruct (IW n I) as (Pn & Bn). destruct n; cbn [set_extent item_extent In] in X; try contradiction;
      destruct X as [<-|[]]; try (apply (Bn _ eq_refl)).
    + exact (packed_sound _ Pn).
    + apply tame_size; [exact (packed_sound _ Pn)|exact R].
Qed.

Lemma set_width_nonneg r o n : packed n -> (o = Normal -> Q2Qc (inject_Z (-1)) <= r) ->
  0 <= qsum (set_width r o n) /\ 0 <= qsum (set_extent r o n).
Proof.
  intros P R. destruct n; cbn [set_width set_extent item_width item_extent qsum fold_right];
    try (split; discriminate);
    try (destruct (packed_upright _ _ P eq_refl) as (A & B); cbn [nadd QcNum]; split; qclra).
  - apply packed_sound in P. cbn [sound] in P. cbn [num QcNum] in *. split; qclra.
  - apply packed_sound in P. pose proof (tame_size r o g P R). split; qclra.
Qed.

Lemma qsum_set_nonneg r o l : Forall packed l -> (o = Normal -> Q2Qc (inject_Z (-1)) <= r) ->
  0 <= qsum (flat_map (set_width r o) l) /\ 0 <= qsum (flat_map (set_extent r o) l).
Proof.
  intros F R. induction F as [|n l P F (A & B)]; [split; discriminate|].
  cbn [flat_map]. rewrite !qsum_app. destruct (set_width_nonneg r o n P R) as (C & D). split; qclra.
Qed.

Lemma within_refl a : within a a.
Proof. repeat split; apply Qcle_refl. Qed.
Lemma within_trans a b c : within a b -> within b c -> within a c.
Proof. intros (A & B & C & D) (E & F & G & H). repeat split; eapply Qcle_trans; eassumption. Qed.

Lemma h_within (px py x s rest W H D mw mh md : Qc) :
  px <= x -> x + (mw + rest) <= px + W -> 0 <= rest -> mh - s <= H -> md + s <= D ->
  px <= x /\ py - H <= py + s - mh /\ x + mw <= px + W /\ py + s + md <= py + D.
Proof. intros. repeat split; qclra. Qed.
Lemma v_within (px py y rest W H D mw mh md : Qc) :
  py - H <= y -> y + (mh + md + rest) <= py + D -> 0 <= rest -> mw <= W ->
  px <= px /\ py - H <= y + mh - mh /\ px + mw <= px + W /\ y + mh + md <= py + D.
Proof. intros. repeat split; qclra. Qed.
Lemma n_low (a x b : Qc) : a <= x -> 0 <= b -> a <= x + b.
Proof. intros. qclra. Qed.
Lemma n_high (c x b r : Qc) : x + (b + r) <= c -> x + b + r <= c.
Proof. intros. qclra. Qed.
Lemma sub_0 (a : Qc) : a - 0 = a.
Proof. ring. Qed.
Lemma v_whole (y h d : Qc) : y - h + (h + d) <= y + d.
Proof. qclra. Qed.

(** * Nothing sticks out of a packed box *)
Lemma nothing_sticks_out n : forall p v, packed n -> In v (layout (N := QcNum) n p) ->
  exists m0 m, box_metrics n = Some m0 /\ box_metrics (fst v) = Some m /\
    within (area_of m (snd v)) (area_of m0 p).
Proof.
  induction n as [c m|m|m|x|g|q| |k m sh r o l IH] using node_ind2; intros p v P I;
    rewrite layout_vis in I;
    try (destruct I as [<-|[]]; exists m, m; repeat split; apply Qcle_refl); try (cbn in I; contradiction).
  apply packed_list in P as (S0 & F). exists m.
  destruct k; [rewrite vis_h in I|rewrite vis_v in I]; (destruct I as [<-|I]; [exists m; repeat split; apply Qcle_refl|]);
    change (@num QcNum) with Qc in *.
  - destruct (hbox_packaged _ _ _ _ _ S0 F) as (R & W & (_ & H & _) & (_ & D & _)).
    assert (G : forall l' (x : Qc), Forall packed l' -> Forall (fun n => In n l) l' ->
      fst p <= x -> x + qsum (flat_map (set_width r o) l') <= fst p + m_width m ->
      In v (hvis (N := QcNum) vis r o (snd p) x l') -> exists m1, Some m = Some m /\ box_metrics (fst v) = Some m1 /\ within (area_of m1 (snd v)) (area_of m p)).
    { induction l' as [|c l' IHl]; intros x Fp Fi X1 X2 J; [contradiction|].
      inversion Fp as [|? ? Pc Fp']; inversion Fi as [|? ? Ic Fi']; subst.
      cbn [flat_map] in X2. rewrite qsum_app in X2.
      destruct (set_width_nonneg r o c Pc R) as (A & _). destruct (qsum_set_nonneg r o l' Fp' R) as (B & _).
      cbn [hvis] in J. apply in_app_or in J as [J|J].
      - rewrite Forall_forall in IH. rewrite <- layout_vis in J. destruct (IH c Ic _ _ Pc J) as (mc & m1 & Ec & E1 & Wi).
        exists m1. split; [reflexivity|]. split; [exact E1|]. eapply within_trans; [exact Wi|].
        assert (Q : forall s, hchild (N := QcNum) (snd p) x c = (x, snd p + s) -> qsum (set_width r o c) = m_width mc ->
                   m_height mc - s <= m_height m -> m_depth mc + s <= m_depth m ->
                   within (area_of mc (hchild (N := QcNum) (snd p) x c)) (area_of m p)).
        { intros s -> Ew Q1 Q2. rewrite Ew in X2. unfold within, area_of; cbn [fst snd a_left a_top a_right a_bottom].
          eapply h_within; eassumption. }
        destruct c; inversion Ec; subst mc; cbn [hchild] in *.
        1-3: apply (Q 0); [f_equal; symmetry; apply Qcplus_0_r|apply Qcplus_0_r| |].
        1,3,5: rewrite sub_0; apply H; apply in_flat_map; eexists; split; [exact Ic|left; reflexivity].
        1-3: rewrite Qcplus_0_r; apply D; apply in_flat_map; eexists; split; [exact Ic|left; reflexivity].
        apply (Q shift); [reflexivity|apply Qcplus_0_r| |].
        + apply H. apply in_flat_map. eexists; split; [exact Ic|left; reflexivity].
        + apply D. apply in_flat_map. eexists; split; [exact Ic|left; reflexivity].
      - apply (IHl (hnext (N := QcNum) r o x c)); auto; rewrite hnext_set; [eapply n_low|eapply n_high]; eassumption. }
    apply (G l (fst p) F); [apply Forall_forall; auto|apply Qcle_refl|rewrite W; apply Qcle_refl|exact I].
  - destruct (vbox_packaged _ _ _ _ _ S0 F) as (R & W & (_ & H & _)). destruct S0 as (U & _).
    assert (G : forall l' (y : Qc), Forall packed l' -> Forall (fun n => In n l) l' ->
      snd p - m_height m <= y -> y + qsum (flat_map (set_extent r o) l') <= snd p + m_depth m ->
      In v (vvis (N := QcNum) vis r o (fst p) y l') -> exists m1, Some m = Some m /\ box_metrics (fst v) = Some m1 /\ within (area_of m1 (snd v)) (area_of m p)).
    { induction l' as [|c l' IHl]; intros y Fp Fi X1 X2 J; [contradiction|].
      inversion Fp as [|? ? Pc Fp']; inversion Fi as [|? ? Ic Fi']; subst.
      cbn [flat_map] in X2. rewrite qsum_app in X2.
      destruct (set_width_nonneg r o c Pc R) as (_ & A). destruct (qsum_set_nonneg r o l' Fp' R) as (_ & B).
      cbn [vvis] in J. apply in_app_or in J as [J|J].
      - rewrite Forall_forall in IH. rewrite <- layout_vis in J. destruct (IH c Ic _ _ Pc J) as (mc & m1 & Ec & E1 & Wi).
        exists m1. split; [reflexivity|]. split; [exact E1|]. eapply within_trans; [exact Wi|].
        assert (Q : vchild (N := QcNum) (fst p) y c = (fst p, y + m_height mc) -> qsum (set_extent r o c) = m_height mc + m_depth mc ->
                   m_width mc <= m_width m ->
                   within (area_of mc (vchild (N := QcNum) (fst p) y c)) (area_of m p)).
        { intros -> Ew Q1. rewrite Ew in X2. unfold within, area_of; cbn [fst snd a_left a_top a_right a_bottom].
          eapply v_within; eassumption. }
        rewrite Forall_forall in U. specialize (U c Ic).
        destruct c; inversion Ec; subst mc; cbn [vchild unshifted] in *.
        1-3: apply Q; [reflexivity|apply Qcplus_0_r|]; apply H; apply in_flat_map; eexists; split; [exact Ic|left; reflexivity].
        apply Q; [subst shift; change (nadd (n := QcNum)) with Qcplus; f_equal; apply Qcplus_0_r|apply Qcplus_0_r|].
        apply H. apply in_flat_map. eexists; split; [exact Ic|left; reflexivity].
      - apply (IHl (vnext (N := QcNum) r o y c)); auto; rewrite vnext_set; [eapply n_low|eapply n_high]; eassumption. }
    apply (G l (snd p - m_height m) F); [apply Forall_forall; auto|apply Qcle_refl|rewrite W; apply v_whole|exact I].
Qed.
