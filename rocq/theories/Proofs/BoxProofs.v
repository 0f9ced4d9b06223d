From Coq Require Import List QArith Qcanon ZArith Bool Lia.
From Verif.Base Require Import Result Num.
From Verif.Model Require Import Glue Box.
From Verif.Spec Require Import BoxSpec.
Import ListNotations.

Section AnyNum.
  Context {N : Num}.
  Implicit Types (l : list (node N)) (b : lbox N).

  Lemma gorder_eqb_spec (a b : gorder) : reflect (a = b) (gorder_eqb a b).
  Proof. destruct a, b; constructor; congruence. Qed.

  (** Component of the totals for an order. *)
  Definition comp (t : totals N) (o : gorder) : N :=
    match o with Normal => t_normal t | Fil => t_fil t | Fill => t_fill t | Filll => t_filll t end.

  Lemma comp_add_order o o' x t :
    comp (add_order o' x t) o = if gorder_eqb o' o then nadd (comp t o) x else comp t o.
  Proof. destruct o, o'; reflexivity. Qed.

  (** * Running sums over both loops *)
  Definition info_ok (a : boxing N) (w h d : list N) (st sh : gorder -> list N) (a' : boxing N) : Prop :=
    i_width a' = fold_left nadd w (i_width a) /\
    i_height a' = fold_left nmax h (i_height a) /\
    i_depth a' = fold_left nmax d (i_depth a) /\
    (forall o, comp (i_stretch a') o = fold_left nadd (st o) (comp (i_stretch a) o)) /\
    (forall o, comp (i_shrink a') o = fold_left nadd (sh o) (comp (i_shrink a) o)).

  Lemma hbox_fold l : forall a,
    info_ok a (flat_map item_width l) (flat_map item_height l) (flat_map item_depth l)
      (fun o => flat_map (stretch_of o) l) (fun o => flat_map (shrink_of o) l)
      (fold_left hbox_step l a).
  Proof.
    induction l as [|n l IH]; intros a.
    - repeat split.
    - cbn [fold_left]. destruct (IH (hbox_step a n)) as (Hw & Hh & Hd & Hst & Hsh).
      unfold info_ok. rewrite Hw, Hh, Hd. cbn [flat_map]. rewrite !fold_left_app.
      destruct n; repeat split; try reflexivity; intros o; rewrite ?Hst, ?Hsh;
        cbn [hbox_step i_stretch i_shrink accumulate stretch_of shrink_of flat_map]; try reflexivity;
        rewrite fold_left_app, comp_add_order; destruct (gorder_eqb _ o); reflexivity.
  Qed.

  Lemma vbox_fold l : forall a,
    i_width (fold_left vbox_step l a) = fold_left (fun x y => nmax y x) (flat_map box_width l) (i_width a) /\
    i_height (fold_left vbox_step l a) = fold_left nadd (flat_map item_extent l) (i_height a) /\
    (forall o, comp (i_stretch (fold_left vbox_step l a)) o = fold_left nadd (flat_map (stretch_of o) l) (comp (i_stretch a) o)) /\
    (forall o, comp (i_shrink (fold_left vbox_step l a)) o = fold_left nadd (flat_map (shrink_of o) l) (comp (i_shrink a) o)).
  Proof.
    induction l as [|n l IH]; intros a.
    - repeat split.
    - cbn [fold_left]. destruct (IH (vbox_step a n)) as (Hw & Hh & Hst & Hsh).
      rewrite Hw, Hh. cbn [flat_map]. rewrite !fold_left_app.
      destruct n; repeat split; try reflexivity; intros o; rewrite ?Hst, ?Hsh;
        cbn [vbox_step i_stretch i_shrink accumulate stretch_of shrink_of flat_map]; try reflexivity;
        rewrite fold_left_app, comp_add_order; destruct (gorder_eqb _ o); reflexivity.
  Qed.

  Lemma comp_no_totals o : comp no_totals o = n0.
  Proof. destruct o; reflexivity. Qed.

  Lemma hbox_info_sums l :
    i_width (hbox_info l) = sum (flat_map item_width l) /\
    i_height (hbox_info l) = fold_left nmax (flat_map item_height l) n0 /\
    i_depth (hbox_info l) = fold_left nmax (flat_map item_depth l) n0 /\
    (forall o, comp (i_stretch (hbox_info l)) o = stretch_total l o) /\
    (forall o, comp (i_shrink (hbox_info l)) o = shrink_total l o).
  Proof.
    destruct (hbox_fold l boxing0) as (Hw & Hh & Hd & Hst & Hsh).
    unfold hbox_info, stretch_total, shrink_total, sum. rewrite Hw, Hh, Hd.
    repeat split; intros o; [rewrite Hst|rewrite Hsh]; simpl; rewrite comp_no_totals; reflexivity.
  Qed.

  (** * C24, any arithmetic *)
  Lemma hbox_dims_lemma l :
    m_width (b_metrics (hbox l)) = sum (flat_map item_width l) /\
    m_height (b_metrics (hbox l)) = fold_left nmax (flat_map item_height l) n0 /\
    m_depth (b_metrics (hbox l)) = fold_left nmax (flat_map item_depth l) n0 /\
    b_list (hbox l) = l /\ b_shift (hbox l) = n0 /\ b_ratio (hbox l) = n0.
  Proof.
    destruct (hbox_info_sums l) as (Hw & Hh & Hd & _ & _).
    unfold hbox, hbox_rebox, set_metrics, listbox_new; simpl. auto 10.
  Qed.

  Lemma hbox_to_same_vertical l w :
    m_height (b_metrics (hbox_to l w)) = m_height (b_metrics (hbox l)) /\
    m_depth (b_metrics (hbox_to l w)) = m_depth (b_metrics (hbox l)) /\
    b_list (hbox_to l w) = l.
  Proof.
    unfold hbox_to, hbox_rebox_to. cbn [b_list listbox_new].
    destruct (setGlue _ _ _ _ _) as [b' f] eqn:E. simpl. repeat split.
    unfold setGlue in E.
    repeat match type of E with context [if ?b then _ else _] => destruct b end; inversion E; reflexivity.
  Qed.

  (** * C25, any arithmetic: with stretchable glue the width is the one asked *)
  Lemma setGlue_stretch_exact b x w sh st o :
    nltb x w = true -> nonzero (comp st o) = true -> snd (setGlue b x w sh st) = w.
  Proof.
    intros Hx Ho. unfold setGlue. rewrite Hx.
    destruct (nonzero (t_filll st)) eqn:E3; [reflexivity|].
    destruct (nonzero (t_fill st)) eqn:E2; [reflexivity|].
    destruct (nonzero (t_fil st)) eqn:E1; [reflexivity|].
    destruct (nonzero (t_normal st)) eqn:E0; [reflexivity|].
    destruct o; simpl in Ho; congruence.
  Qed.

  Lemma setGlue_shrink_exact b x w sh st o :
    nltb x w = false -> nltb w x = true -> o <> Normal -> nonzero (comp sh o) = true ->
    snd (setGlue b x w sh st) = w.
  Proof.
    intros Hx Hx' Hn Ho. unfold setGlue. rewrite Hx, Hx'.
    destruct (nonzero (t_filll sh)) eqn:E3; [reflexivity|].
    destruct (nonzero (t_fill sh)) eqn:E2; [reflexivity|].
    destruct (nonzero (t_fil sh)) eqn:E1; [reflexivity|].
    destruct o; simpl in Ho; congruence.
  Qed.

  Lemma hbox_to_exact_lemma l w :
    let x := m_width (b_metrics (hbox l)) in
    (nltb x w = true /\ (exists o, nonzero (stretch_total l o) = true)) \/
    (nltb x w = false /\ nltb w x = true /\ (exists o, o <> Normal /\ nonzero (shrink_total l o) = true)) ->
    m_width (b_metrics (hbox_to l w)) = w.
  Proof.
    cbv zeta. destruct (hbox_info_sums l) as (Hw & _ & _ & Hst & Hsh).
    unfold hbox, hbox_rebox, hbox_to, hbox_rebox_to. cbn [b_list listbox_new b_metrics set_metrics m_width].
    intros H.
    destruct (setGlue _ _ _ _ _) as [b' f] eqn:E. simpl.
    change f with (snd (b', f)). rewrite <- E.
    destruct H as [(Hx & o & Ho)|(Hx & Hx' & o & Hn & Ho)].
    - apply setGlue_stretch_exact with o; [exact Hx|]. rewrite Hst. exact Ho.
    - apply setGlue_shrink_exact with o; auto. rewrite Hsh. exact Ho.
  Qed.

  (** * C31 *)
  Lemma setGlue_forgets b x w sh st :
    nltb x w = true \/ nltb w x = true ->
    setGlue b x w sh st =
    (mkLBox (b_metrics b) (b_shift b) (b_ratio (fst (setGlue (listbox_new (b_list b)) x w sh st)))
       (b_order (fst (setGlue (listbox_new (b_list b)) x w sh st))) (b_list b),
     snd (setGlue (listbox_new (b_list b)) x w sh st)).
  Proof.
    intros H. unfold setGlue.
    destruct (nltb x w); [|destruct H as [H|H]; [discriminate|rewrite H]];
      repeat match goal with |- context [if nonzero ?t then _ else _] => destruct (nonzero t) end; reflexivity.
  Qed.

  Lemma rebox_forgets_lemma b w :
    let x := m_width (b_metrics (hbox (b_list b))) in
    nltb x w = true \/ nltb w x = true ->
    fst (hbox_rebox_to b w) = setShiftAmount (hbox_to (b_list b) w) (b_shift b) /\
    snd (hbox_rebox_to b w) = snd (hbox_rebox_to (listbox_new (b_list b)) w).
  Proof.
    cbv zeta. unfold hbox, hbox_rebox, hbox_to, hbox_rebox_to. cbn [b_list listbox_new b_metrics set_metrics m_width].
    intros H. rewrite (setGlue_forgets b) by exact H.
    destruct (setGlue (listbox_new (b_list b)) _ _ _ _) as [b' f] eqn:E. simpl.
    split; [|reflexivity]. unfold setShiftAmount, set_metrics; simpl.
    assert (b_list b' = b_list b).
    { unfold setGlue in E.
      repeat match type of E with context [if ?b then _ else _] => destruct b end; inversion E; reflexivity. }
    rewrite H0. reflexivity.
  Qed.

  (** Whatever happened before in the session, a final rebox to a width makes
      the result a function of the list. *)
  Lemma session_forgets_lemma b es w :
    let b1 := fst (fold_left hedit es (b, false)) in
    let x := m_width (b_metrics (hbox (b_list b1))) in
    nltb x w = true \/ nltb w x = true ->
    hbox_session b (es ++ [EReboxTo w]) = setShiftAmount (hbox_to (b_list b1) w) (b_shift b1).
  Proof.
    cbv zeta. intros H. unfold hbox_session. rewrite fold_left_app.
    destruct (fold_left hedit es (b, false)) as [b1 d]. simpl in *.
    apply (rebox_forgets_lemma b1 w H).
  Qed.

  (** * C27 *)
  Lemma make_vtop_lemma l b :
    vtop l = Ok b ->
    exists n r, l = n :: r /\
      m_height (b_metrics b) = match box_metrics n with Some m => m_height m | None => n0 end /\
      m_depth (b_metrics b) = nsub (nadd (m_height (b_metrics (vbox l))) (m_depth (b_metrics (vbox l)))) (m_height (b_metrics b)) /\
      m_width (b_metrics b) = m_width (b_metrics (vbox l)) /\ b_list b = l.
  Proof.
    unfold vtop, make_vtop. simpl. destruct l as [|n r]; [discriminate|].
    intros H; inversion H; subst; clear H. exists n, r. simpl. auto 10.
  Qed.

  Lemma vtop_total l : l <> [] -> exists b, vtop l = Ok b.
  Proof. destruct l as [|n r]; [congruence|]. intros _. unfold vtop, make_vtop. simpl. eauto. Qed.

  Lemma vtop_to_lemma l w b :
    vtop_to l w = Ok b ->
    exists n r, l = n :: r /\
      m_height (b_metrics b) = match box_metrics n with Some m => m_height m | None => n0 end /\
      m_depth (b_metrics b) = nsub (nadd (m_height (b_metrics (vbox_to l w))) (m_depth (b_metrics (vbox_to l w)))) (m_height (b_metrics b)) /\
      m_width (b_metrics b) = m_width (b_metrics (vbox_to l w)).
  Proof.
    unfold vtop_to, make_vtop.
    assert (E : b_list (vbox_to l w) = l).
    { unfold vbox_to, vbox_rebox_to. cbn [b_list listbox_new]. destruct (setGlue _ _ _ _ _) as [b' f] eqn:E. simpl.
      unfold setGlue in E.
      repeat match type of E with context [if ?b then _ else _] => destruct b end; inversion E; reflexivity. }
    rewrite E. destruct l as [|n r]; [discriminate|].
    intros H; inversion H; subst; clear H. exists n, r. simpl. auto 10.
  Qed.

  Lemma vbox_depth_lemma l :
    m_depth (b_metrics (vbox l)) =
      match rev l with n :: _ => match box_metrics n with Some m => m_depth m | None => n0 end | [] => n0 end.
  Proof.
    unfold vbox, vbox_rebox, vbox_info, last_box. simpl.
    destruct (rev l) as [|n r]; [reflexivity|]. destruct (box_metrics n); reflexivity.
  Qed.
End AnyNum.

(** * Exact arithmetic *)
Lemma largest_nmax l : largest l (fold_left (nmax (N := QcNum)) l (n0 (N := QcNum))).
Proof.
  assert (G : forall l a, (0 <= a)%Qc ->
    let x := fold_left (nmax (N := QcNum)) l a in
    (a <= x)%Qc /\ (forall y, In y l -> (y <= x)%Qc) /\ (x = a \/ In x l)).
  { clear l. induction l as [|y l IH]; intros a Ha; cbn zeta.
    - simpl. repeat split; auto. apply Qcle_refl. intros y [].
    - cbn [fold_left]. set (b := nmax (N := QcNum) a y).
      assert (Hb : (a <= b)%Qc /\ (y <= b)%Qc /\ (b = a \/ b = y)).
      { unfold b, nmax. simpl. destruct (Qc_ltb a y) eqn:E; qc_bool.
        - repeat split; auto. apply Qclt_le_weak. exact E. apply Qcle_refl.
        - repeat split; auto. apply Qcle_refl. }
      clearbody b. destruct Hb as (H1 & H2 & H3).
      destruct (IH b (Qcle_trans _ _ _ Ha H1)) as (I1 & I2 & I3). cbn zeta in *.
      split; [eapply Qcle_trans; eauto|]. split.
      + intros z [->|Hz]; [eapply Qcle_trans; eauto|auto].
      + destruct I3 as [I3|I3]; [|right; right; exact I3]. rewrite I3. destruct H3 as [->| ->]; [left|right; left]; reflexivity. }
  destruct (G l (Q2Qc 0) (Qcle_refl _)) as (H1 & H2 & H3). repeat split; assumption.
Qed.

Lemma largest_nmax_flip l : largest l (fold_left (fun x y => nmax (N := QcNum) y x) l (n0 (N := QcNum))).
Proof.
  replace (fold_left (fun x y => nmax (N := QcNum) y x) l (n0 (N := QcNum)))
    with (fold_left (nmax (N := QcNum)) l (n0 (N := QcNum))); [apply largest_nmax|].
  generalize (n0 (N := QcNum)). induction l as [|y l IH]; intros a; simpl; [reflexivity|].
  rewrite IH. f_equal. unfold nmax. simpl.
  destruct (Qc_ltb a y) eqn:E1, (Qc_ltb y a) eqn:E2; qc_bool; try reflexivity.
  - exfalso. apply (Qclt_not_le _ _ E1). apply Qclt_le_weak. exact E2.
  - apply Qcle_antisym; assumption.
Qed.

Lemma hbox_height_lemma (l : list (node QcNum)) :
  largest (flat_map item_height l) (m_height (b_metrics (hbox l))) /\
  largest (flat_map item_depth l) (m_depth (b_metrics (hbox l))).
Proof.
  destruct (hbox_dims_lemma l) as (_ & -> & -> & _). split; apply largest_nmax.
Qed.

Lemma nonzero_neq (x : QcNum) : nonzero x = true -> (x : Qc) <> 0%Qc.
Proof. unfold nonzero. simpl. intros H E. rewrite E in H. discriminate. Qed.

Lemma nonzero_eq (x : QcNum) : nonzero x = false -> (x : Qc) = 0%Qc.
Proof. unfold nonzero. simpl. rewrite negb_false_iff. intros H. qc_bool. exact H. Qed.

Lemma Qcdiv_mul (a b : Qc) : b <> 0%Qc -> (a / b * b)%Qc = a.
Proof. intros H. field. exact H. Qed.

Lemma status_refl (w : Qc) : boxing_status (N := QcNum) w w = NormalBox.
Proof.
  unfold boxing_status. simpl. destruct (Qc_ltb w w) eqn:E; [|reflexivity].
  qc_bool. exfalso. exact (Qclt_not_le _ _ E (Qcle_refl _)).
Qed.

Lemma setGlue_exact (b : lbox QcNum) (x w : Qc) sh st :
  b_ratio b = n0 -> b_order b = Normal ->
  let r := setGlue b x w sh st in
  glue_set x w (comp st) (comp sh) (b_ratio (fst r)) (b_order (fst r)) (snd r)
    (boxing_status (N := QcNum) (snd r) w).
Proof.
  intros Hr Ho. cbv zeta. unfold setGlue. cbn [nltb QcNum].
  destruct (Qc_ltb x w) eqn:Exw; qc_bool.
  - assert (Hu : boxing_status (N := QcNum) x w = UnderfullBox).
    { unfold boxing_status. cbn [nltb QcNum]. apply Qc_ltb_lt in Exw. rewrite Exw. reflexivity. }
    destruct (nonzero (t_filll st)) eqn:E3; cbn [fst snd set_glue b_ratio b_order]; rewrite ?status_refl, ?Hu.
    { apply (gs_stretch x w (comp st) (comp sh) Filll Exw). split; [exact E3|]. intros []; simpl; lia. }
    destruct (nonzero (t_fill st)) eqn:E2; cbn [fst snd set_glue b_ratio b_order]; rewrite ?status_refl, ?Hu.
    { apply (gs_stretch x w (comp st) (comp sh) Fill Exw). split; [exact E2|]. intros []; simpl; try lia; auto. }
    destruct (nonzero (t_fil st)) eqn:E1; cbn [fst snd set_glue b_ratio b_order]; rewrite ?status_refl, ?Hu.
    { apply (gs_stretch x w (comp st) (comp sh) Fil Exw). split; [exact E1|]. intros []; simpl; try lia; auto. }
    destruct (nonzero (t_normal st)) eqn:E0; cbn [fst snd set_glue b_ratio b_order]; rewrite ?status_refl, ?Hu.
    { apply (gs_stretch x w (comp st) (comp sh) Normal Exw). split; [exact E0|]. intros []; simpl; try lia; auto. }
    apply gs_underfull; [exact Exw|]. intros []; assumption.
  - destruct (Qc_ltb w x) eqn:Ewx; qc_bool.
    + destruct (nonzero (t_filll sh)) eqn:E3; cbn [fst snd set_glue b_ratio b_order]; rewrite ?status_refl.
      { apply (gs_shrink x w (comp st) (comp sh) Filll Ewx); [|discriminate]. split; [exact E3|]. intros []; simpl; lia. }
      destruct (nonzero (t_fill sh)) eqn:E2; cbn [fst snd set_glue b_ratio b_order]; rewrite ?status_refl.
      { apply (gs_shrink x w (comp st) (comp sh) Fill Ewx); [|discriminate]. split; [exact E2|]. intros []; simpl; try lia; auto. }
      destruct (nonzero (t_fil sh)) eqn:E1; cbn [fst snd set_glue b_ratio b_order]; rewrite ?status_refl.
      { apply (gs_shrink x w (comp st) (comp sh) Fil Ewx); [|discriminate]. split; [exact E1|]. intros []; simpl; try lia; auto. }
      destruct (nonzero (t_normal sh)) eqn:E0; cbn [fst snd set_glue b_ratio b_order]; rewrite ?status_refl.
      { assert (Ht : top_order (N := QcNum) (comp sh) Normal).
        { split; [exact E0|]. intros []; simpl; try lia; auto. }
        pose proof (nonzero_neq _ E0) as Hne.
        cbn [nadd nmul ndiv nsub QcNum nz nlit].
        change (t_normal sh) with (comp sh Normal) in *.
        destruct (Qc_ltb ((w - x) / comp sh Normal)%Qc (Q2Qc (inject_Z (-1)))) eqn:Er; qc_bool.
        - assert (Em : (x + Q2Qc (inject_Z (-1)) * comp sh Normal)%Qc = (x - comp sh Normal)%Qc).
          { change (Q2Qc (inject_Z (-1))) with (- (1))%Qc. cbn [num QcNum] in *. ring. }
          rewrite Em. apply gs_overfull; auto.
        - assert (Em : (x + (w - x) / comp sh Normal * comp sh Normal)%Qc = w).
          { rewrite Qcdiv_mul by exact Hne. cbn [num QcNum] in *. ring. }
          rewrite Em, status_refl. apply (gs_shrink x w (comp st) (comp sh) Normal Ewx Ht).
          intros _ Hlt. exact (Qclt_not_le _ _ Hlt Er). }
      assert (Hu : boxing_status (N := QcNum) x w = OverfullBox).
      { unfold boxing_status. cbn [nltb QcNum]. apply Qc_ltb_ge in Exw. rewrite Exw.
        apply Qc_ltb_lt in Ewx. rewrite Ewx. reflexivity. }
      rewrite Hu. apply gs_rigid; [exact Ewx|]. intros []; assumption.
    + assert (x = w) by (apply Qcle_antisym; assumption). subst w.
      cbn [fst snd]. rewrite Hr, Ho, status_refl. apply gs_natural. reflexivity.
Qed.

Lemma glue_set_ext x w st sh st' sh' r o f v :
  (forall o, st o = st' o) -> (forall o, sh o = sh' o) ->
  glue_set x w st sh r o f v -> glue_set x w st' sh' r o f v.
Proof.
  intros Hs Hh H.
  assert (Ts : forall o, top_order (N := QcNum) st o -> top_order (N := QcNum) st' o).
  { intros o0 [A B]. split; [rewrite <- Hs; exact A|]. intros o' L. rewrite <- Hs. auto. }
  assert (Th : forall o, top_order (N := QcNum) sh o -> top_order (N := QcNum) sh' o).
  { intros o0 [A B]. split; [rewrite <- Hh; exact A|]. intros o' L. rewrite <- Hh. auto. }
  destruct H; try rewrite Hs; try rewrite !Hh.
  - apply gs_natural; assumption.
  - apply gs_stretch; auto.
  - apply gs_underfull; [assumption|]. intros o. rewrite <- Hs. auto.
  - apply gs_shrink; auto. intros E. rewrite <- Hh. auto.
  - apply gs_overfull; auto. rewrite <- Hh. assumption.
  - apply gs_rigid; [assumption|]. intros o. rewrite <- Hh. auto.
Qed.

Lemma hbox_to_glue_lemma (l : list (node QcNum)) (w : Qc) :
  let b := hbox_to l w in
  glue_set (m_width (b_metrics (hbox l))) w (stretch_total l) (shrink_total l)
    (b_ratio b) (b_order b) (m_width (b_metrics b)) (snd (hbox_rebox_to (listbox_new l) w)).
Proof.
  cbv zeta. destruct (hbox_info_sums l) as (Hw & _ & _ & Hst & Hsh).
  unfold hbox, hbox_rebox, hbox_to, hbox_rebox_to. cbn [b_list listbox_new b_metrics set_metrics m_width].
  pose proof (setGlue_exact (listbox_new l) (i_width (hbox_info l)) w (i_shrink (hbox_info l)) (i_stretch (hbox_info l)) eq_refl eq_refl) as H.
  cbv zeta in H. destruct (setGlue _ _ _ _ _) as [b' f] eqn:E. simpl in *.
  eapply glue_set_ext; [exact Hst|exact Hsh|exact H].
Qed.

(** * C26 *)
Lemma fold_nadd (l : list Qc) (a : Qc) : fold_left (nadd (n := QcNum)) l a = (a + qsum l)%Qc.
Proof.
  revert a; induction l as [|x l IH]; intros a; simpl; [cbn [num QcNum]; ring|]. rewrite IH. cbn [num QcNum]. ring.
Qed.

Lemma sum_qsum (l : list Qc) : sum (N := QcNum) l = qsum l.
Proof. unfold sum. rewrite fold_nadd. change (n0 (N := QcNum)) with 0%Qc. cbn [num QcNum]. ring. Qed.

Lemma qsum_app a b : qsum (a ++ b) = (qsum a + qsum b)%Qc.
Proof. induction a as [|x a IH]; simpl; [ring|]. rewrite IH. ring. Qed.

Lemma vbox_dims_lemma (l : list (node QcNum)) :
  (m_height (b_metrics (vbox l)) + m_depth (b_metrics (vbox l)) = sum (N := QcNum) (flat_map item_extent l))%Qc /\
  largest (flat_map box_width l) (m_width (b_metrics (vbox l))).
Proof.
  unfold vbox, vbox_rebox, vbox_info. cbn [b_list listbox_new].
  destruct (vbox_fold l boxing0) as (Hw & Hh & _ & _).
  destruct (last_box l) as [m|]; cbn [b_metrics set_metrics m_height m_depth m_width i_width i_height i_depth];
    rewrite Hw, Hh; (split; [|apply largest_nmax_flip]);
    rewrite sum_qsum, fold_nadd; cbn [boxing0 i_height]; change (n0 (N := QcNum)) with 0%Qc;
    cbn [num QcNum nsub]; ring.
Qed.

Lemma changeHeight_lemma (b : lbox QcNum) (h : Qc) :
  m_height (b_metrics (changeHeight b h)) = h /\
  (m_height (b_metrics (changeHeight b h)) + m_depth (b_metrics (changeHeight b h))
   = m_height (b_metrics b) + m_depth (b_metrics b))%Qc /\
  m_width (b_metrics (changeHeight b h)) = m_width (b_metrics b).
Proof.
  unfold changeHeight, totalHeight. simpl. repeat split. cbn [num QcNum]. ring.
Qed.

Lemma vbox_info_sums {N : Num} (l : list (node N)) :
  (forall o, comp (i_stretch (vbox_info l)) o = stretch_total l o) /\
  (forall o, comp (i_shrink (vbox_info l)) o = shrink_total l o).
Proof.
  unfold vbox_info. destruct (vbox_fold l boxing0) as (_ & _ & Hst & Hsh).
  destruct (last_box l) as [m|]; simpl; split; intros o; rewrite ?Hst, ?Hsh; simpl; rewrite comp_no_totals; reflexivity.
Qed.

Lemma vbox_to_glue_lemma (l : list (node QcNum)) (h : Qc) :
  let b := vbox_to l h in
  glue_set (m_height (b_metrics (vbox l))) h (stretch_total l) (shrink_total l)
    (b_ratio b) (b_order b) (m_height (b_metrics b)) (snd (vbox_rebox_to (listbox_new l) h)) /\
  m_depth (b_metrics b) = m_depth (b_metrics (vbox l)) /\
  m_width (b_metrics b) = m_width (b_metrics (vbox l)) /\ b_list b = l.
Proof.
  cbv zeta. destruct (vbox_info_sums l) as (Hst & Hsh).
  unfold vbox, vbox_rebox, vbox_to, vbox_rebox_to. cbn [b_list listbox_new b_metrics set_metrics m_width].
  pose proof (setGlue_exact (listbox_new l) (i_height (vbox_info l)) h (i_shrink (vbox_info l)) (i_stretch (vbox_info l)) eq_refl eq_refl) as H.
  cbv zeta in H. destruct (setGlue _ _ _ _ _) as [b' f] eqn:E. simpl in *. repeat split.
  - eapply glue_set_ext; [exact Hst|exact Hsh|exact H].
  - unfold setGlue in E.
    repeat match type of E with context [if ?b then _ else _] => destruct b end; inversion E; reflexivity.
Qed.

(** * C30 *)
Lemma order_lemma {N : Num} (t : totals N) :
  totals_order t = order_of t <-> nonzero (t_filll t) = nonzero (t_fill t).
Proof.
  unfold totals_order, order_of.
  destruct (nonzero (t_filll t)), (nonzero (t_fill t)), (nonzero (t_fil t)); split; congruence.
Qed.
