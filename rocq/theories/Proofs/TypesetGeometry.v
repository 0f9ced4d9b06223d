(** Positions of the parts of typeset formulas, in exact arithmetic. *)
From Coq Require Import List QArith Qcanon ZArith Bool Lia.
From Verif.Base Require Import Result Num.
From Verif.Model Require Import Glue Box MathList MathTypeset.
From Verif.Spec Require Import BoxSpec MathSpec TypesetSpec GeometrySpec.
From Verif.Proofs Require Import BoxProofs.
Import ListNotations.
Local Open Scope Qc_scope.

Section Geometry.
  Variable E : engine QcNum.
  Variable rec : style -> list (mnode QcNum) -> result (list (node QcNum) * list (mnode QcNum)).

  Lemma half_double (x : Qc) : x = half * x + half * x.
  Proof.
    assert (H : half + half = 1) by (apply Qc_is_canon; reflexivity).
    transitivity ((half + half) * x); [rewrite H; ring|ring].
  Qed.
  Lemma nw_wid n : nw (N := QcNum) n = wid n.
  Proof. unfold nw, bm, wid. destruct (box_metrics n); reflexivity. Qed.
  Lemma nh_hgt n : nh (N := QcNum) n = hgt n.
  Proof. unfold nh, bm, hgt. destruct (box_metrics n); reflexivity. Qed.
  Lemma nd_dep n : nd (N := QcNum) n = dep n.
  Proof. unfold nd, bm, dep. destruct (box_metrics n); reflexivity. Qed.
  Lemma nt_sum n : nt (N := QcNum) n = hgt n + dep n.
  Proof. unfold nt, bm, hgt, dep, totalHeight. destruct (box_metrics n); reflexivity. Qed.

  Lemma extent_box n : is_box n -> item_extent (N := QcNum) n = [hgt n + dep n].
  Proof. intros [m H]. unfold hgt, dep. rewrite H. destruct n; try discriminate; injection H as ->; reflexivity. Qed.

  (** the width of a box between two springs *)
  Lemma spring_width x w : is_box x -> wid x < w ->
    m_width (b_metrics (hbox_to (N := QcNum) [hfil; x; hfil] w)) = w.
  Proof.
    intros Hb Hw. apply hbox_to_exact_lemma. left. split.
    - destruct (hbox_dims_lemma [hfil; x; hfil]) as (-> & _).
      assert (Q : sum (N := QcNum) (flat_map item_width [hfil; x; hfil]) = wid x).
      { rewrite sum_qsum. destruct Hb as [m Hm]. unfold wid. rewrite Hm.
        destruct x; try discriminate; injection Hm as ->; cbn [flat_map item_width app qsum fold_right hfil glue_stretch g_space]; change (n0 (N := QcNum)) with 0; cbn [num QcNum] in *; ring. }
      rewrite Q. apply Qc_ltb_lt. exact Hw.
    - exists Fil. destruct Hb as [m Hm]. destruct x; try discriminate; reflexivity.
  Qed.

  Lemma vbox_total (l : list (node QcNum)) :
    totalHeight (b_metrics (vbox l)) = qsum (flat_map item_extent l).
  Proof.
    destruct (vbox_dims_lemma l) as [H _]. rewrite sum_qsum in H. exact H.
  Qed.
  Lemma width_box (x : node QcNum) : is_box x -> box_width x = [wid x].
  Proof. intros [m H]. unfold wid. rewrite H. destruct x; try discriminate; injection H as ->; reflexivity. Qed.
  Lemma vbox_wide (l : list (node QcNum)) w : In w (flat_map box_width l) -> (forall y, In y (flat_map box_width l) -> y = w) ->
    largest [w] (m_width (b_metrics (vbox l))).
  Proof.
    intros I F. destruct (vbox_dims_lemma l) as [_ (A & B & C)]. split; [exact A|]. split.
    - intros y [<-|[]]. now apply B.
    - destruct C as [C|C]; [left; exact C|right; left]. symmetry. now apply F.
  Qed.
  Lemma hfil_spring : hfil (N := QcNum) = spring.
  Proof. reflexivity. Qed.

  Lemma springs n w : exists m s r o,
    hnode (hbox_to (N := QcNum) [hfil; n; hfil] w) = NList Horizontal m s r o [spring; n; spring].
  Proof.
    unfold hnode, node_of. destruct (hbox_to_same_vertical [hfil; n; hfil] w) as (_ & _ & ->).
    do 4 eexists. reflexivity.
  Qed.

  Lemma rule15_fraction s ln ld a o : rule15 E rec s ln ld = Ok (a, o) ->
    exists nl dl b,
      a_nuc a = Some (FBox (vnode b)) /\ a_ty a = Inner /\ a_sub a = None /\ a_sup a = None /\
      rmap fst (rec (fracNum s) ln) = Ok nl /\ rmap fst (rec (fracDen s) ld) = Ok dl /\
      let display := style_gtb s T in
      let theta := f_rule (xi E s) in
      fraction (f_axis (sg E s)) theta
        (if display then f_num1 (sg E s) else f_num2 (sg E s))
        (if display then f_denom1 (sg E s) else f_denom2 (sg E s))
        (if display then int 3 * theta else theta)
        (hnode (hbox nl)) (hnode (hbox dl)) b.
  Proof.
    unfold rule15, boxit_list. intros H.
    apply bind_Ok in H. destruct H as (rx & Hx & H).
    apply bind_Ok in Hx. destruct Hx as ([nl nl'] & Hn & [= <-]).
    apply bind_Ok in H. destruct H as (rz & Hz & H).
    apply bind_Ok in Hz. destruct Hz as ([dl dl'] & Hd & [= <-]).
    cbn [fst snd] in H.
    set (x0 := hnode (hbox nl)) in *. set (z0 := hnode (hbox dl)) in *.
    assert (Bx : is_box x0) by (eexists; reflexivity).
    assert (Bz : is_box z0) by (eexists; reflexivity).
    set (theta := f_rule (xi E s)) in *.
    set (x := if nltb (nw x0) (nw z0) then _ else x0) in H.
    set (z := if nltb (nw x0) (nw z0) then z0 else _) in H.
    assert (W : is_box x /\ is_box z /\ centred x0 x /\ centred z0 z /\ wid x = wid z /\ greatest [wid x0; wid z0] (wid z)).
    { unfold x, z. rewrite !nw_wid. cbn [nltb QcNum]. destruct (Qc_ltb (wid x0) (wid z0)) eqn:Q1.
      - qc_bool. refine (conj _ (conj _ (conj _ (conj _ (conj _ (conj _ _)))))).
        + eexists; reflexivity.
        + exact Bz.
        + right. apply springs.
        + left. reflexivity.
        + exact (spring_width x0 (wid z0) Bx Q1).
        + cbn; auto.
        + intros y [<-|[<-|[]]]; [apply Qclt_le_weak; exact Q1|apply Qcle_refl].
      - qc_bool. destruct (Qc_ltb (wid z0) (wid x0)) eqn:Q2.
        + qc_bool.
          assert (Ew : wid (hnode (hbox_to (N := QcNum) [hfil; z0; hfil] (wid x0))) = wid x0).
          { exact (spring_width z0 (wid x0) Bz Q2). }
          refine (conj _ (conj _ (conj _ (conj _ (conj _ (conj _ _)))))).
          * exact Bx.
          * eexists; reflexivity.
          * left; reflexivity.
          * right. apply springs.
          * symmetry. exact Ew.
          * rewrite Ew. cbn; auto.
          * rewrite Ew. intros y [<-|[<-|[]]]; [apply Qcle_refl|exact Q1].
        + qc_bool. assert (H0 : wid x0 = wid z0) by (apply Qcle_antisym; assumption).
          refine (conj Bx (conj Bz (conj _ (conj _ (conj H0 (conj _ _)))))); try (left; reflexivity).
          * cbn; auto.
          * intros y [<-|[<-|[]]]; [rewrite H0; apply Qcle_refl|apply Qcle_refl]. }
    destruct W as (Bx' & Bz' & Cx & Cz & Ww & Wg). clearbody x z.
    set (phi := if style_gtb s T then nmul (nz 3) theta else theta) in H.
    set (u0 := if style_gtb s T then f_num1 (sg E s) else f_num2 (sg E s)) in H.
    set (v0 := if style_gtb s T then f_denom1 (sg E s) else f_denom2 (sg E s)) in H.
    set (ax := f_axis (sg E s)) in H.
    set (gapx := nsub (nsub u0 (nd x)) (nadd ax (nmul nhalf theta))) in H.
    set (u := if nltb gapx phi then nadd u0 (nsub phi gapx) else u0) in H.
    set (gapz := nsub (nsub ax (nmul nhalf theta)) (nsub (nh z) v0)) in H.
    set (v := if nltb gapz phi then nadd v0 (nsub phi gapz) else v0) in H.
    set (k1 := nsub (nsub (nsub u (nd x)) ax) (nmul nhalf theta)) in H.
    set (k2 := nsub (nadd (nsub ax (nmul nhalf theta)) v) (nh z)) in H.
    set (b := changeHeight _ _) in H.
    destruct (neqb (m_height (b_metrics b)) _) in H; [|discriminate].
    assert (Ha : a = create Inner (vnode b)) by congruence. clear H. subst a.
    exists nl, dl, b. split; [reflexivity|]. split; [reflexivity|]. split; [reflexivity|]. split; [reflexivity|].
    rewrite Hn, Hd. split; [reflexivity|]. split; [reflexivity|]. cbv zeta.
    change (if style_gtb s T then int 3 * theta else theta) with phi.
    match goal with |- fraction ?a _ ?p ?q _ _ _ _ => change a with ax; change p with u0; change q with v0 end.
    fold x0 z0.
    assert (Hu : u0 <= u /\ phi <= u - dep x - (ax + half * theta) /\
                 (u = u0 \/ u - dep x - (ax + half * theta) = phi)).
    { unfold u. assert (G : gapx = u0 - dep x - (ax + half * theta)) by (unfold gapx; rewrite nd_dep; reflexivity).
      rewrite G. clear G. cbn [nltb nadd nsub QcNum].
      set (ht := half * theta). clear k1 k2 b u v gapx gapz. clearbody ht u0 phi ax.
      destruct (Qc_ltb _ phi) eqn:Q; qc_bool.
      - cbn [num QcNum] in *. split; [qclra|]. split; [qclra|]. right. ring.
      - cbn [num QcNum] in *. split; [qclra|]. split; [qclra|]. left. reflexivity. }
    assert (Hv : v0 <= v /\ phi <= ax - half * theta - (hgt z - v) /\
                 (v = v0 \/ ax - half * theta - (hgt z - v) = phi)).
    { unfold v. assert (G : gapz = ax - half * theta - (hgt z - v0)) by (unfold gapz; rewrite nh_hgt; reflexivity).
      rewrite G. clear G. cbn [nltb nadd nsub QcNum].
      set (ht := half * theta). clear Hu k1 k2 b u v gapx gapz. clearbody ht v0 phi ax.
      destruct (Qc_ltb _ phi) eqn:Q; qc_bool.
      - cbn [num QcNum] in *. split; [qclra|]. split; [qclra|]. right. ring.
      - cbn [num QcNum] in *. split; [qclra|]. split; [qclra|]. left. reflexivity. }
    assert (K1 : k1 = u - dep x - ax - half * theta) by (unfold k1; rewrite nd_dep; reflexivity).
    assert (K2 : k2 = ax - half * theta + v - hgt z) by (unfold k2; rewrite nh_hgt; reflexivity).
    unfold b. clear b. clearbody k1 k2. clearbody u v. clear gapx gapz. clearbody phi u0 v0 ax.
    constructor. exists x, k1, (wid z), k2, z.
    assert (Hrule : hrule (N := QcNum) (nw z) theta = bar (wid z) theta).
    { unfold hrule, bar. rewrite nw_wid. reflexivity. }
    rewrite Hrule.
    split; [reflexivity|]. split; [exact Cx|]. split; [exact Cz|]. split; [exact Wg|].
    split; [exact Ww|]. split; [reflexivity|]. cbv zeta.
    set (l := [x; NKern (N := QcNum) k1; bar (wid z) theta; NKern (N := QcNum) k2; z]).
    assert (Hh : forall h : Qc, m_height (b_metrics (changeHeight (N := QcNum) (vbox l) h)) = h) by reflexivity.
    assert (Hdep : forall h : Qc, m_depth (b_metrics (changeHeight (N := QcNum) (vbox l) h)) =
                   qsum (flat_map item_extent l) - h).
    { intros h. rewrite <- vbox_total. reflexivity. }
    assert (WL : forall h : Qc, largest [wid z] (m_width (b_metrics (changeHeight (N := QcNum) (vbox l) h)))).
    { intros h. change (largest [wid z] (m_width (b_metrics (vbox l)))).
      assert (FL : flat_map box_width l = [wid z; wid z; wid z])
        by (unfold l; cbn [flat_map]; rewrite (width_box x Bx'), (width_box z Bz'), Ww; reflexivity).
      apply vbox_wide; rewrite FL; [left; reflexivity|intros y [<-|[<-|[<-|[]]]]; reflexivity]. }
    match goal with |- context [largest [wid z] ?w] => set (WB := w); assert (WL' : largest [wid z] WB) by (unfold WB; apply WL) end.
    clearbody WB. clear WL.
    unfold baseline. rewrite Hh, Hdep. unfold l. clear Hh Hdep l.
    rewrite nh_hgt.
    cbn [flat_map app item_extent bar m_height m_depth]. rewrite (extent_box x Bx'), (extent_box z Bz').
    cbn [app qsum fold_right nadd QcNum hgt bar box_metrics m_height].
    change (hgt (bar (wid z) theta)) with theta.
    destruct Hu as (U1 & U2 & U3). destruct Hv as (V1 & V2 & V3).
    rewrite K1, K2. clear K1 K2.
    assert (Hhalf : theta = half * theta + half * theta).
    { apply half_double. }
    set (ht := half * theta) in *. clearbody ht. cbn [num QcNum] in *. rewrite Hhalf. clear Hhalf.
    refine (conj _ (conj _ (conj _ (conj _ (conj _ (conj _ (conj _ (conj _ (conj _ WL'))))))))).
    - ring.
    - replace (hgt x + u - 0 - hgt x) with u by ring. exact U1.
    - qclra.
    - destruct U3 as [U3|U3]; [left; rewrite U3; ring|right; qclra].
    - qclra.
    - qclra.
    - destruct V3 as [V3|V3]; [left; rewrite V3; ring|right; qclra].
    - ring.
    - ring.
  Qed.

  (** * Rules 8 to 11 *)
  Lemma vbox_depth_last (l : list (node QcNum)) x : is_box x ->
    m_depth (b_metrics (vbox (l ++ [x]))) = dep x /\
    m_height (b_metrics (vbox (l ++ [x]))) = qsum (flat_map item_extent l) + hgt x.
  Proof.
    intros Hb. assert (D : m_depth (b_metrics (vbox (l ++ [x]))) = dep x).
    { unfold vbox, vbox_rebox, vbox_info, last_box. cbn [b_list listbox_new]. rewrite rev_app_distr. cbn [rev app].
      destruct Hb as [m Hm]. rewrite Hm. cbn. unfold dep. rewrite Hm. reflexivity. }
    split; [exact D|]. destruct (vbox_dims_lemma (l ++ [x])) as [H _].
    rewrite D, sum_qsum, flat_map_app, qsum_app in H. cbn [flat_map] in H.
    rewrite (extent_box x Hb) in H. cbn [app qsum fold_right] in H.
    set (h := m_height _) in *. clearbody h. cbn [num QcNum] in *.
    assert (h = h + dep x - dep x) as -> by ring. rewrite H. ring.
  Qed.
  Lemma hrule_bar (w t : Qc) : hrule (N := QcNum) w t = bar w t.
  Proof. reflexivity. Qed.
  Lemma baseline_last (l : list (node QcNum)) x : is_box x -> baseline (vbox (l ++ [x])) l x = 0.
  Proof. intros Hb. unfold baseline. destruct (vbox_depth_last l x Hb) as [_ ->]. ring. Qed.

  Lemma rule9_over s a a' : rule9 E rec s a = Ok a' ->
    exists x b, rmap fst (boxit E rec (cramp s) (a_nuc a)) = Ok x /\
      rule17 E rec s (changeType Ord (changeNucleus (vnode b) a)) = Ok a' /\
      (is_box x -> overlined (f_rule (xi E s)) x b).
  Proof.
    unfold rule9. intros H. apply bind_Ok in H. destruct H as (r & Hr & H).
    set (x := fst r) in H. set (theta := f_rule (xi E s)) in *.
    set (b := vbox _) in H.
    exists x, b. split; [rewrite Hr; reflexivity|]. split; [exact H|]. intros Hb.
    assert (Eb : b = vbox ([kern theta; bar (wid x) theta; kern (int 3 * theta)] ++ [x])).
    { unfold b. rewrite nw_wid. reflexivity. }
    exists theta, (int 3 * theta), (wid x). rewrite Eb. clear b Eb H.
    assert (WL : largest [wid x] (m_width (b_metrics (vbox ([kern theta; bar (wid x) theta; kern (int 3 * theta)] ++ [x]))))).
    { assert (FL : flat_map box_width ([kern theta; bar (wid x) theta; kern (int 3 * theta)] ++ [x]) = [wid x; wid x])
        by (cbn [flat_map app]; rewrite (width_box x Hb); reflexivity).
      apply vbox_wide; rewrite FL; [left; reflexivity|intros y [<-|[<-|[]]]; reflexivity]. }
    pose proof (baseline_last [kern theta; bar (wid x) theta; kern (int 3 * theta)] x Hb) as B0.
    destruct (vbox_depth_last [kern theta; bar (wid x) theta; kern (int 3 * theta)] x Hb) as [D H].
    split; [reflexivity|]. split; [reflexivity|]. split; [exact B0|].
    unfold baseline. rewrite H, D. cbn [flat_map app item_extent kern bar m_height m_depth qsum fold_right nadd QcNum].
    change (hgt (bar (wid x) theta)) with theta.
    assert (I5 : int 5 = int 3 + 1 + 1) by (apply Qc_is_canon; reflexivity). rewrite I5.
    clear -theta WL. clearbody theta. cbn [num QcNum] in *.
    split; [ring|]. split; [ring|]. split; [reflexivity|exact WL].
  Qed.

  Lemma rule10_under s a a' : rule10 E rec s a = Ok a' ->
    exists x b, rmap fst (boxit E rec (cramp s) (a_nuc a)) = Ok x /\
      rule17 E rec s (changeType Ord (changeNucleus (vnode b) a)) = Ok a' /\
      (is_box x -> underlined (f_rule (xi E s)) x b).
  Proof.
    unfold rule10. intros H. apply bind_Ok in H. destruct H as (r & Hr & H).
    apply bind_Ok in H. destruct H as (b0 & Hb0 & H).
    set (x := fst r) in *. set (theta := f_rule (xi E s)) in *.
    set (b := set_height_depth _ _ _) in H.
    exists x, b. split; [rewrite Hr; reflexivity|]. split; [exact H|]. intros Hb.
    rewrite nw_wid in Hb0.
    match type of Hb0 with vtop ?t = _ => set (l := t) in * end.
    unfold vtop, make_vtop in Hb0. change (b_list (vbox l)) with l in Hb0. unfold l at 1 in Hb0.
    assert (Tot : m_height (b_metrics (vbox l)) + m_depth (b_metrics (vbox l)) = hgt x + dep x + int 3 * theta + theta).
    { destruct (vbox_dims_lemma l) as [T _]. rewrite sum_qsum in T. rewrite T. unfold l.
      cbn [flat_map]. rewrite (extent_box x Hb). cbn [flat_map app item_extent hrule m_height m_depth qsum fold_right nadd QcNum].
      change (n0 (N := QcNum)) with 0. clear -theta. clearbody theta.
      change (nmul (nz 3) theta) with (int 3 * theta). cbn [num QcNum] in *. ring. }
    assert (Hx : match box_metrics x with Some m => m_height m | None => n0 (N := QcNum) end = hgt x) by reflexivity.
    rewrite Hx in Hb0. cbn beta zeta in Hb0.
    assert (E0 : b_metrics b0 = mkMetrics (N := QcNum) (hgt x) (hgt x + dep x + int 3 * theta + theta - hgt x)
                   (m_width (b_metrics (vbox l))) /\ b_list b0 = l).
    { injection Hb0 as <-. cbn [set_metrics b_metrics b_list]. split; [|reflexivity].
      f_equal. rewrite <- Tot. reflexivity. }
    destruct E0 as [E0 E1].
    assert (E2 : m_height (b_metrics b) = hgt x /\
                 m_depth (b_metrics b) = hgt x + dep x + int 3 * theta + theta - hgt x + theta /\ b_list b = l /\
                 m_width (b_metrics b) = m_width (b_metrics (vbox l))).
    { unfold b, set_height_depth, set_metrics. cbn [b_metrics m_height m_depth m_width b_list]. rewrite E0, E1. auto. }
    destruct E2 as (E2 & E3 & E4 & E5). clearbody b.
    assert (WL : largest [wid x] (m_width (b_metrics b))).
    { rewrite E5. assert (FL : flat_map box_width l = [wid x; wid x])
        by (unfold l; cbn [flat_map app]; rewrite (width_box x Hb); reflexivity).
      apply vbox_wide; rewrite FL; [left; reflexivity|intros y [<-|[<-|[]]]; reflexivity]. }
    clear E5.
    exists (int 3 * theta), (wid x). split; [exact E4|]. split; [reflexivity|].
    unfold baseline. rewrite E2, E3. cbn [flat_map]. rewrite (extent_box x Hb).
    cbn [flat_map app item_extent kern bar m_height m_depth qsum fold_right].
    change (hgt (bar (wid x) theta)) with theta.
    assert (I5 : int 5 = int 3 + 1 + 1) by (apply Qc_is_canon; reflexivity). rewrite I5.
    clear -theta WL. clearbody theta. cbn [num QcNum] in *.
    refine (conj _ (conj _ (conj _ (conj _ WL)))); ring.
  Qed.

  Lemma rule8_axis s a a' : rule8 E rec s a = Ok a' ->
    exists x b, rmap fst (boxit E rec s (a_nuc a)) = Ok x /\
      rule17 E rec s (changeType Ord (changeNucleus (vnode b) a)) = Ok a' /\
      on_axis (f_axis (sg E s)) (b_metrics b) 0 /\
      (is_box x -> m_height (b_metrics b) + m_depth (b_metrics b) = hgt x + dep x) /\
      match x with NList Vertical _ _ _ _ l => b_list b = l | _ => b_list b = [x] end /\
      (is_box x -> 0 <= wid x -> m_width (b_metrics b) = wid x).
  Proof.
    unfold rule8. intros H. apply bind_Ok in H. destruct H as (r & Hr & H). cbv zeta in H.
    set (x := fst r) in *. set (y := match x with NList Vertical m sh ra o l => _ | _ => _ end) in H.
    set (b := set_height_depth _ _ y) in H.
    exists x, b. split; [rewrite Hr; reflexivity|]. split; [exact H|].
    assert (L : match x with NList Vertical _ _ _ _ l => b_list b = l | _ => b_list b = [x] end).
    { unfold b, y. destruct x; try reflexivity. destruct k; reflexivity. }
    assert (T : is_box x -> totalHeight (b_metrics y) = hgt x + dep x).
    { intros Hb. unfold y. destruct x as [| | | | | | |d m sh ra o l] eqn:Q;
        try (rewrite <- Q in *; rewrite vbox_total; cbn [flat_map]; rewrite (extent_box x Hb);
             cbn [app qsum fold_right]; cbn [num QcNum] in *; ring).
      destruct d; [|reflexivity]. rewrite <- Q in *.
      rewrite vbox_total; cbn [flat_map]; rewrite (extent_box x Hb);
             cbn [app qsum fold_right]; cbn [num QcNum] in *; ring. }
    assert (WL : is_box x -> 0 <= wid x -> m_width (b_metrics b) = wid x).
    { intros Hb P. change (m_width (b_metrics b)) with (m_width (b_metrics y)).
      assert (V1 : m_width (b_metrics (vbox [x])) = wid x).
      { destruct (vbox_wide [x] (wid x)) as (A & B & [C|[C|[]]]); [cbn [flat_map app]; rewrite (width_box x Hb); left; reflexivity
          |cbn [flat_map app]; rewrite (width_box x Hb); intros ? [<-|[]]; reflexivity| |congruence].
        apply Qcle_antisym; [rewrite C; exact P|apply B; left; reflexivity]. }
      unfold y. destruct x as [| | | | | | |d m sh ra o l]; try exact V1. destruct d; [exact V1|reflexivity]. }
    set (v := totalHeight (b_metrics y)) in *.
    assert (E1 : m_height (b_metrics b) = half * v + f_axis (sg E s)) by reflexivity.
    assert (E2 : m_depth (b_metrics b) = half * v - f_axis (sg E s)) by reflexivity.
    unfold on_axis. rewrite E1, E2. clear E1 E2. clearbody v b. clear H.
    split; [cbn [num QcNum] in *; ring|]. split; [|split; [exact L|exact WL]].
    intros Hb. rewrite <- (T Hb). cbn [num QcNum] in *.
    transitivity (half * v + half * v); [ring|]. symmetry. apply half_double.
  Qed.

  Lemma delimiter_axis s y h m sh r o l :
    delimiter_box E s y h = NList Horizontal m sh r o l -> on_axis (f_axis (sg E s)) m sh.
  Proof.
    unfold delimiter_box. set (b := hbox _). clearbody b. unfold hnode, node_of, on_axis.
    cbn [b_metrics b_shift setShiftAmount]. intros [= <- <- _ _ _].
    set (p := m_height _). set (q := m_depth _). clearbody p q.
    change (Q2Qc (1 # 2)) with half. set (ax := f_axis _). clearbody ax. cbn [num QcNum] in *.
    pose proof (half_double p) as Hp. pose proof (half_double q) as Hq.
    replace (half * (p - q)) with (half * p - half * q) by ring.
    set (hp := half * p) in *. set (hq := half * q) in *. clearbody hp hq. rewrite Hp, Hq. ring.
  Qed.

  Lemma radical_aligned s x : is_box x ->
    let (y, b) := radical E s x in under_radical y x b.
  Proof.
    intros Hb. unfold radical.
    set (y := radicalSignBox E s _).
    assert (S0 : b_shift y = 0).
    { unfold y, radicalSignBox. destruct (neqb _ _); reflexivity. }
    set (theta := m_height (b_metrics y)).
    set (psi := if nltb _ _ then nmul _ _ else nadd _ _).
    cbn [setShiftAmount]. rewrite S0.
    exists theta, psi, (wid x), theta.
    assert (Q : [NKern theta; hrule (nw x) theta; NKern psi; x] =
                [kern theta; bar (wid x) theta; kern psi] ++ [x]).
    { rewrite nw_wid. reflexivity. }
    rewrite Q. split; [reflexivity|]. split; [reflexivity|].
    split; [apply baseline_last; exact Hb|]. split; [reflexivity|].
    unfold baseline. destruct (vbox_depth_last [kern theta; bar (wid x) theta; kern psi] x Hb) as [_ ->].
    rewrite nh_hgt. cbn [setShiftAmount b_shift flat_map app item_extent kern bar m_height m_depth qsum fold_right nadd nsub QcNum].
    change (hgt (bar (wid x) theta)) with theta. clearbody theta psi. cbn [num QcNum] in *. ring.
  Qed.
  Lemma rule11_radical s a a' : rule11 E rec s a = Ok a' ->
    exists x y b, rmap fst (boxit E rec (cramp s) (a_nuc a)) = Ok x /\
      rule17 E rec s (changeType Ord (changeNucleus (hnode (hbox [vnode y; vnode b])) a)) = Ok a' /\
      (is_box x -> under_radical y x b).
  Proof.
    unfold rule11. intros H. apply bind_Ok in H. destruct H as (r & Hr & H).
    pose proof (radical_aligned s (fst r)) as R. destruct (radical E s (fst r)) as [y b].
    exists (fst r), y, b. split; [rewrite Hr; reflexivity|]. split; [exact H|exact R].
  Qed.

  (** * Rule 18: one script *)
  Lemma nmax_greatest (a b : Qc) : greatest [a; b] (nmax (N := QcNum) a b).
  Proof.
    unfold nmax. cbn [nltb QcNum]. destruct (Qc_ltb a b) eqn:Q; qc_bool; split; cbn; auto;
      intros y [<-|[<-|[]]]; auto using Qcle_refl, Qclt_le_weak.
  Qed.
  Lemma nmax3_greatest (a b c : Qc) : greatest [a; b; c] (nmax3 (N := QcNum) a b c).
  Proof.
    unfold nmax3. destruct (nmax_greatest a b) as [I1 M1].
    destruct (nmax_greatest (nmax (N := QcNum) a b) c) as [I2 M2].
    pose proof (M2 _ (or_introl eq_refl)) as L1. pose proof (M2 _ (or_intror (or_introl eq_refl))) as L2.
    split.
    - destruct I2 as [<-|[<-|[]]]; [|cbn; auto]. destruct I1 as [<-|[<-|[]]]; cbn; auto.
    - intros y [<-|[<-|[<-|[]]]]; [|  |exact L2].
      + eapply Qcle_trans; [apply M1; cbn; auto|exact L1].
      + eapply Qcle_trans; [apply M1; cbn; auto|exact L1].
  Qed.
  Lemma nabs_absolute (x : Qc) : nabs (N := QcNum) x = absolute x.
  Proof.
    unfold nabs, absolute. cbn [nltb QcNum]. change (n0 (N := QcNum)) with 0.
    destruct (Qc_ltb x 0) eqn:Q; qc_bool; destruct (Qclt_le_dec x 0) as [L|L]; try reflexivity.
    - exfalso. exact (Qclt_not_le _ _ Q L).
    - exfalso. exact (Qclt_not_le _ _ L Q).
  Qed.
  Lemma add_space_spaced (sp : Qc) x0 x : is_box x0 -> add_space (N := QcNum) sp x0 = Ok x -> spaced x0 sp x.
  Proof.
    intros Hb. unfold add_space. destruct (isCharacterBox x0).
    - intros [= <-]. split.
      + unfold wid at 1. cbn [box_metrics hnode node_of].
        destruct (hbox_dims_lemma [x0; NKern (N := QcNum) sp]) as (-> & _). rewrite sum_qsum.
        destruct Hb as [m Hm]. unfold wid. rewrite Hm.
        destruct x0; try discriminate; injection Hm as ->; cbn [flat_map item_width app qsum fold_right];
          cbn [num QcNum] in *; ring.
      + left. split; [reflexivity|]. do 3 eexists. reflexivity.
    - unfold enlarge. destruct x0; try discriminate. intros [= <-]. split; [reflexivity|].
      right. do 6 eexists. split; reflexivity.
  Qed.
  Lemma add_space_box (sp : Qc) x0 x : add_space (N := QcNum) sp x0 = Ok x -> is_box x.
  Proof.
    unfold add_space. destruct (isCharacterBox x0); [intros [= <-]; eexists; reflexivity|].
    unfold enlarge. destruct x0; try discriminate. intros [= <-]. eexists; reflexivity.
  Qed.
  Lemma shift_hbox_shifted x (d : Qc) x' : shift_hbox (N := QcNum) x d = Ok x' -> shifted x d x'.
  Proof. unfold shift_hbox. destruct x; try discriminate. destruct k; try discriminate. intros [= <-]. do 6 eexists. split; reflexivity. Qed.
  Lemma shift_list_shifted x (d : Qc) x' : shift_list (N := QcNum) x d = Ok x' -> shifted x d x'.
  Proof. unfold shift_list. destruct x; try discriminate. intros [= <-]. do 6 eexists. split; reflexivity. Qed.
  Lemma shifted_same x d x' : shifted x d x' -> wid x' = wid x /\ hgt x' = hgt x /\ dep x' = dep x /\ is_box x'.
  Proof. intros (k & m & s & r & o & l & -> & ->). repeat split. eexists; reflexivity. Qed.

  Definition four_fifths : Qc := int 4 / int 5.

  Lemma super_only s nuc a a' f x0 : a_sub a = None -> a_sup a = Some f ->
    rmap fst (boxit E rec (sup s) (Some f)) = Ok x0 -> is_box x0 ->
    attachSubSup E rec s nuc a = Ok a' ->
    exists x x' up,
      a_nuc a' = Some (FBox (hnode (hbox [nuc; x']))) /\
      spaced x0 (half * f_rule (xi E s)) x /\ shifted x (- up) x' /\
      greatest [ if isCharacterBox nuc then 0 else hgt nuc - f_supDrop (sg E (sup s));
                 if style_eqb s D then f_sup1 (sg E s)
                 else if style_eqb s (cramp s) then f_sup3 (sg E s) else f_sup2 (sg E s);
                 dep x' + four_fifths * absolute (f_xHeight (sg E s)) ] up.
  Proof.
    intros Hsb Hsp Hx Hb H. unfold attachSubSup in H. rewrite Hsb, Hsp in H.
    set (uv := if isCharacterBox nuc then _ else _) in H.
    assert (Huv : fst uv = if isCharacterBox nuc then 0 else hgt nuc - f_supDrop (sg E (sup s))).
    { unfold uv. rewrite nh_hgt. destruct (isCharacterBox nuc); reflexivity. }
    destruct uv as [u v]. cbn [fst] in Huv.
    apply bind_Ok in H. destruct H as (r & Hr & H). rewrite Hr in Hx. injection Hx as Hx.
    apply bind_Ok in H. destruct H as (x & Ha & H). rewrite Hx in Ha.
    apply bind_Ok in H. destruct H as (x' & Hs & H). 
    match type of Hs with shift_hbox x (nopp ?w) = _ => set (up := w) in Hs end.
    exists x, x', up. split; [injection H as <-; reflexivity|].
    split; [exact (add_space_spaced _ x0 x Hb Ha)|].
    apply shift_hbox_shifted in Hs.
    assert (Hneg : nopp (N := QcNum) up = - up).
    { unfold nopp. cbn [nmul nlit QcNum]. change (Q2Qc (inject_Z (-1))) with (- (1)).
      generalize up. clear. intros up. cbn [num QcNum] in *. ring. }
    rewrite Hneg in Hs. split; [exact Hs|].
    destruct (shifted_same _ _ _ Hs) as (_ & _ & -> & _).
    assert (G : greatest [u; if style_eqb s D then f_sup1 (sg E s)
                 else if style_eqb s (cramp s) then f_sup3 (sg E s) else f_sup2 (sg E s);
                 dep x + four_fifths * absolute (f_xHeight (sg E s))] up).
    { unfold up. rewrite nabs_absolute, nd_dep. apply nmax3_greatest. }
    rewrite Huv in G. exact G.
  Qed.

  Lemma sub_only s nuc a a' f x0 : a_sub a = Some f -> a_sup a = None ->
    rmap fst (boxit E rec (sub s) (Some f)) = Ok x0 -> is_box x0 ->
    attachSubSup E rec s nuc a = Ok a' ->
    exists x x' down,
      a_nuc a' = Some (FBox (hnode (hbox [nuc; x']))) /\
      spaced x0 (half * f_rule (xi E s)) x /\ shifted x down x' /\
      greatest [ if isCharacterBox nuc then 0 else dep nuc + f_subDrop (sg E (sub s));
                 f_sub1 (sg E s);
                 hgt x' - four_fifths * absolute (f_xHeight (sg E s)) ] down.
  Proof.
    intros Hsb Hsp Hx Hb H. unfold attachSubSup in H. rewrite Hsb, Hsp in H.
    set (uv := if isCharacterBox nuc then _ else _) in H.
    assert (Huv : snd uv = if isCharacterBox nuc then 0 else dep nuc + f_subDrop (sg E (sub s))).
    { unfold uv. rewrite nd_dep. destruct (isCharacterBox nuc); reflexivity. }
    destruct uv as [u v]. cbn [snd] in Huv.
    apply bind_Ok in H. destruct H as (r & Hr & H). rewrite Hr in Hx. injection Hx as Hx.
    apply bind_Ok in H. destruct H as (x & Ha & H). rewrite Hx in Ha.
    apply bind_Ok in H. destruct H as (x' & Hs & H).
    match type of Hs with shift_hbox x ?w = _ => set (down := w) in Hs end.
    exists x, x', down. split; [injection H as <-; reflexivity|].
    split; [exact (add_space_spaced _ x0 x Hb Ha)|].
    apply shift_hbox_shifted in Hs. split; [exact Hs|].
    destruct (shifted_same _ _ _ Hs) as (_ & -> & _ & _).
    assert (G : greatest [v; f_sub1 (sg E s);
                 hgt x - four_fifths * absolute (f_xHeight (sg E s))] down).
    { unfold down. rewrite nabs_absolute, nh_hgt. apply nmax3_greatest. }
    rewrite Huv in G. exact G.
  Qed.

  (** * Rule 13 *)
  Definition has_limits (l : limits) (s : style) : bool :=
    match l with Limits => true | DisplayLimits => style_gtb s T | NoLimits => false end.
  (** the box of the operator and its slant *)
  Definition operator (s : style) (f : option (mfield QcNum)) (y : node QcNum) (slant : Qc) : Prop :=
    match f with
    | Some (FSym q) =>
        if style_gtb s T
        then y = hnode (hbox [e_largeop E q]) /\ slant = e_italic E q (s_fam q) (fsize_of s)
        else typeset E s q = Ok y /\ slant = 0
    | _ => rmap fst (boxit E rec s f) = Ok y /\ slant = 0
    end.
  Definition script (s : style) (f : option (mfield QcNum)) (x : option (node QcNum)) : Prop :=
    match f, x with
    | None, None => True
    | Some _, Some x => rmap fst (boxit E rec s f) = Ok x
    | _, _ => False
    end.
  Lemma widen_centred w x : is_box x -> wid x <= w -> forall x1 n, widen (N := QcNum) w x = (x1, n) ->
    centred x x1 /\ wid x1 = w /\ is_box x1.
  Proof.
    intros Hb Hw x1 n. unfold widen. rewrite nw_wid. cbn [nltb QcNum].
    destruct (Qc_ltb (wid x) w) eqn:Q; qc_bool; intros [= <- _].
    - split; [right; apply springs|]. split; [exact (spring_width x w Hb Q)|eexists; reflexivity].
    - split; [left; reflexivity|]. split; [apply Qcle_antisym; assumption|exact Hb].
  Qed.

  Lemma rule13_limits s a a' : has_limits (a_lim a) s = true -> rule13 E rec s a = Ok a' ->
    exists top y bottom slant b,
      operator s (a_nuc a) y slant /\ script (sup s) (a_sup a) top /\ script (sub s) (a_sub a) bottom /\
      a_nuc a' = Some (FBox (vnode b)) /\
      ((forall x, top = Some x -> is_box x) -> is_box y -> (forall x, bottom = Some x -> is_box x) ->
       limits_box (f_big1 (xi E s)) (f_big3 (xi E s)) (f_big2 (xi E s)) (f_big4 (xi E s)) (f_big5 (xi E s))
         slant top y bottom b).
  Proof.
    intros Hl H. unfold rule13 in H. fold (has_limits (a_lim a) s) in H. rewrite Hl in H. cbn [negb] in H.
    apply bind_Ok in H. destruct H as ([a1 delta] & H1 & H).
    assert (A1 : a_sub a1 = a_sub a /\ a_sup a1 = a_sup a /\
                 forall r, boxit E rec s (a_nuc a1) = Ok r -> operator s (a_nuc a) (fst r) delta).
    { unfold operator. destruct (a_nuc a) as [[q|n|l|]|] eqn:Q; try discriminate.
      - destruct (style_gtb s T).
        + destruct (family_ok (s_fam q)); [|discriminate]. injection H1 as <- <-.
          split; [reflexivity|]. split; [reflexivity|]. intros r [= <-]. split; reflexivity.
        + injection H1 as <- <-. split; [reflexivity|]. split; [reflexivity|]. rewrite Q. cbn [boxit]. intros r Hr.
          apply bind_Ok in Hr. destruct Hr as (n & Hn & [= <-]). split; [exact Hn|reflexivity].
      - injection H1 as <- <-. split; [reflexivity|]. split; [reflexivity|]. rewrite Q. intros r ->. split; reflexivity.
      - injection H1 as <- <-. split; [reflexivity|]. split; [reflexivity|]. rewrite Q. intros r ->. split; reflexivity.
      - injection H1 as <- <-. split; [reflexivity|]. split; [reflexivity|]. rewrite Q. intros r ->. split; reflexivity. }
    destruct A1 as (Hsb & Hsp & Hop). clear H1. rewrite Hsb, Hsp in H.
    apply bind_Ok in H. destruct H as (rx & Hx & H).
    apply bind_Ok in H. destruct H as (ry & Hy & H).
    apply bind_Ok in H. destruct H as (rz & Hz & H).
    rewrite !nw_wid in H. set (w := nmax3 _ _ _) in H.
    assert (G : greatest [wid (fst rx); wid (fst ry); wid (fst rz)] w) by apply nmax3_greatest. clearbody w.
    destruct (widen w (fst rx)) as [x xn] eqn:Wx. destruct (widen w (fst ry)) as [y yn] eqn:Wy.
    destruct (widen w (fst rz)) as [z zn] eqn:Wz.
    set (top := match a_sup a with Some _ => Some (fst rx) | None => None end).
    set (bottom := match a_sub a with Some _ => Some (fst rz) | None => None end).
    assert (Gx : match top with Some x => wid x | None => 0 end = wid (fst rx)).
    { unfold top. destruct (a_sup a); [reflexivity|]. injection Hx as <-. reflexivity. }
    assert (Gz : match bottom with Some x => wid x | None => 0 end = wid (fst rz)).
    { unfold bottom. destruct (a_sub a); [reflexivity|]. injection Hz as <-. reflexivity. }
    apply bind_Ok in H. destruct H as (r & Hr & H).
    apply bind_Ok in H. destruct H as (q & Hq & H).
    exists top, (fst ry), bottom, delta, (fst q).
    split; [exact (Hop ry Hy)|].
    split. { unfold top, script. destruct (a_sup a); [rewrite Hx; reflexivity|exact I]. }
    split. { unfold bottom, script. destruct (a_sub a); [rewrite Hz; reflexivity|exact I]. }
    split; [injection H as <-; reflexivity|]. clear H.
    intros Bx By Bz. destruct G as [Gi Gm].
    destruct (widen_centred w (fst ry) By (Gm _ (or_intror (or_introl eq_refl))) y yn Wy) as (Cy & Wdy & By').
    assert (Above : match top with
                    | None => fst r = []
                    | Some x => exists x1 x' k, fst r = [kern (f_big5 (xi E s)); x'; kern k] /\
                        centred x x1 /\ wid x' = w /\ shifted x1 (half * delta) x' /\
                        greatest [(f_big1 (xi E s) : Qc); f_big3 (xi E s) - dep x'] k
                    end).
    { unfold top in *. destruct (a_sup a) as [f|].
      - apply bind_Ok in Hr. destruct Hr as (x' & Hs & [= <-]).
        destruct (widen_centred w (fst rx) (Bx _ eq_refl) (Gm _ (or_introl eq_refl)) x xn Wx) as (Cx & Wdx & _).
        apply shift_list_shifted in Hs. destruct (shifted_same _ _ _ Hs) as (S1 & S2 & S3 & _).
        exists x, x'. eexists. split; [reflexivity|]. split; [exact Cx|]. split; [rewrite S1; exact Wdx|].
        split; [exact Hs|]. rewrite nd_dep. apply nmax_greatest.
      - injection Hr as <-. reflexivity. }
    clearbody top. clear Bx Hr.
    set (b1 := vbox (fst r ++ [y])) in Hq.
    assert (Hh : m_height (b_metrics b1) = qsum (flat_map item_extent (fst r)) + hgt y) by apply (vbox_depth_last _ _ By').
    assert (Ht : nsub (totalHeight (b_metrics b1)) (nd y) = qsum (flat_map item_extent (fst r)) + hgt y).
    { rewrite nd_dep. unfold b1. rewrite vbox_total, flat_map_app, qsum_app. cbn [flat_map].
      rewrite (extent_box y By'). cbn [app qsum fold_right nsub QcNum]. cbn [num QcNum] in *. ring. }
    assert (Below : (match bottom with None => q = (b1, None) | _ => True end) /\
              exists below, b_list (fst q) = fst r ++ y :: below /\
                m_height (b_metrics (fst q)) = qsum (flat_map item_extent (fst r)) + hgt y /\
                m_width (b_metrics (fst q)) = m_width (b_metrics (vbox (fst r ++ y :: below))) /\
                match bottom with
                | None => below = []
                | Some z => exists z1 z' k, below = [kern k; z'; kern (f_big5 (xi E s))] /\
                        centred z z1 /\ wid z' = w /\ shifted z1 (- half * delta) z' /\
                        greatest [(f_big2 (xi E s) : Qc); f_big4 (xi E s) - hgt z'] k
                end).
    { unfold bottom in *. destruct (a_sub a) as [f|].
      - split; [exact I|]. apply bind_Ok in Hq. destruct Hq as (z' & Hs & [= <-]).
        destruct (widen_centred w (fst rz) (Bz _ eq_refl) (Gm _ (or_intror (or_intror (or_introl eq_refl)))) z zn Wz)
          as (Cz & Wdz & _).
        apply shift_list_shifted in Hs. destruct (shifted_same _ _ _ Hs) as (S1 & S2 & S3 & _).
        eexists. cbn [fst]. split; [|split; [exact Ht|split]].
        + cbn [changeHeight set_metrics b_list vbox_rebox set_list]. unfold b1.
          change (b_list (vbox (fst r ++ [y]))) with (fst r ++ [y]). rewrite <- app_assoc. reflexivity.
        + match goal with |- _ = m_width (b_metrics (vbox (fst r ++ y :: ?L))) =>
            transitivity (m_width (b_metrics (vbox ((fst r ++ [y]) ++ L)))); [reflexivity|rewrite <- app_assoc; reflexivity] end.
        + exists z, z'. eexists. split; [reflexivity|]. split; [exact Cz|]. split; [rewrite S1; exact Wdz|].
          split; [|rewrite S2, nh_hgt; apply nmax_greatest].
          assert (Hm : nmul (nopp nhalf) delta = - half * delta).
          { unfold nopp, nhalf. cbn [nmul nlit QcNum]. change (Q2Qc (inject_Z (-1))) with (- (1)).
            change (Q2Qc (1 # 2)) with half. cbn [num QcNum] in *. ring. }
          rewrite <- Hm. exact Hs.
      - injection Hq as <-. split; [reflexivity|]. exists []. split; [reflexivity|]. split; [exact Hh|]. split; reflexivity. }
    destruct Below as (_ & below & L1 & L2 & L4 & L3).
    exists (fst r), y, below, w. split; [exact L1|]. split; [exact Cy|]. split; [exact Wdy|].
    split. { unfold baseline. rewrite L2. ring. }
    split. { rewrite Gx, Gz. split; [exact Gi|exact Gm]. }
    split; [exact Above|]. split; [exact L3|]. rewrite L4.
    assert (Wx' : forall x', wid x' = w -> forall v, In v (box_width x') -> v = w).
    { intros x' <- v. unfold wid. destruct x'; cbn [box_width In box_metrics]; intros HI; try (destruct HI as [<-|[]]; reflexivity); destruct HI. }
    apply vbox_wide.
    - rewrite flat_map_app. apply in_or_app. right. cbn [flat_map]. rewrite (width_box y By'), Wdy. left. reflexivity.
    - intros v HI. rewrite flat_map_app in HI. apply in_app_or in HI. destruct HI as [HI|HI].
      + destruct top as [tx|]; [|rewrite Above in HI; destruct HI]. destruct Above as (x1 & x' & k & Ea & _ & Wt & _). rewrite Ea in HI.
        cbn [flat_map box_width kern app] in HI. rewrite app_nil_r in HI. exact (Wx' x' Wt v HI).
      + cbn [flat_map] in HI. apply in_app_or in HI. destruct HI as [HI|HI]; [exact (Wx' y Wdy v HI)|].
        destruct bottom as [bz|]; [|rewrite L3 in HI; destruct HI]. destruct L3 as (z1 & z' & k & Ea & _ & Wt & _). rewrite Ea in HI.
        cbn [flat_map box_width kern app] in HI. rewrite app_nil_r in HI. exact (Wx' z' Wt v HI).
  Qed.
End Geometry.

(** * Two scripts: the subscript is not used *)
Section TwoScripts.
  Context {N : Num}.
  Variable E : engine N.
  Definition seen (a : natom N) : Z * option (mfield N) := (a_ty a, a_nuc a).
  Lemma two_scripts_attach rec s nuc a sp sb sb' :
    rmap seen (attachSubSup E rec s nuc (setSubSup (Some sb) (Some sp) a)) =
    rmap seen (attachSubSup E rec s nuc (setSubSup (Some sb') (Some sp) a)).
  Proof.
    unfold attachSubSup. cbn [a_sub a_sup setSubSup].
    destruct (if isCharacterBox nuc then (n0, n0) else _) as [u v].
    destruct (boxit E rec (sup s) (Some sp)) as [r| | | |]; try reflexivity. cbn [bind].
    destruct (add_space _ (fst r)) as [x| | | |]; try reflexivity. cbn [bind].
    match goal with |- rmap _ (bind ?e _) = _ => destruct e as [q| | | |]; try reflexivity end. cbn [bind].
    destruct (add_space _ (fst q)) as [y| | | |]; try reflexivity. cbn [bind].
    match goal with |- rmap _ (let (_, _) := ?e in _) = _ => destruct e as [u' v'] end.
    match goal with |- rmap _ (bind ?e _) = _ => destruct e as [x'| | | |]; try reflexivity end.
  Qed.
  Lemma two_scripts_rule17 rec s a sp sb sb' :
    rmap seen (rule17 E rec s (setSubSup (Some sb) (Some sp) a)) =
    rmap seen (rule17 E rec s (setSubSup (Some sb') (Some sp) a)).
  Proof.
    unfold rule17. cbn [a_nuc setSubSup]. destruct (boxit E rec s (a_nuc a)) as [r| | | |]; try reflexivity.
    cbn [bind]. exact (two_scripts_attach rec s (fst r) (changeNucleus (fst r) a) sp sb sb').
  Qed.
  Theorem two_scripts_output n p s nu sp sb sb' ac li :
    rmap fst (mlist2hlist E n p s [MAtom (mkAtom Ord nu (Some sb) (Some sp) ac li)]) =
    rmap fst (mlist2hlist E n p s [MAtom (mkAtom Ord nu (Some sb') (Some sp) ac li)]).
  Proof.
    destruct n as [|n]; [reflexivity|]. cbn [mlist2hlist]. destruct n as [|n]; [reflexivity|].
    cbn [loop p_rest step].
    set (R := mlist2hlist E (Datatypes.S n) default_penalties).
    pose proof (two_scripts_rule17 R s (mkAtom Ord nu None None ac li) sp sb sb') as H.
    unfold setSubSup in H. cbn [a_ty a_nuc a_acc a_lim] in H.
    change (rule6 (mkP [] [MAtom (mkAtom Ord nu (Some sb) (Some sp) ac li)] s None) _)
      with (mkP [] [MAtom (mkAtom Ord nu (Some sb) (Some sp) ac li)] s None).
    change (rule6 (mkP [] [MAtom (mkAtom Ord nu (Some sb') (Some sp) ac li)] s None) _)
      with (mkP [] [MAtom (mkAtom Ord nu (Some sb') (Some sp) ac li)] s None).
    change (process_atom E R (p_style (mkP [] [MAtom (mkAtom Ord nu (Some sb) (Some sp) ac li)] s None)) _ _
              (mkAtom Ord nu (Some sb) (Some sp) ac li))
      with (rule17 E R s (mkAtom Ord nu (Some sb) (Some sp) ac li)).
    change (process_atom E R (p_style (mkP [] [MAtom (mkAtom Ord nu (Some sb') (Some sp) ac li)] s None)) _ _
              (mkAtom Ord nu (Some sb') (Some sp) ac li))
      with (rule17 E R s (mkAtom Ord nu (Some sb') (Some sp) ac li)).
    destruct (rule17 E R s (mkAtom Ord nu (Some sb) (Some sp) ac li)) as [a1| | | |],
             (rule17 E R s (mkAtom Ord nu (Some sb') (Some sp) ac li)) as [a2| | | |];
      try discriminate H; try reflexivity.
    cbn [rmap] in H. injection H as H1 H2. cbn [bind].
    assert (Hl : forall st, p_rest st = [] -> loop E R n st = Ok st).
    { intros [d r st k] Hr. cbn in Hr. subst r. destruct n; reflexivity. }
    rewrite !Hl by reflexivity.
    cbn [bind p_done advance_atom app currents flat_map it_cur processBoundary emit rmap fst map].
    unfold nucleus_of. rewrite H1, H2. reflexivity.
  Qed.
End TwoScripts.
