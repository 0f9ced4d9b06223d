(** Radical signs, accents, roots, two scripts and matrices. *)
From Coq Require Import List QArith Qcanon ZArith Bool Lia Arith.
From Verif.Base Require Import Result Num.
From Verif.Model Require Import Glue Box ListBuilders MathList MathTypeset.
From Verif.Spec Require Import BoxSpec MathSpec TypesetSpec GeometrySpec.
From Verif.Proofs Require Import BoxProofs ListBuilderProofs TypesetTypes TypesetBoxes TypesetGeometry TypesetAlone.
Import ListNotations.
Local Open Scope Qc_scope.

Section More.
  Variable E : engine QcNum.

  (** * Radical signs *)
  Lemma sign_box s h : b_list (radicalSignBox E s h) = [e_radical E h] /\
    m_height (b_metrics (radicalSignBox E s h)) = f_rule (extension E s) /\ b_shift (radicalSignBox E s h) = 0.
  Proof.
    unfold radicalSignBox. rewrite xi_eq.
    destruct (neqb _ _) eqn:Q; [|split; [|split]; reflexivity].
    split; [reflexivity|]. split; [|reflexivity]. cbn [neqb QcNum] in Q. qc_bool. exact Q.
  Qed.
  Lemma quarter_clearance s :
    nadd (n := QcNum) (f_rule (xi E s)) (nmul (nlit (1 # 4)) (nabs (if style_gtb s T then f_xHeight (sg E s) else f_rule (xi E s))))
      = clearance E s.
  Proof. rewrite xi_eq, sg_eq, display_eq, nabs_absolute. reflexivity. Qed.
  (** the sign is never taken to be too large *)
  Lemma radical_gap s x : is_box x -> 0 <= clearance E s + f_rule (extension E s) ->
    let (y, b) := radical E s x in radical_sign E s (clearance E s) y x b /\ under_radical y x b.
  Proof.
    intros Hb Hp. pose proof (radical_aligned E s x Hb) as A. unfold radical in *.
    rewrite quarter_clearance in *. set (psi := clearance E s) in *.
    set (y := radicalSignBox E s _) in *.
    destruct (sign_box s (nadd (n := QcNum) (nadd (n := QcNum) psi (f_rule (xi E s))) (nt x))) as (S1 & S2 & S3). fold y in S1, S2, S3.
    assert (Q : nltb (n := QcNum) (nadd (n := QcNum) psi (totalHeight (b_metrics y))) (m_depth (b_metrics y)) = false).
    { cbn [nltb nadd QcNum]. unfold totalHeight. cbn [nadd QcNum]. destruct (Qc_ltb _ _) eqn:Q; [|reflexivity]. qc_bool.
      exfalso. rewrite S2 in Q. cbn [num QcNum] in *. clear -Q Hp. set (d := m_depth _) in Q. clearbody d psi. qclra. }
    rewrite Q in *. split; [|exact A].
    assert (L : [NKern (N := QcNum) (m_height (b_metrics y)); hrule (nw x) (m_height (b_metrics y)); NKern (N := QcNum) psi; x]
                = [kern (m_height (b_metrics y)); bar (wid x) (m_height (b_metrics y)); kern psi] ++ [x]).
    { rewrite nw_wid. reflexivity. }
    unfold radical_sign. rewrite L. rewrite S2 in *. clear L A Q.
    destruct (vbox_depth_last [kern (f_rule (extension E s)); bar (wid x) (f_rule (extension E s)); kern psi] x Hb) as [D H].
    cbn [setShiftAmount b_list b_metrics b_shift].
    split. { rewrite S1. rewrite nt_sum, xi_eq. reflexivity. }
    split; [exact S2|]. split.
    { rewrite S3, nh_hgt. cbn [nsub nadd QcNum]. cbn [num QcNum] in *. ring. }
    split; [|exact D]. rewrite H.
    cbn [flat_map app item_extent kern bar m_height m_depth qsum fold_right nadd QcNum].
    set (t := f_rule _). clearbody t psi. cbn [num QcNum] in *. ring.
  Qed.
  Lemma clearance_nonneg s : 0 <= f_rule (extension E s) -> 0 <= clearance E s + f_rule (extension E s).
  Proof.
    intros Hr. unfold clearance. set (t := f_rule (extension E s)) in *. set (q := if in_display s then _ else _).
      assert (Q : 0 <= absolute q).
      { unfold absolute. destruct (Qclt_le_dec q 0); [clearbody q; qclra|assumption]. }
      set (v := absolute q) in *. clearbody t v.
      assert (Q4 : 0 <= Q2Qc (1 # 4) * v).
      { replace 0 with (Q2Qc (1 # 4) * 0) by ring. rewrite !(Qcmult_comm (Q2Qc (1 # 4))). apply Qcmult_le_compat_r; [exact Q|discriminate]. }
      set (w := Q2Qc (1 # 4) * v) in *. clearbody w. cbn [num QcNum] in *. qclra.
  Qed.
  Theorem radical_clearance n p s g sb sp ac li out x : 0 <= f_rule (extension E s) ->
    mlist2hlist E n p s [atom_with Rad g sb sp ac li] = Ok (out, x) ->
    exists u sign b, field_box E (low_style s) g u /\
      (is_box u -> radical_sign E s (clearance E s) sign u b /\ under_radical sign u b) /\
      mlist2hlist E n p s [atom_with Ord (FBox (hnode (hbox [vnode sign; vnode b]))) sb sp ac li] = Ok (out, x).
  Proof.
    intros Hr H. apply one_atom in H. destruct H as (m & a' & -> & H & -> & ->).
    change (process_atom _ _ _ _ _ _) with (rule11 E (inner_call E (Datatypes.S m)) s (mkAtom Rad (Some g) sb sp ac li)) in H.
    unfold rule11 in H. apply bind_Ok in H. destruct H as (r & Hq & H).
    pose proof (clearance_nonneg s Hr) as Hc.
    pose proof (fun Hb => radical_gap s (fst r) Hb Hc) as R. destruct (radical E s (fst r)) as [y b].
    cbn [a_nuc] in Hq. rewrite cramp_eq in Hq.
    exists (fst r), y, b. split; [apply (boxit_field E (Datatypes.S m)); rewrite Hq; reflexivity|].
    split; [exact R|]. exact (then_ordinary E m p s _ a' _ H).
  Qed.
  (** * Accents *)
  Lemma accent_box (delta u : Qc) x y : is_box x ->
    let b := hbox [y] in
    let b := setShiftAmount b (nadd (n := QcNum) (b_shift b) (nmul (n := QcNum) nhalf (nsub (n := QcNum) u (m_width (b_metrics b))))) in
    let z := vbox [hnode b; NKern (N := QcNum) (nopp (N := QcNum) delta); x] in
    let z := if nltb (m_height (b_metrics z)) (nh x)
             then vbox_rebox (set_list z (NKern (nsub (nh x) (m_height (b_metrics z))) :: b_list z))
             else z in
    accented delta u y x z.
  Proof.
    intros Hb. cbv zeta. set (hb := hbox [y]).
    assert (Hs : b_shift hb = 0) by reflexivity.
    set (sh := nadd (b_shift hb) _).
    assert (Esh : sh = half * (u - m_width (b_metrics hb))).
    { unfold sh. rewrite Hs. change (0 + half * (u - m_width (b_metrics hb)) = half * (u - m_width (b_metrics hb))). apply Qcplus_0_l. }
    clearbody sh. subst sh.
    set (a := NList (N := QcNum) Horizontal (b_metrics hb) (half * (u - m_width (b_metrics hb))) (b_ratio hb) (b_order hb) [y]).
    change (hnode (setShiftAmount hb (half * (u - m_width (b_metrics hb))))) with a.
    change (NKern (N := QcNum) (nopp (N := QcNum) delta)) with (kern (- delta)).
    assert (Ha : is_box y -> m_width (b_metrics hb) = wid y).
    { intros [m Hm]. destruct (hbox_dims_lemma [y]) as (W & _). unfold hb. rewrite W, sum_qsum. unfold wid. rewrite Hm.
      destruct y; try discriminate; injection Hm as ->; exact (Qcplus_0_r _). }
    assert (La : item_extent (N := QcNum) a = [m_height (b_metrics hb) + m_depth (b_metrics hb)]) by reflexivity.
    assert (K : forall k : Qc, flat_map item_extent [kern k] = [k]) by reflexivity.
    change [a; kern (- delta); x] with ([a; kern (- delta)] ++ [x]).
    destruct (vbox_depth_last [a; kern (- delta)] x Hb) as [D H].
    cbn [flat_map] in H. rewrite La in H. cbn [item_extent kern qsum fold_right] in H.
    change ([?p] ++ [?q] ++ []) with [p; q] in H. cbn [fold_right] in H.
    set (hh := m_height (b_metrics hb)) in *. set (hd := m_depth (b_metrics hb)) in *.
    rewrite nh_hgt. cbn [nltb nsub QcNum].
    destruct (Qc_ltb _ _) eqn:Q; qc_bool.
    - set (z := vbox ([a; kern (- delta)] ++ [x])) in *.
      set (k := hgt x - m_height (b_metrics z)) in *.
      change (b_list z) with ([a; kern (- delta)] ++ [x]).
      change (vbox_rebox (set_list z (NKern (N := QcNum) k :: [a; kern (- delta)] ++ [x])))
        with (vbox_rebox (set_list z (([kern k; a; kern (- delta)]) ++ [x]))).
      destruct (vbox_depth_last [kern k; a; kern (- delta)] x Hb) as [D' H'].
      assert (Ez : b_metrics (vbox_rebox (set_list z ([kern k; a; kern (- delta)] ++ [x])))
                 = b_metrics (vbox ([kern k; a; kern (- delta)] ++ [x]))) by reflexivity.
      assert (El : b_list (vbox_rebox (set_list z ([kern k; a; kern (- delta)] ++ [x])))
                 = [kern k; a; kern (- delta)] ++ [x]) by reflexivity.
      cbn [flat_map] in H'. rewrite La in H'. cbn [item_extent kern qsum fold_right] in H'.
      change ([?p] ++ [?q] ++ [?r] ++ []) with [p; q; r] in H'. cbn [qsum fold_right] in H'.
      assert (Hk' : hgt x = k + (hh + hd + (- delta + 0)) + hgt x).
      { unfold k. rewrite H. cbn [qsum fold_right]. clearbody hh hd. cbn [num QcNum] in *. ring. }
      exists [kern k], (b_metrics hb), (b_ratio hb), (b_order hb). fold a.
      split; [exact El|]. split; [|split; [|split; [|split; [|split]]]].
      + exact Ha.
      + unfold baseline. rewrite Ez, H'. cbn [flat_map app]. rewrite La. cbn [item_extent kern qsum fold_right app]. clear -hh. clearbody hh hd k. cbn [num QcNum] in *. ring.
      + unfold baseline. rewrite Ez, H'. cbn [flat_map app item_extent kern qsum fold_right]. change (hgt a) with hh. fold hd. clear -hh. clearbody hh hd k. cbn [num QcNum] in *. ring.
      + rewrite Ez. exact D'.
      + rewrite Ez, H'. fold hh hd. rewrite <- Hk'. apply Qcle_refl.
      + right. exists k. split; [reflexivity|]. rewrite Ez, H'. symmetry. exact Hk'.
    - exists [], (b_metrics hb), (b_ratio hb), (b_order hb). fold a.
      split; [reflexivity|]. split; [exact Ha|]. split; [exact (baseline_last [a; kern (- delta)] x Hb)|].
      split; [|split; [exact D|split; [exact Q|left; reflexivity]]].
      unfold baseline. rewrite H. cbn [flat_map qsum fold_right]. change (hgt a) with hh. fold hd. clear -hh. clearbody hh hd. cbn [num QcNum] in *. ring.
  Qed.
  Lemma nmin_smaller (a b : Qc) : nmin (N := QcNum) a b = smaller a b.
  Proof.
    unfold nmin, smaller. cbn [nltb QcNum]. destruct (Qc_ltb b a) eqn:Q; qc_bool; destruct (Qclt_le_dec b a) as [L|L]; try reflexivity.
    - exfalso. exact (Qclt_not_le _ _ Q L).
    - exfalso. exact (Qclt_not_le _ _ L Q).
  Qed.
  (** rule 17 keeps the type *)
  Lemma rule17_type rec s t a : rule17 E rec s (changeType t a) = rmap (changeType t) (rule17 E rec s a).
  Proof.
    unfold rule17. cbn [a_nuc changeType]. destruct (boxit E rec s (a_nuc a)) as [r| | | |]; try reflexivity. cbn [bind].
    unfold attachSubSup. cbn [a_sub a_sup changeNucleus changeType].
    destruct (a_sub a) as [sb|], (a_sup a) as [sp|]; try reflexivity.
    - destruct (if isCharacterBox (fst r) then _ else _) as [u v].
      destruct (boxit E rec (sup s) _) as [q| | | |]; try reflexivity. cbn [bind].
      destruct (add_space _ _) as [x| | | |]; try reflexivity. cbn [bind].
      destruct (if own_box (Some sp) then _ else _) as [q'| | | |]; try reflexivity. cbn [bind].
      destruct (add_space _ _) as [y| | | |]; try reflexivity. cbn [bind].
      destruct (if nltb _ _ then _ else _) as [u' v'].
      destruct (shift_list _ _) as [x'| | | |]; reflexivity.
    - destruct (if isCharacterBox (fst r) then _ else _) as [u v].
      destruct (boxit E rec (sub s) _) as [q| | | |]; try reflexivity. cbn [bind].
      destruct (add_space _ _) as [x| | | |]; try reflexivity. cbn [bind].
      destruct (shift_hbox _ _) as [x'| | | |]; reflexivity.
    - destruct (if isCharacterBox (fst r) then _ else _) as [u v].
      destruct (boxit E rec (sup s) _) as [q| | | |]; try reflexivity. cbn [bind].
      destruct (add_space _ _) as [x| | | |]; try reflexivity. cbn [bind].
      destruct (shift_hbox _ _) as [x'| | | |]; reflexivity.
  Qed.
  Lemma typeset_sym s (y : sym) x : typeset E s y = Ok x -> x = e_typeset E y (s_fam y) (font_of s).
  Proof. unfold typeset. rewrite font_eq. destruct (family_ok (s_fam y)); [|discriminate]. intros [= <-]. reflexivity. Qed.
  Definition accent_of (s : style) (y : sym) : node QcNum := e_typeset E y (s_fam y) (font_of s).

  Theorem accent_alone n p s g sb sp y li out x : (forall q, g <> FSym q) ->
    mlist2hlist E n p s [atom_with Acc g sb sp (Some y) li] = Ok (out, x) ->
    exists u b, field_box E (low_style s) g u /\
      (is_box u -> accented (smaller (hgt u) (f_xHeight (symbols E s))) (wid u) (accent_of s y) u b) /\
      mlist2hlist E n p s [atom_with Ord (FBox (vnode b)) sb sp (Some y) li] = Ok (out, x).
  Proof.
    intros Hg H. apply one_atom in H. destruct H as (m & a' & -> & H & -> & ->).
    change (process_atom _ _ _ _ _ _) with (rule12 E (inner_call E (Datatypes.S m)) s (mkAtom Acc (Some g) sb sp (Some y) li)) in H.
    unfold rule12 in H. apply bind_Ok in H. destruct H as (r & Hq & H). cbn [a_nuc] in *. rewrite cramp_eq in Hq.
    cbv zeta in H. apply bind_Ok in H. destruct H as (p3 & Hp & H).
    assert (Ep : p3 = (mkAtom Acc (Some g) sb sp (Some y) li, fst r, nmin (nh (fst r)) (f_xHeight (sg E s)))).
    { destruct g as [q|q|q|]; [destruct (Hg q eq_refl)| | |]; injection Hp as <-; reflexivity. }
    subst p3. cbn [a_acc] in H. apply bind_Ok in H. destruct H as (z & Hz & H).
    apply typeset_sym in Hz. subst z.
    pose proof (fun Hb => accent_box (nmin (nh (fst r)) (f_xHeight (sg E s))) (nw (fst r)) (fst r) (accent_of s y) Hb) as A.
    cbv zeta in A. set (b := if nltb _ _ then _ else _) in H.
    exists (fst r), b. split; [apply (boxit_field E (Datatypes.S m)); rewrite Hq; reflexivity|].
    split; [|exact (then_ordinary E m p s _ a' _ H)].
    intros Hb. specialize (A Hb). rewrite nmin_smaller, nh_hgt, nw_wid, sg_eq in A.
    unfold b. rewrite nmin_smaller, nh_hgt, nw_wid, sg_eq. exact A.
  Qed.
  (** an accented symbol: the accent is put over the symbol with its scripts *)
  Theorem accent_symbol n p s q sb sp y li out x :
    mlist2hlist E n p s [atom_with Acc (FSym q) sb sp (Some y) li] = Ok (out, x) ->
    exists nuc x' b, let u := accent_of s q in
      mlist2hlist E n p s [atom_with Ord (FSym q) sb sp (Some y) li] = Ok ([nuc], x') /\
      out = [vnode b] /\
      (is_box nuc ->
       accented (smaller (hgt u) (f_xHeight (symbols E s)) - (hgt nuc - hgt u)) (wid u) (accent_of s y) nuc b).
  Proof.
    intros H. apply one_atom in H. destruct H as (m & a' & -> & H & -> & ->).
    change (process_atom _ _ _ _ _ _) with (rule12 E (inner_call E (Datatypes.S m)) s (mkAtom Acc (Some (FSym q)) sb sp (Some y) li)) in H.
    unfold rule12 in H. apply bind_Ok in H. destruct H as (r & Hq & H). cbn [a_nuc] in *.
    assert (Hu : fst r = accent_of s q).
    { cbn [boxit] in Hq. apply bind_Ok in Hq. destruct Hq as (z & Hz & [= <-]). apply typeset_sym in Hz. rewrite Hz.
      unfold accent_of. f_equal. destruct s; reflexivity. }
    cbv zeta in H. apply bind_Ok in H. destruct H as (p3 & Hp & H).
    apply bind_Ok in Hp. destruct Hp as (a1 & Ha & Hp).
    pose proof (rule17_type (inner_call E (Datatypes.S m)) s Ord (mkAtom Acc (Some (FSym q)) sb sp (Some y) li)) as R.
    rewrite Ha in R. cbn [rmap] in R.
    destruct (a_nuc a1) as [[z|z|z|]|] eqn:En; try discriminate. injection Hp as <-. rewrite Hu in H.
    assert (Hacc : a_acc a1 = Some y).
    { clear -Ha. unfold rule17 in Ha. apply bind_Ok in Ha. destruct Ha as (r & _ & Ha).
      unfold attachSubSup in Ha. cbn [a_sub a_sup changeNucleus] in Ha.
      destruct (if isCharacterBox (fst r) then _ else _) as [u v].
      destruct sb as [sb|], sp as [sp|].
      - do 4 (apply bind_Ok in Ha; destruct Ha as (? & _ & Ha)). destruct (if nltb _ _ then _ else _) as [u' v'] in Ha.
        apply bind_Ok in Ha. destruct Ha as (? & _ & [= <-]). reflexivity.
      - do 3 (apply bind_Ok in Ha; destruct Ha as (? & _ & Ha)). injection Ha as <-. reflexivity.
      - do 3 (apply bind_Ok in Ha; destruct Ha as (? & _ & Ha)). injection Ha as <-. reflexivity.
      - injection Ha as <-. reflexivity. }
    cbn [a_acc setSubSup] in H. rewrite Hacc in H. apply bind_Ok in H. destruct H as (w & Hw & H).
    apply typeset_sym in Hw. subst w.
    set (delta := nmin (N := QcNum) (nh (accent_of s q)) (f_xHeight (sg E s)) + (nh (accent_of s q) - nh z)) in H.
    pose proof (fun Hb => accent_box delta (nw (accent_of s q)) z (accent_of s y) Hb) as A.
    cbv zeta in A. set (b := if nltb _ _ then _ else _) in H.
    exists z. exists [MAtom (changeType Ord a1)], b. cbv zeta. split.
    { replace [z] with [nucleus_of (changeType Ord a1)]; [apply atom_one; exact R|].
      unfold nucleus_of. cbn [a_nuc changeType]. rewrite En. reflexivity. }
    split.
    { injection H as <-. reflexivity. }
    intros Hb. specialize (A Hb). change (accented delta (nw (accent_of s q)) (accent_of s y) z b) in A.
    rewrite nw_wid in A. replace (smaller _ _ - _) with delta; [exact A|].
    unfold delta. rewrite nmin_smaller, !nh_hgt, sg_eq.
    set (v := smaller _ _). clearbody v. cbn [num QcNum] in *. ring.
  Qed.
  (** * Roots *)
  Theorem root_alone n p s deg rad out x : 0 <= f_rule (extension E s) ->
    mlist2hlist E n p s [MRoot deg rad] = Ok (out, x) ->
    exists u v w sign b h d,
      formula_box E (low_style s) rad u /\ formula_box E SS deg v /\
      radical_sign E s (clearance E s) sign u b /\ under_radical sign u b /\
      greatest [m_height (b_metrics sign) - b_shift sign; m_height (b_metrics b)] h /\
      greatest [m_depth (b_metrics sign) + b_shift sign; m_depth (b_metrics b)] d /\
      shifted v (- (Q2Qc (6 # 10) * (h - d))) w /\
      out = [hnode (hbox [w; kern (- m_width (b_metrics sign)); vnode sign; vnode b])].
  Proof.
    intros Hr H. destruct n as [|[|m]]; try discriminate. rewrite unfold_list in H.
    rewrite (loop_one E _ _ (mkP [] [MRoot deg rad] s None) (MRoot deg rad) [] eq_refl) in H. cbn [step p_rest p_style] in H.
    destruct (processRoot E (inner_call E (Datatypes.S m)) s deg rad) as [[a o]| | | |] eqn:Q; try discriminate.
    cbn [bind] in H. rewrite loop_done in H by reflexivity.
    assert (Ho : out = [nucleus_of a]).
    { cbn in H. injection H as <- <-. reflexivity. }
    clear H. unfold processRoot, boxit_list in Q.
    apply bind_Ok in Q. destruct Q as (rx & H1 & Q). apply bind_Ok in H1. destruct H1 as (r1 & R1 & [= <-]).
    cbn [fst snd] in Q.
    pose proof (radical_gap s (hnode (hbox (fst r1))) ltac:(eexists; reflexivity) (clearance_nonneg s Hr)) as G.
    destruct (radical E s (hnode (hbox (fst r1)))) as [y b]. destruct G as [G1 G2].
    apply bind_Ok in Q. destruct Q as (ri & H2 & Q). apply bind_Ok in H2. destruct H2 as (r2 & R2 & [= <-]).
    cbn [fst snd] in Q. cbv zeta in Q. apply bind_Ok in Q. destruct Q as (a1 & Ha & [= <- _]).
    rewrite cramp_eq in R1.
    set (h := nmax (nsub (m_height (b_metrics y)) (b_shift y)) (m_height (b_metrics b))) in *.
    set (d := nmax (nadd (m_depth (b_metrics y)) (b_shift y)) (m_depth (b_metrics b))) in *.
    exists (hnode (hbox (fst r1))), (hnode (hbox (fst r2))). eexists. exists y, b, h, d.
    split; [exact (list_formula E _ _ _ _ R1)|]. split; [exact (list_formula E _ _ _ _ R2)|].
    split; [exact G1|]. split; [exact G2|]. split; [apply nmax_greatest|]. split; [apply nmax_greatest|].
    split.
    2: { rewrite Ho. unfold rule16, rule17 in Ha. cbn [a_nuc changeType create boxit bind fst] in Ha.
         unfold attachSubSup in Ha. cbn [a_sub a_sup changeNucleus changeType create] in Ha. injection Ha as <-. reflexivity. }
    do 6 eexists. split; [reflexivity|]. reflexivity.
  Qed.
  (** * Two scripts *)
  Theorem two_scripts n p s t g sb sp ac li out x : simple_class t = true -> (forall b, sp <> FBox b) ->
    mlist2hlist E n p s [atom_with t g (Some sb) (Some sp) ac li] = Ok (out, x) ->
    exists nuc u1 u2, field_box E s g nuc /\ twice E (sup_style s) (sub_style s) sp u1 u2 /\
      (is_box u1 -> is_box u2 -> exists v w b up0 down0 up down,
         let theta := f_rule (extension E s) in
         let sg := symbols E s in
         spaced u1 (half * theta) v /\ spaced u2 (half * theta) w /\
         greatest [ if isCharacterBox nuc then 0 else hgt nuc - f_supDrop (symbols E (sup_style s));
                    if cramped s then f_sup3 sg else if in_display s then f_sup1 sg else f_sup2 sg;
                    dep v + four_fifths * absolute (f_xHeight sg) ] up0 /\
         greatest [ if isCharacterBox nuc then 0 else dep nuc + f_subDrop (symbols E (sub_style s)); f_sub2 sg ] down0 /\
         separated theta (f_xHeight sg) v w up0 down0 up down /\
         out = [hnode (hbox [nuc; vnode b])] /\
         b_list b = [v; kern (up + down); w] /\
         m_height (b_metrics b) = hgt v + up /\ m_depth (b_metrics b) = dep w + down /\
         largest [wid v; wid w] (m_width (b_metrics b))).
  Proof.
    intros Ht Hs H. apply one_atom in H. destruct H as (m & a' & -> & H & -> & ->).
    rewrite simple_rule17 in H by exact Ht. unfold rule17 in H. apply bind_Ok in H. destruct H as (r & Hr & H).
    cbn [a_nuc] in Hr.
    assert (Hn : field_box E s g (fst r)) by (apply (boxit_field E (Datatypes.S m)); rewrite Hr; reflexivity).
    unfold attachSubSup in H. cbn [a_sub a_sup changeNucleus] in H.
    assert (Eo : own_box (Some sp) = false).
    { destruct sp as [q|q|q|]; try reflexivity. destruct (Hs q eq_refl). }
    rewrite Eo in H.
    set (p0 := if isCharacterBox (fst r) then _ else _) in H.
    assert (E1 : fst p0 = if isCharacterBox (fst r) then 0 else hgt (fst r) - f_supDrop (symbols E (sup_style s))).
    { unfold p0. rewrite nh_hgt, sg_eq, sup_eq. destruct (isCharacterBox (fst r)); reflexivity. }
    assert (E2 : snd p0 = if isCharacterBox (fst r) then 0 else dep (fst r) + f_subDrop (symbols E (sub_style s))).
    { unfold p0. rewrite nd_dep, (sg_eq E (sub s)), sub_eq. destruct (isCharacterBox (fst r)); reflexivity. }
    destruct p0 as [u v]. cbn [fst snd] in E1, E2.
    apply bind_Ok in H. destruct H as (q1 & Hq1 & H). apply bind_Ok in H. destruct H as (x & Hx & H).
    apply bind_Ok in H. destruct H as (q2 & Hq2 & H). apply bind_Ok in H. destruct H as (y & Hy & H).
    exists (fst r), (fst q1), (fst q2). split; [exact Hn|]. split.
    { rewrite sup_eq in Hq1. rewrite sub_eq in Hq2. destruct sp as [q|q|q|].
      - cbn [boxit] in Hq1. apply bind_Ok in Hq1. destruct Hq1 as (z & Hz & [= <-]). apply typeset_sym in Hz.
        cbn [boxit fst snd] in Hq2. apply bind_Ok in Hq2. destruct Hq2 as (z' & Hz' & [= <-]). apply typeset_sym in Hz'.
        split; [exact Hz|exact Hz'].
      - destruct (Hs q eq_refl).
      - cbn [boxit] in Hq1. apply bind_Ok in Hq1. destruct Hq1 as (z & Hz & [= <-]).
        cbn [boxit fst snd] in Hq2. apply bind_Ok in Hq2. destruct Hq2 as (z' & Hz' & [= <-]).
        exists (Datatypes.S m), (fst z), (snd z). destruct z as [o1 l1]. split; [exact Hz|]. split; [reflexivity|].
        exact (list_formula E _ _ _ _ Hz').
      - discriminate Hq1. }
    intros B1 B2. rewrite xi_eq in *. set (theta := f_rule (extension E s)) in *.
    pose proof (add_space_spaced _ _ _ B1 Hx) as S1. pose proof (add_space_spaced _ _ _ B2 Hy) as S2.
    pose proof (add_space_box _ _ _ Hx) as Bx. pose proof (add_space_box _ _ _ Hy) as By.
    set (pp := if style_eqb s D then _ else _) in H.
    assert (Ep : pp = if cramped s then f_sup3 (symbols E s) else if in_display s then f_sup1 (symbols E s) else f_sup2 (symbols E s)).
    { unfold pp. rewrite !sg_eq. destruct s; reflexivity. }
    clearbody pp. rewrite nd_dep, nh_hgt, nabs_absolute, !sg_eq in H.
    set (xh := f_xHeight (symbols E s)) in *.
    pose proof (nmax3_greatest u pp (dep x + four_fifths * absolute xh)) as G1.
    change (nadd (n := QcNum) (dep x) (nmul (n := QcNum) (ndiv (n := QcNum) (nz 4) (nz 5)) (absolute xh))) with (dep x + four_fifths * absolute xh) in H.
    set (up0 := nmax3 u pp _) in *.
    pose proof (nmax_greatest v (f_sub2 (symbols E s))) as G2.
    set (down0 := nmax v (f_sub2 (symbols E s))) in *.
    rewrite E1, Ep in G1. rewrite E2 in G2. clearbody up0 down0. clear E1 E2 Ep u v pp.
    destruct (if nltb _ _ then _ else _) as [up down] eqn:Q in H.
    assert (Sep : separated theta xh x y up0 down0 up down).
    { unfold separated. change (ndiv (n := QcNum) (nz 4) (nz 5)) with (int 4 / int 5) in Q.
      change (nz (N := QcNum) 4) with (int 4) in Q. cbn [nltb nsub nadd nmul QcNum] in Q.
      change (n0 (N := QcNum)) with 0 in Q.
      destruct (Qc_ltb (up0 - dep x - (hgt y - down0)) (int 4 * theta)) eqn:Q1; qc_bool.
      - right. split; [exact Q1|]. set (f4 := int 4 / int 5 * xh) in *. set (t4 := int 4 * theta) in *. clearbody f4 t4.
        destruct (Qc_ltb 0 (f4 - (up0 - dep x))) eqn:Q2; injection Q as <- <-; qc_bool; cbn [num QcNum] in *.
        + split; [ring|]. right. split; [qclra|ring].
        + split; [ring|]. left. split; [qclra|reflexivity].
      - left. injection Q as <- <-. split; [exact Q1|]. split; reflexivity. }
    clear Q. apply bind_Ok in H. destruct H as (x' & Hx' & H). cbn [fst snd] in H.
    assert (Ex : x' = x).
    { clear -Hx'. unfold shift_list in Hx'. destruct x; try discriminate. injection Hx' as <-. f_equal. exact (Qcplus_0_r _). }
    subst x'. injection H as <-.
    exists x, y. eexists. exists up0, down0, up, down. cbv zeta.
    split; [exact S1|]. split; [exact S2|]. split; [exact G1|]. split; [exact G2|]. split; [exact Sep|].
    split; [reflexivity|]. split; [|split].
    - match goal with |- b_list (set_height_depth _ _ (vbox [x; NKern ?k; y])) = _ => change ([x; kern k; y] = [x; kern (up + down); y]) end.
      do 2 f_equal. unfold kern. f_equal.
      set (a := m_height (N := QcNum) (bm x) + m_depth (N := QcNum) (bm x)). set (c := m_height (N := QcNum) (bm y) + m_depth (N := QcNum) (bm y)).
      clearbody a c. clear -up down. cbn [num QcNum] in *. ring.
    - rewrite nh_hgt. reflexivity.
    - rewrite nd_dep. split; [reflexivity|].
      match goal with |- largest _ (m_width (b_metrics (set_height_depth _ _ (vbox ?l)))) =>
        change (largest [wid x; wid y] (m_width (b_metrics (vbox l))));
        assert (Ew : flat_map (box_width (N := QcNum)) l = [wid x; wid y])
      end.
      { cbn [flat_map]. rewrite (width_box x Bx), (width_box y By). reflexivity. }
      rewrite <- Ew. apply vbox_dims_lemma.
  Qed.
  (** * Matrices *)
  Lemma boxit_lists_formulas m s cells : forall r, boxit_lists (inner_call E m) s cells = Ok r ->
    Forall2 (formula_box E s) cells (map (fun b => hnode b) (fst r)) /\ Forall (fun b => exists o, b = hbox (N := QcNum) o) (fst r).
  Proof.
    induction cells as [|l cells IH]; intros r H; cbn [boxit_lists] in H.
    - injection H as <-. split; constructor.
    - apply bind_Ok in H. destruct H as (x & Hx & H). apply bind_Ok in H. destruct H as (y & Hy & [= <-]).
      destruct (IH _ Hy) as [I1 I2]. unfold boxit_list in Hx. apply bind_Ok in Hx. destruct Hx as (z & Hz & [= <-]).
      cbn [fst map]. split; constructor; auto.
      + exact (list_formula E _ _ _ _ Hz).
      + eexists; reflexivity.
  Qed.
  Lemma col_size_column cols j (bs : list (lbox QcNum)) : forall k w,
    fold_left (fun w p => if Nat.eqb (fst p mod cols) j then nmax w (m_width (b_metrics (snd p))) else w)
      (combine (seq k (length bs)) bs) w =
    fold_left (nmax (N := QcNum)) (map wid (column cols j k (map (fun b => hnode b) bs))) w.
  Proof.
    induction bs as [|b bs IH]; intros k w; [reflexivity|].
    cbn [length seq combine fold_left map column fst snd]. rewrite IH, map_app, fold_left_app.
    destruct (Nat.eqb (k mod cols) j); reflexivity.
  Qed.
  Lemma cell_set w j o : set_cell (text_quad E) w j (hnode (hbox o)) (hnode (MathTypeset.cell E w j (hbox o))).
  Proof.
    unfold MathTypeset.cell. cbn [b_list hbox hbox_rebox set_metrics listbox_new].
    change (quad E) with (text_quad E). set (q := text_quad E).
    set (L := hfil :: _). unfold hbox_rebox_to. cbn [set_list b_list].
    pose proof (setGlue_exact (set_list (hbox o) L) (i_width (hbox_info L)) w (i_shrink (hbox_info L)) (i_stretch (hbox_info L)) eq_refl eq_refl) as G.
    cbv zeta in G. destruct (hbox_info_sums L) as (Hw & _ & _ & Hst & Hsh).
    assert (EL : L = spring :: (match j with O => [] | _ => [kern q] end) ++ o ++ [spring]).
    { unfold L. destruct j; reflexivity. }
    assert (Hl : b_list (fst (setGlue (set_list (hbox o) L) (i_width (hbox_info L)) w (i_shrink (hbox_info L)) (i_stretch (hbox_info L)))) = L).
    { unfold setGlue. repeat match goal with |- context [if ?b then _ else _] => destruct b end; reflexivity. }
    destruct (setGlue (set_list (hbox o) L) _ w _ _) as [b' f] eqn:Q. cbn [fst snd] in *.
    do 4 eexists. exists o. do 5 eexists. cbv zeta. split; [reflexivity|]. fold q. rewrite <- EL. split.
    { unfold hnode, node_of. cbn [set_metrics b_metrics b_shift b_ratio b_order b_list]. rewrite Hl. reflexivity. }
    cbn [m_width].
    assert (Ew : i_width (hbox_info L) = match j with O => 0 | _ => q end + wid (hnode (hbox o))).
    { rewrite Hw, sum_qsum, EL. unfold wid. cbn [box_metrics hnode node_of].
      destruct (hbox_dims_lemma o) as (-> & _). rewrite sum_qsum.
      change (spring :: ?r) with ([spring] ++ r). rewrite !flat_map_app, !qsum_app.
      replace (qsum (flat_map (item_width (N := QcNum)) [spring])) with 0 by reflexivity.
      destruct j.
      - change (qsum (flat_map (item_width (N := QcNum)) [])) with 0. cbn [num QcNum]. ring.
      - replace (qsum (flat_map (item_width (N := QcNum)) [kern q])) with q by (symmetry; exact (Qcplus_0_r q)). cbn [num QcNum]. ring. }
    rewrite <- Ew. eapply glue_set_ext; [exact Hst|exact Hsh|exact G].
  Qed.
  Lemma rows_app (a b : list (node QcNum)) : rows_of (a ++ b) = rows_of a ++ rows_of b.
  Proof. apply flat_map_app. Qed.
  Lemma push_rows (v : vbuilder QcNum) n m : rows_of (vb_result (vb_push_box v n m)) = rows_of (vb_result v) ++ rows_of [n].
  Proof.
    unfold vb_push_box. cbn [vb_result]. rewrite rows_app. f_equal.
    destruct (nleb _ _); [reflexivity|]. destruct (nleb _ _); reflexivity.
  Qed.
  Lemma push_all (rows : list (node QcNum)) : forall v,
    rows_of (vb_result (fold_left (fun v r => vb_push_box v r (bm r)) rows v)) = rows_of (vb_result v) ++ rows_of rows.
  Proof.
    induction rows as [|r rows IH]; intros v; [rewrite app_nil_r; reflexivity|].
    cbn [fold_left]. rewrite IH, push_rows, <- app_assoc. f_equal. symmetry. exact (rows_app [r] rows).
  Qed.
  Lemma matrix_list cols bs : exists m s r o l, matrix_box E cols bs = NList Vertical m s r o l /\
    rows_of l = map (fun i => map (fun j => hnode (MathTypeset.cell E (col_size cols bs j) j (nth (i * cols + j) bs (listbox_new [])))) (seq 0 cols))
                    (seq 0 (length bs / cols)).
  Proof.
    unfold matrix_box. do 5 eexists. split; [reflexivity|]. cbn [b_list vbox vbox_rebox set_metrics listbox_new].
    unfold push_node at 1. cbn [vb_result]. rewrite rows_app, push_rows, push_all.
    unfold push_node. cbn [vb_result]. rewrite rows_app, push_rows.
    change (rows_of (vb_result (vbuilder_new _ _))) with (@nil (list (node QcNum))).
    change (rows_of [mathstrut E]) with (@nil (list (node QcNum))).
    change (rows_of [NKern _]) with (@nil (list (node QcNum))). rewrite !app_nil_r. cbn [app].
    generalize (seq 0 (length bs / cols)). intros is. induction is as [|i is IH]; [reflexivity|].
    cbn [map]. change (?a :: ?b) with ([a] ++ b) at 1. rewrite rows_app, IH. reflexivity.
  Qed.
  Lemma push_boxes (rows : list (node QcNum)) : (forall r, In r rows -> exists m, box_metrics r = Some m) -> forall v,
    fold_left (fun v r => vb_push_box v r (bm r)) rows v = fold_left vb_push rows v.
  Proof.
    induction rows as [|r rows IH]; intros H v; [reflexivity|]. cbn [fold_left].
    rewrite IH by (intros; apply H; right; assumption). f_equal.
    destruct (H r (or_introl eq_refl)) as [m Hm]. unfold vb_push, bm. rewrite Hm. reflexivity.
  Qed.
  Lemma matrix_spaced cols bs l : low < dep (strut E) ->
    (exists m s r o, matrix_box E cols bs = NList Vertical m s r o l) ->
    matrix_lines E (map (fun r => hnode (hbox r)) (rows_of l)) l.
  Proof.
    intros Hs (m & s & r & o & H).
    assert (Hr : rows_of l = map (fun i => map (fun j => hnode (MathTypeset.cell E (col_size cols bs j) j (nth (i * cols + j) bs (listbox_new [])))) (seq 0 cols))
                    (seq 0 (length bs / cols))).
    { destruct (matrix_list cols bs) as (m1 & s1 & r1 & o1 & l1 & H1 & H2). rewrite H in H1. injection H1 as _ _ _ _ <-. exact H2. }
    rewrite Hr, map_map. change (fun i => hnode (hbox (map _ (seq 0 cols)))) with (matrix_row E cols bs).
    set (rows := map (matrix_row E cols bs) (seq 0 (length bs / cols))).
    unfold matrix_box in H. fold rows in H. cbv zeta in H. apply (f_equal contents) in H.
    match type of H with contents (vnode (vbox ?X)) = _ => change (X = l) in H end. rewrite <- H. clear H Hr l.
    assert (Bx : forall x, In x rows -> exists k, x = hnode (hbox k)).
    { intros x HI. unfold rows in HI. apply in_map_iff in HI. destruct HI as (i & <- & _). eexists. reflexivity. }
    rewrite push_boxes by (intros x HI; destruct (Bx x HI) as [k ->]; eexists; reflexivity).
    set (v0 := push_node (vb_push_box (vbuilder_new _ _) _ _) _).
    change (vb_push_box (fold_left vb_push rows v0) (mathstrut E) (bm (mathstrut E))) with (fold_left vb_push [mathstrut E] (fold_left vb_push rows v0)).
    rewrite <- fold_left_app.
    destruct (vb_spaced (rows ++ [mathstrut E]) v0) as (mid & Ho & Hsp).
    { intros x m0 HI Hm. apply in_app_or in HI. destruct HI as [HI|[<-|[]]].
      - destruct (Bx x HI) as [k ->]. change (Some (b_metrics (hbox k)) = Some m0) in Hm.
        apply (f_equal (fun o => match o with Some y => y | None => m0 end)) in Hm. cbv beta iota in Hm. rewrite <- Hm.
        destruct (hbox_dims_lemma k) as (_ & _ & Ed & _). rewrite Ed.
        apply (Qclt_le_trans _ 0); [reflexivity|exact (proj1 (largest_nmax _))].
      - injection Hm as <-. exact Hs. }
    exists mid. unfold push_node at 1. cbn [vb_result].
    rewrite Ho. split.
    - reflexivity.
    - assert (Ep : prev_of (vb_prevdepth v0) = Some (dep (strut E))).
      { unfold prev_of. apply Qc_leb_gt in Hs. change (vb_prevdepth v0) with (dep (strut E)). rewrite Hs. reflexivity. }
      rewrite Ep in Hsp. exact Hsp.
  Qed.
  Theorem matrix_alone n p s cells cols out x : mlist2hlist E n p s [MMatrix cells cols] = Ok (out, x) ->
    exists us b, Forall2 (formula_box E s) cells us /\ out = [vnode b] /\ cols <> O /\
      on_axis (f_axis (symbols E s)) (b_metrics b) 0 /\ matrix_rows E cols us (rows_of (b_list b)) /\
      (low < dep (strut E) -> matrix_lines E (map (fun r => hnode (hbox r)) (rows_of (b_list b))) (b_list b)).
  Proof.
    intros H. destruct n as [|[|m]]; try discriminate. rewrite unfold_list in H.
    rewrite (loop_one E _ _ (mkP [] [MMatrix cells cols] s None) (MMatrix cells cols) [] eq_refl) in H. cbn [step p_rest p_style] in H.
    destruct (processMatrix E (inner_call E (Datatypes.S m)) s cells cols) as [[a o]| | | |] eqn:Q; try discriminate.
    cbn [bind] in H. rewrite loop_done in H by reflexivity.
    assert (Ho : out = [nucleus_of a]).
    { cbn in H. injection H as <- <-. reflexivity. }
    clear H. unfold processMatrix in Q. apply bind_Ok in Q. destruct Q as (r & Hr & Q).
    destruct (Nat.eqb cols 0) eqn:Ec; [discriminate|]. apply Nat.eqb_neq in Ec.
    apply bind_Ok in Q. destruct Q as (a1 & Ha & [= <- _]).
    destruct (boxit_lists_formulas _ _ _ _ Hr) as [F1 F2]. set (bs := fst r) in *. clearbody bs.
    destruct (matrix_list cols bs) as (bm0 & bs0 & br0 & bo0 & l & Em & El).
    exists (map (fun b => hnode b) bs).
    apply rule8_axis in Ha. destruct Ha as (z & b & Hz & Hb & Hx & _ & Hl & _).
    cbn [boxit create a_nuc rmap fst] in Hz. injection Hz as <-. rewrite Em in Hl.
    exists b. split; [exact F1|]. split.
    { rewrite Ho. unfold rule17 in Hb. cbn [a_nuc changeType changeNucleus boxit bind fst] in Hb.
      unfold attachSubSup in Hb. cbn [a_sub a_sup changeNucleus changeType create] in Hb. injection Hb as <-. reflexivity. }
    split; [exact Ec|]. rewrite sg_eq in Hx. split; [exact Hx|]. rewrite Hl. split; [|intros Hlow; apply (matrix_spaced cols bs); [exact Hlow|do 4 eexists; exact Em]].
    rewrite El. split.
    { rewrite map_length, seq_length, map_length. reflexivity. }
    intros i row Hi. rewrite nth_error_map in Hi.
    destruct (nth_error (seq 0 (length bs / cols)) i) as [i'|] eqn:Qi; [|discriminate]. injection Hi as <-.
    assert (Li : (i < length bs / cols)%nat).
    { rewrite <- (seq_length (length bs / cols) 0). apply nth_error_Some. congruence. }
    assert (i' = i).
    { pose proof (nth_error_nth (seq 0 (length bs / cols)) i O Qi) as Q1. rewrite seq_nth in Q1 by exact Li. lia. }
    subst i'. split; [rewrite map_length, seq_length; reflexivity|]. intros j Hj.
    assert (Lk : (i * cols + j < length bs)%nat).
    { pose proof (Nat.mul_div_le (length bs) cols Ec). nia. }
    destruct (nth_error bs (i * cols + j)) as [b0|] eqn:Qb; [|apply nth_error_None in Qb; lia].
    exists (hnode b0). do 2 eexists. split; [rewrite nth_error_map, Qb; reflexivity|]. split.
    { rewrite nth_error_map. assert (Es : nth_error (seq 0 cols) j = Some j).
      { rewrite (nth_error_nth' _ O) by (rewrite seq_length; exact Hj). rewrite seq_nth by exact Hj. reflexivity. }
      rewrite Es. reflexivity. }
    split.
    { apply largest_nmax. }
    rewrite (nth_error_nth bs _ (listbox_new []) Qb).
    rewrite Forall_forall in F2. destruct (F2 b0 (nth_error_In _ _ Qb)) as [o0 ->].
    unfold col_size. rewrite col_size_column. apply cell_set.
  Qed.
  Lemma stretch_none (l : list (node QcNum)) : (forall g, In (NGlue g) l -> g_stretchOrder g = Normal) ->
    flat_map (stretch_of (N := QcNum) Fil) l = [].
  Proof.
    induction l as [|n l IH]; intros H; [reflexivity|]. cbn [flat_map].
    rewrite IH by (intros g Hg; apply H; right; exact Hg).
    destruct n as [| | | | |g| |]; try reflexivity. cbn [stretch_of]. rewrite (H g) by (left; reflexivity). reflexivity.
  Qed.
  Lemma shrink_none o (l : list (node QcNum)) : (forall g, In (NGlue g) l -> g_shrink g = 0) ->
    qsum (flat_map (shrink_of (N := QcNum) o) l) = 0.
  Proof.
    induction l as [|n l IH]; intros H; [reflexivity|]. cbn [flat_map]. rewrite qsum_app.
    rewrite IH by (intros g Hg; apply H; right; exact Hg).
    destruct n as [| | | | |g| |]; try reflexivity. cbn [shrink_of].
    destruct (gorder_eqb _ _); [|reflexivity]. rewrite (H g) by (left; reflexivity). reflexivity.
  Qed.
  Theorem cell_fits quad w j u c : set_cell quad w j u c -> no_fil u ->
    match j with O => 0 | _ => quad end + wid u <= w -> wid c = w.
  Proof.
    intros (mu & su & ru & ou & l & m & s & r & o & v & -> & -> & G) Hf Hw.
    set (L := spring :: _) in G. set (x := _ + wid _) in *. clearbody x.
    unfold wid. cbn [box_metrics].
    assert (Q : nonzero (N := QcNum) (stretch_total L Fil) = true).
    { unfold stretch_total. rewrite sum_qsum. unfold L. cbn [flat_map]. rewrite !flat_map_app, !qsum_app.
      rewrite (stretch_none l Hf). destruct j; reflexivity. }
    destruct G as [He|o0 Hx Ht|Hx Hn|o0 Hx Ht Hm|Hx Ht Hm|Hx Hn]; try reflexivity.
    - rewrite (Hn Fil) in Q. discriminate.
    - exfalso. exact (Qclt_not_le _ _ Hx Hw).
    - exfalso. exact (Qclt_not_le _ _ Hx Hw).
  Qed.
  Theorem cell_overfull quad w j u c : set_cell quad w j u c -> no_shrink u ->
    w <= match j with O => 0 | _ => quad end + wid u ->
    wid c = match j with O => 0 | _ => quad end + wid u.
  Proof.
    intros (mu & su & ru & ou & l & m & s & r & o & v & -> & -> & G) Hf Hw.
    set (L := spring :: _) in G. set (x := _ + wid _) in *. clearbody x.
    unfold wid. cbn [box_metrics].
    assert (Q : forall o, nonzero (N := QcNum) (shrink_total L o) = false).
    { intros o0. unfold shrink_total. rewrite sum_qsum. unfold L. cbn [flat_map]. rewrite !flat_map_app, !qsum_app.
      rewrite (shrink_none o0 l Hf). destruct j, o0; reflexivity. }
    destruct G as [He|o0 Hx Ht|Hx Hn|o0 Hx Ht Hm|Hx Ht Hm|Hx Hn]; try reflexivity.
    - symmetry; exact He.
    - exfalso. exact (Qclt_not_le _ _ Hx Hw).
    - destruct Ht as [Ht _]. rewrite Q in Ht. discriminate.
    - destruct Ht as [Ht _]. rewrite Q in Ht. discriminate.
  Qed.
  Lemma column_in cols j us : forall k i u, nth_error us i = Some u -> ((k + i) mod cols = j)%nat -> In u (column cols j k us).
  Proof.
    induction us as [|a us IH]; intros k i u H Hm; [destruct i; discriminate|]. cbn [column]. apply in_or_app.
    destruct i as [|i].
    - injection H as ->. rewrite Nat.add_0_r in Hm. rewrite Hm, Nat.eqb_refl. left. left. reflexivity.
    - right. apply (IH (Datatypes.S k) i u H). rewrite <- Hm. f_equal. lia.
  Qed.
  (** the cells of the first column have the same width *)
  Theorem first_column cols us rows i i' row row' c c' : cols <> O -> Forall no_fil us -> matrix_rows E cols us rows ->
    nth_error rows i = Some row -> nth_error rows i' = Some row' ->
    nth_error row 0 = Some c -> nth_error row' 0 = Some c' -> wid c = wid c'.
  Proof.
    intros Hc Hf [_ M] Hr Hr' Hc1 Hc2.
    assert (W : forall i row c, nth_error rows i = Some row -> nth_error row 0 = Some c ->
              exists w, largest (map wid (column cols 0 0 us)) w /\ wid c = w).
    { clear -Hc Hf M. intros i row c Hr H1. destruct (M i row Hr) as [_ H]. destruct (H O ltac:(lia)) as (u & c' & w & Hu & Hc' & Hw & Hs).
      rewrite H1 in Hc'. injection Hc' as <-. exists w. split; [exact Hw|].
      rewrite Forall_forall in Hf. apply (cell_fits _ _ _ _ _ Hs (Hf u (nth_error_In _ _ Hu))).
      destruct Hw as (_ & Hw & _). rewrite Qcplus_0_l. apply Hw. apply in_map.
      apply (column_in cols 0 us 0 _ u Hu). rewrite !Nat.add_0_r, Nat.add_0_l. apply Nat.mod_mul. exact Hc. }
    destruct (W i row c Hr Hc1) as (w & (A1 & A2 & A3) & ->). destruct (W i' row' c' Hr' Hc2) as (w' & (B1 & B2 & B3) & ->).
    apply Qcle_antisym.
    - destruct A3 as [->|A3]; [exact B1|exact (B2 _ A3)].
    - destruct B3 as [->|B3]; [exact A1|exact (A2 _ B3)].
  Qed.
End More.
