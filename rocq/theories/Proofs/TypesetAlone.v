(** Formulas of one node: where the parts stand. *)
From Coq Require Import List QArith Qcanon ZArith Bool Lia Arith.
From Verif.Base Require Import Result Num.
From Verif.Model Require Import Glue Box MathList MathTypeset.
From Verif.Spec Require Import BoxSpec MathSpec TypesetSpec GeometrySpec.
From Verif.Proofs Require Import BoxProofs TypesetTypes TypesetBoxes TypesetGeometry.
Import ListNotations.
Local Open Scope nat_scope.

Section One.
  Context {N : Num}.
  Variable E : engine N.
  Definition inner_call (n : nat) := mlist2hlist E n default_penalties.

  Lemma loop_done R k st : p_rest st = [] -> loop E R k st = Ok st.
  Proof. intros H. destruct k; cbn [loop]; rewrite H; reflexivity. Qed.
  Lemma unfold_list n p s e r : mlist2hlist E (Datatypes.S n) p s (e :: r) =
    (do st <- loop E (inner_call n) n (mkP [] (e :: r) s None);
     do cur <- processBoundary E (p_style st) (currents (p_done st));
     do out <- emit E p s None cur;
     Ok (out, map it_orig (p_done st))).
  Proof. reflexivity. Qed.
  Lemma loop_one R m st e r : p_rest st = e :: r ->
    loop E R (Datatypes.S m) st = (do st <- step E R st; loop E R m st).
  Proof. intros H. cbn [loop]. rewrite H. reflexivity. Qed.
  Lemma one_atom n p s a out x : mlist2hlist E n p s [MAtom a] = Ok (out, x) ->
    exists m a', n = Datatypes.S (Datatypes.S m) /\
      process_atom E (inner_call (Datatypes.S m)) s true None a = Ok a' /\ out = [nucleus_of a'] /\ x = [MAtom a'].
  Proof.
    destruct n as [|[|m]]; try discriminate. intros H. exists m. rewrite unfold_list in H.
    rewrite (loop_one _ _ (mkP [] [MAtom a] s None) (MAtom a) [] eq_refl) in H. cbn [step p_rest] in H. rewrite rule6_empty in H.
    cbn [p_style at_begin recent_type recent_atom p_done p_recent forallb option_map] in H.
    destruct (process_atom E (inner_call (Datatypes.S m)) s true None a) as [a'| | | |]; try discriminate.
    exists a'. cbn [bind] in H. rewrite loop_done in H by reflexivity.
    cbn in H. injection H as <- <-. repeat split.
  Qed.
  Lemma atom_one m p s a a' : process_atom E (inner_call (Datatypes.S m)) s true None a = Ok a' ->
    mlist2hlist E (Datatypes.S (Datatypes.S m)) p s [MAtom a] = Ok ([nucleus_of a'], [MAtom a']).
  Proof.
    intros H. rewrite unfold_list.
    rewrite (loop_one _ _ (mkP [] [MAtom a] s None) (MAtom a) [] eq_refl). cbn [step p_rest]. rewrite rule6_empty.
    cbn [p_style at_begin recent_type recent_atom p_done p_recent forallb option_map].
    rewrite H. cbn [bind]. rewrite loop_done by reflexivity. reflexivity.
  Qed.
  Lemma one_frac n p s y z out x : mlist2hlist E n p s [MFrac y z] = Ok (out, x) ->
    exists m a o, rule15 E (inner_call (Datatypes.S m)) s y z = Ok (a, o) /\ out = [nucleus_of a].
  Proof.
    destruct n as [|[|m]]; try discriminate. intros H. exists m. rewrite unfold_list in H.
    rewrite (loop_one _ _ (mkP [] [MFrac y z] s None) (MFrac y z) [] eq_refl) in H. cbn [step p_rest p_style] in H.
    destruct (rule15 E (inner_call (Datatypes.S m)) s y z) as [[a o]| | | |]; try discriminate.
    exists a, o. cbn [bind] in H. rewrite loop_done in H by reflexivity.
    cbn in H. injection H as <- <-. split; reflexivity.
  Qed.
  (** a simple atom with scripts and this nucleus is typeset by rule 17 *)
  Lemma simple_rule17 rec s a : simple_class (a_ty a) = true -> process_atom E rec s true None a = rule17 E rec s a.
  Proof.
    unfold process_atom, rule5. intros H. cbn [andb].
    destruct (a_ty a) as [|q|]; try discriminate H; try reflexivity.
    do 4 (destruct q as [q|q|]; try discriminate H; try reflexivity).
  Qed.
End One.

Local Open Scope Qc_scope.
Section Parts.
  Variable E : engine QcNum.

  Lemma font_eq s : fsize_of s = font_of s.
  Proof. destruct s; reflexivity. Qed.
  Lemma sg_eq s : sg E s = symbols E s.
  Proof. unfold sg, symbols. rewrite font_eq. reflexivity. Qed.
  Lemma xi_eq s : xi E s = extension E s.
  Proof. unfold xi, extension. rewrite font_eq. reflexivity. Qed.
  Lemma sup_eq s : sup s = sup_style s. Proof. destruct s; reflexivity. Qed.
  Lemma sub_eq s : sub s = sub_style s. Proof. destruct s; reflexivity. Qed.
  Lemma num_eq s : fracNum s = num_style s. Proof. destruct s; reflexivity. Qed.
  Lemma den_eq s : fracDen s = den_style s. Proof. destruct s; reflexivity. Qed.
  Lemma cramp_eq s : cramp s = low_style s. Proof. destruct s; reflexivity. Qed.
  Lemma display_eq s : style_gtb s T = in_display s. Proof. destruct s; reflexivity. Qed.

  Lemma list_formula n s l r : inner_call E n s l = Ok r -> formula_box E s l (hnode (hbox (fst r))).
  Proof. intros H. exists n, (fst r), (snd r). destruct r. split; [exact H|reflexivity]. Qed.
  Lemma boxit_field n s f x : rmap fst (boxit E (inner_call E n) s (Some f)) = Ok x -> field_box E s f x.
  Proof.
    destruct f as [y|b|l|]; cbn [boxit field_box].
    - unfold typeset. rewrite font_eq. destruct (family_ok (s_fam y)); [|discriminate]. intros [= <-]. reflexivity.
    - intros [= <-]. reflexivity.
    - destruct (inner_call E n s l) as [r| | | |] eqn:Q; try discriminate. intros [= <-]. exact (list_formula n s l r Q).
    - discriminate.
  Qed.

  Theorem frac_alone n p s y z out x : mlist2hlist E n p s [MFrac y z] = Ok (out, x) ->
    exists u v b, out = [vnode b] /\ formula_box E (num_style s) y u /\ formula_box E (den_style s) z v /\
      let theta := f_rule (extension E s) in
      fraction (f_axis (symbols E s)) theta
        (if in_display s then f_num1 (symbols E s) else f_num2 (symbols E s))
        (if in_display s then f_denom1 (symbols E s) else f_denom2 (symbols E s))
        (if in_display s then int 3 * theta else theta) u v b.
  Proof.
    intros H. apply one_frac in H. destruct H as (m & a & o & H & ->).
    apply rule15_fraction in H. destruct H as (nl & dl & b & H1 & _ & _ & _ & H2 & H3 & H4).
    exists (hnode (hbox nl)), (hnode (hbox dl)), b. unfold nucleus_of. rewrite H1. split; [reflexivity|].
    rewrite num_eq in H2. rewrite den_eq in H3.
    destruct (inner_call E (Datatypes.S m) (num_style s) y) as [r1| | | |] eqn:Q1; try discriminate. injection H2 as <-.
    destruct (inner_call E (Datatypes.S m) (den_style s) z) as [r2| | | |] eqn:Q2; try discriminate. injection H3 as <-.
    split; [exact (list_formula _ _ _ _ Q1)|]. split; [exact (list_formula _ _ _ _ Q2)|].
    rewrite sg_eq, xi_eq, display_eq in H4. exact H4.
  Qed.

  Lemma then_ordinary m p s a a' b : rule17 E (inner_call E (Datatypes.S m)) s (changeType Ord (changeNucleus b a)) = Ok a' ->
    mlist2hlist E (Datatypes.S (Datatypes.S m)) p s [MAtom (mkAtom 0 (Some (FBox b)) (a_sub a) (a_sup a) (a_acc a) (a_lim a))]
      = Ok ([nucleus_of a'], [MAtom a']).
  Proof. intros H. apply atom_one. exact H. Qed.

  Definition atom_with (t : Z) (f : mfield QcNum) (sb sp : option (mfield QcNum)) (ac : option sym) (li : limits) : mnode QcNum :=
    MAtom (mkAtom t (Some f) sb sp ac li).

  Theorem over_alone n p s f sb sp ac li out x :
    mlist2hlist E n p s [atom_with Over f sb sp ac li] = Ok (out, x) ->
    exists u b, field_box E (low_style s) f u /\ (is_box u -> overlined (f_rule (extension E s)) u b) /\
      mlist2hlist E n p s [atom_with Ord (FBox (vnode b)) sb sp ac li] = Ok (out, x).
  Proof.
    intros H. apply one_atom in H. destruct H as (m & a' & -> & H & -> & ->).
    change (process_atom _ _ _ _ _ _) with (rule9 E (inner_call E (Datatypes.S m)) s (mkAtom Over (Some f) sb sp ac li)) in H.
    apply rule9_over in H. destruct H as (u & b & H1 & H2 & H3). exists u, b.
    rewrite cramp_eq in H1. rewrite xi_eq in H3. split; [exact (boxit_field _ _ _ _ H1)|]. split; [exact H3|].
    exact (then_ordinary m p s _ a' _ H2).
  Qed.
  Theorem under_alone n p s f sb sp ac li out x :
    mlist2hlist E n p s [atom_with Under f sb sp ac li] = Ok (out, x) ->
    exists u b, field_box E (low_style s) f u /\ (is_box u -> underlined (f_rule (extension E s)) u b) /\
      mlist2hlist E n p s [atom_with Ord (FBox (vnode b)) sb sp ac li] = Ok (out, x).
  Proof.
    intros H. apply one_atom in H. destruct H as (m & a' & -> & H & -> & ->).
    change (process_atom _ _ _ _ _ _) with (rule10 E (inner_call E (Datatypes.S m)) s (mkAtom Under (Some f) sb sp ac li)) in H.
    apply rule10_under in H. destruct H as (u & b & H1 & H2 & H3). exists u, b.
    rewrite cramp_eq in H1. rewrite xi_eq in H3. split; [exact (boxit_field _ _ _ _ H1)|]. split; [exact H3|].
    exact (then_ordinary m p s _ a' _ H2).
  Qed.
  Theorem vcent_alone n p s f sb sp ac li out x :
    mlist2hlist E n p s [atom_with Vcent f sb sp ac li] = Ok (out, x) ->
    exists u b, field_box E s f u /\
      on_axis (f_axis (symbols E s)) (b_metrics b) 0 /\
      (is_box u -> m_height (b_metrics b) + m_depth (b_metrics b) = hgt u + dep u) /\
      match u with NList Vertical _ _ _ _ l => b_list b = l | _ => b_list b = [u] end /\
      (is_box u -> 0 <= wid u -> m_width (b_metrics b) = wid u) /\
      mlist2hlist E n p s [atom_with Ord (FBox (vnode b)) sb sp ac li] = Ok (out, x).
  Proof.
    intros H. apply one_atom in H. destruct H as (m & a' & -> & H & -> & ->).
    change (process_atom _ _ _ _ _ _) with (rule8 E (inner_call E (Datatypes.S m)) s (mkAtom Vcent (Some f) sb sp ac li)) in H.
    apply rule8_axis in H. destruct H as (u & b & H1 & H2 & H3 & H4 & H5 & H6). exists u, b.
    rewrite sg_eq in H3. split; [exact (boxit_field _ _ _ _ H1)|]. split; [exact H3|]. split; [exact H4|]. split; [exact H5|]. split; [exact H6|].
    exact (then_ordinary m p s _ a' _ H2).
  Qed.
  Theorem radical_alone n p s f sb sp ac li out x :
    mlist2hlist E n p s [atom_with Rad f sb sp ac li] = Ok (out, x) ->
    exists u sign b, field_box E (low_style s) f u /\ (is_box u -> under_radical sign u b) /\
      mlist2hlist E n p s [atom_with Ord (FBox (hnode (hbox [vnode sign; vnode b]))) sb sp ac li] = Ok (out, x).
  Proof.
    intros H. apply one_atom in H. destruct H as (m & a' & -> & H & -> & ->).
    change (process_atom _ _ _ _ _ _) with (rule11 E (inner_call E (Datatypes.S m)) s (mkAtom Rad (Some f) sb sp ac li)) in H.
    apply rule11_radical in H. destruct H as (u & sign & b & H1 & H2 & H3). exists u, sign, b.
    rewrite cramp_eq in H1. split; [exact (boxit_field _ _ _ _ H1)|]. split; [exact H3|].
    exact (then_ordinary m p s _ a' _ H2).
  Qed.

  Theorem limits_alone n p s f sb sp ac li out x : limits_in li s = true ->
    mlist2hlist E n p s [atom_with Op f sb sp ac li] = Ok (out, x) ->
    exists top y bottom slant b,
      operator_box E s f y slant /\ script_box E (sup_style s) sp top /\ script_box E (sub_style s) sb bottom /\
      out = [vnode b] /\
      ((forall x, top = Some x -> is_box x) -> is_box y -> (forall x, bottom = Some x -> is_box x) ->
       let xi := extension E s in
       limits_box (f_big1 xi) (f_big3 xi) (f_big2 xi) (f_big4 xi) (f_big5 xi) slant top y bottom b).
  Proof.
    intros Hl H. apply one_atom in H. destruct H as (m & a' & -> & H & -> & ->).
    change (process_atom _ _ _ _ _ _) with (rule13 E (inner_call E (Datatypes.S m)) s (mkAtom Op (Some f) sb sp ac li)) in H.
    assert (Hl' : has_limits (a_lim (mkAtom Op (Some f) sb sp ac li)) s = true).
    { cbn [a_lim]. unfold has_limits, limits_in in *. destruct li; rewrite ?display_eq; auto. }
    destruct (rule13_limits E _ s _ a' Hl' H) as (top & y & bottom & slant & b & H1 & H2 & H3 & H4 & H5).
    cbn [a_nuc a_sub a_sup] in *. exists top, y, bottom, slant, b.
    split; [|split; [|split; [|split]]].
    - unfold operator in H1. unfold operator_box. destruct f as [q|q|q|].
      + rewrite display_eq in H1. destruct (in_display s).
        * rewrite font_eq in H1. exact H1.
        * destruct H1 as [H1 ->]. split; [|reflexivity]. apply (boxit_field (Datatypes.S m)). cbn [boxit]. rewrite H1. reflexivity.
      + destruct H1 as [H1 ->]. split; [|reflexivity]. exact (boxit_field _ _ _ _ H1).
      + destruct H1 as [H1 ->]. split; [|reflexivity]. exact (boxit_field _ _ _ _ H1).
      + destruct H1 as [H1 ->]. discriminate.
    - rewrite sup_eq in H2. destruct sp, top; try exact H2. exact (boxit_field _ _ _ _ H2).
    - rewrite sub_eq in H3. destruct sb, bottom; try exact H3. exact (boxit_field _ _ _ _ H3).
    - unfold nucleus_of. rewrite H4. reflexivity.
    - rewrite xi_eq in H5. exact H5.
  Qed.

  (** Rule 18: one script; [up]: how far the superscript goes up, [down] *)
  Theorem super_alone n p s t f sp ac li out x : simple_class t = true ->
    mlist2hlist E n p s [atom_with t f None (Some sp) ac li] = Ok (out, x) ->
    exists nuc u, field_box E s f nuc /\ field_box E (sup_style s) sp u /\
      (is_box u -> exists v w up, out = [hnode (hbox [nuc; w])] /\
         spaced u (half * f_rule (extension E s)) v /\ shifted v (- up) w /\
         let sg := symbols E s in
         greatest [ if isCharacterBox nuc then 0 else hgt nuc - f_supDrop (symbols E (sup_style s));
                    if cramped s then f_sup3 sg else if in_display s then f_sup1 sg else f_sup2 sg;
                    dep w + four_fifths * absolute (f_xHeight sg) ] up).
  Proof.
    intros Ht H. apply one_atom in H. destruct H as (m & a' & -> & H & -> & ->).
    rewrite simple_rule17 in H by exact Ht. unfold rule17 in H. apply bind_Ok in H. destruct H as (r & Hr & H).
    cbn [a_nuc] in Hr. exists (fst r).
    assert (Hn : field_box E s f (fst r)) by (apply (boxit_field (Datatypes.S m)); rewrite Hr; reflexivity).
    destruct (boxit E (inner_call E (Datatypes.S m)) (sup s) (Some sp)) as [q| | | |] eqn:Q;
      try (unfold attachSubSup in H; cbn [a_sub a_sup changeNucleus] in H; rewrite Q in H;
           destruct (if isCharacterBox (fst r) then _ else _) in H; discriminate).
    exists (fst q). split; [exact Hn|]. split.
    { rewrite <- sup_eq. apply (boxit_field (Datatypes.S m)). rewrite Q. reflexivity. }
    intros Hb.
    destruct (super_only E _ s (fst r) (changeNucleus (fst r) (mkAtom t (Some f) None (Some sp) ac li)) a' sp (fst q) eq_refl eq_refl (f_equal (rmap fst) Q) Hb H)
      as (v & w & up & H1 & H2 & H3 & H4).
    exists v, w, up. unfold nucleus_of. rewrite H1. split; [reflexivity|]. rewrite xi_eq in H2. split; [exact H2|]. split; [exact H3|].
    rewrite !sg_eq, sup_eq in H4.
    replace (if cramped s then f_sup3 (symbols E s) else if in_display s then f_sup1 (symbols E s) else f_sup2 (symbols E s))
      with (if style_eqb s D then f_sup1 (symbols E s) else if style_eqb s (cramp s) then f_sup3 (symbols E s) else f_sup2 (symbols E s))
      by (destruct s; reflexivity).
    exact H4.
  Qed.
  Theorem sub_alone n p s t f sb ac li out x : simple_class t = true ->
    mlist2hlist E n p s [atom_with t f (Some sb) None ac li] = Ok (out, x) ->
    exists nuc u, field_box E s f nuc /\ field_box E (sub_style s) sb u /\
      (is_box u -> exists v w down, out = [hnode (hbox [nuc; w])] /\
         spaced u (half * f_rule (extension E s)) v /\ shifted v down w /\
         let sg := symbols E s in
         greatest [ if isCharacterBox nuc then 0 else dep nuc + f_subDrop (symbols E (sub_style s));
                    f_sub1 sg;
                    hgt w - four_fifths * absolute (f_xHeight sg) ] down).
  Proof.
    intros Ht H. apply one_atom in H. destruct H as (m & a' & -> & H & -> & ->).
    rewrite simple_rule17 in H by exact Ht. unfold rule17 in H. apply bind_Ok in H. destruct H as (r & Hr & H).
    cbn [a_nuc] in Hr. exists (fst r).
    assert (Hn : field_box E s f (fst r)) by (apply (boxit_field (Datatypes.S m)); rewrite Hr; reflexivity).
    destruct (boxit E (inner_call E (Datatypes.S m)) (sub s) (Some sb)) as [q| | | |] eqn:Q;
      try (unfold attachSubSup in H; cbn [a_sub a_sup changeNucleus] in H; rewrite Q in H;
           destruct (if isCharacterBox (fst r) then _ else _) in H; discriminate).
    exists (fst q). split; [exact Hn|]. split.
    { rewrite <- sub_eq. apply (boxit_field (Datatypes.S m)). rewrite Q. reflexivity. }
    intros Hb.
    destruct (sub_only E _ s (fst r) (changeNucleus (fst r) (mkAtom t (Some f) (Some sb) None ac li)) a' sb (fst q) eq_refl eq_refl (f_equal (rmap fst) Q) Hb H)
      as (v & w & down & H1 & H2 & H3 & H4).
    exists v, w, down. unfold nucleus_of. rewrite H1. split; [reflexivity|]. rewrite xi_eq in H2. split; [exact H2|]. split; [exact H3|].
    rewrite !sg_eq, sub_eq in H4. exact H4.
  Qed.
  Theorem delimiter_on_axis s y h b : delimiter E s y h b ->
    exists m sh r o l, b = NList Horizontal m sh r o l /\ on_axis (f_axis (symbols E s)) m sh.
  Proof.
    intros (m & r & o & x & -> & _). do 5 eexists. split; [reflexivity|]. unfold on_axis. rewrite sg_eq.
    cbn [nsub nmul nlit QcNum]. change (Q2Qc (1 # 2)) with half.
    set (p := m_height m). set (q := m_depth m). set (ax := f_axis _). clearbody p q ax. cbn [num QcNum] in *.
    pose proof (half_double p) as Hp. pose proof (half_double q) as Hq.
    replace (half * (p - q)) with (half * p - half * q) by ring.
    rewrite Hp at 1. rewrite Hq at 2. ring.
  Qed.
  (** without scripts: the nucleus *)
  Theorem nucleus_alone n p s t f ac li out x : simple_class t = true ->
    mlist2hlist E n p s [atom_with t f None None ac li] = Ok (out, x) -> exists u, field_box E s f u /\ out = [u].
  Proof.
    intros Ht H. apply one_atom in H. destruct H as (m & a' & -> & H & -> & ->).
    rewrite simple_rule17 in H by exact Ht. unfold rule17 in H. apply bind_Ok in H. destruct H as (r & Hr & H).
    injection H as <-. exists (fst r). split; [|reflexivity]. apply (boxit_field (Datatypes.S m)). exact (f_equal (rmap fst) Hr).
  Qed.
End Parts.
