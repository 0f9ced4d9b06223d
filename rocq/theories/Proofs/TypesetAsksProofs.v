(** The parameters that are not asked for do not matter. *)
From Coq Require Import List ZArith Bool Arith Lia.
From Verif.Base Require Import Result Num.
From Verif.Model Require Import Token Lexer Glue Box ListBuilders Tfm FontUsage MathList MathParser MathTypeset MathFrontend TypesetAsks.
From Verif.Spec Require Import FontUsageSpec TypesetAsksSpec.
Import ListNotations.

Section Agree.
  Context {N : Num}.
  Variable E : engine N.
  Variable P : Z -> fsize -> fparams N.
  Notation E' := (with_params E P).

  Definition agree (l : list request) : Prop := Forall (fun r => parameter_of (e_params E) r = parameter_of P r) l.
  Lemma agree_app l1 l2 : agree (l1 ++ l2) <-> agree l1 /\ agree l2.
  Proof. apply Forall_app. Qed.
  Lemma agree_cons r l : agree (r :: l) <-> parameter_of (e_params E) r = parameter_of P r /\ agree l.
  Proof. split; [intros H; inversion H; auto|intros [A B]; constructor; auto]. Qed.
  Lemma some_eq {A} (x y : A) : Some x = Some y -> x = y.
  Proof. congruence. Qed.

  Lemma typeset_same s y : typeset E' s y = typeset E s y. Proof. reflexivity. Qed.

  Section R.
    Variables rec rec' : style -> list (mnode N) -> result (list (node N) * list (mnode N)).
    Variables qrec qrec' : style -> list (mnode N) -> list request.
    Hypothesis Hrec : forall s l, agree (qrec s l) -> rec s l = rec' s l /\ qrec s l = qrec' s l.

    Lemma boxit_agree s f : agree (boxit_asks qrec s f) ->
      boxit E rec s f = boxit E' rec' s f /\ boxit_asks qrec s f = boxit_asks qrec' s f.
    Proof.
      destruct f as [[y|n|l|]|]; cbn [boxit_asks boxit]; intros A; try (split; reflexivity).
      destruct (Hrec s l A) as [<- <-]. split; reflexivity.
    Qed.

    Ltac ask A := let B := fresh "B" in apply agree_cons in A; destruct A as [B A];
      apply some_eq in B; cbn [fst snd of_sigma of_xi parameter parameter_of] in B.
    Ltac part A B := apply agree_app in A; destruct A as [B A].

    Lemma drops_agree s nuc :
      agree (if isCharacterBox nuc then [] else [of_sigma (sup s) supDrop; of_sigma (sub s) subDrop]) ->
      (if isCharacterBox nuc then (n0, n0)
       else (nsub (nh nuc) (f_supDrop (e_params E 2 (fsize_of (sup s)))), nadd (nd nuc) (f_subDrop (e_params E 2 (fsize_of (sub s))))))
      = (if isCharacterBox nuc then (n0, n0)
         else (nsub (nh nuc) (f_supDrop (P 2 (fsize_of (sup s)))), nadd (nd nuc) (f_subDrop (P 2 (fsize_of (sub s)))))).
    Proof. intros A. destruct (isCharacterBox nuc); [reflexivity|]. ask A. ask A. rewrite B, B0. reflexivity. Qed.
    Lemma sup_agree s l :
      agree (of_sigma s (if style_eqb s D then get_sup1 else if style_eqb s (cramp s) then get_sup3 else get_sup2) :: l) ->
      (if style_eqb s D then f_sup1 (e_params E 2 (fsize_of s))
       else if style_eqb s (cramp s) then f_sup3 (e_params E 2 (fsize_of s)) else f_sup2 (e_params E 2 (fsize_of s)))
      = (if style_eqb s D then f_sup1 (P 2 (fsize_of s))
         else if style_eqb s (cramp s) then f_sup3 (P 2 (fsize_of s)) else f_sup2 (P 2 (fsize_of s))) /\ agree l.
    Proof.
      intros A. apply agree_cons in A. destruct A as [B A]. split; [|exact A]. revert B.
      destruct (style_eqb s D); [|destruct (style_eqb s (cramp s))]; intros B; apply some_eq in B; exact B.
    Qed.

    Lemma attach_agree s nuc (a : natom N) :
      agree (attach_asks E rec qrec s (isCharacterBox nuc) (a_sub a) (a_sup a)) ->
      attachSubSup E rec s nuc a = attachSubSup E' rec' s nuc a /\
      attach_asks E rec qrec s (isCharacterBox nuc) (a_sub a) (a_sup a)
      = attach_asks E' rec' qrec' s (isCharacterBox nuc) (a_sub a) (a_sup a).
    Proof.
      unfold attach_asks, attachSubSup, xi, sg. intros A. cbn [e_params with_params].
      destruct (a_sub a) as [fb|], (a_sup a) as [fp|]; try (split; reflexivity).
      - part A A0. ask A. rewrite (drops_agree s nuc A0). clear A0.
        match goal with |- context [let (_, _) := ?x in _] => destruct x as [u v] end.
        rewrite B in *. part A A1. destruct (boxit_agree _ _ A1) as [<- <-].
        destruct (boxit E rec (sup s) (Some fp)) as [r| | | |]; try (split; reflexivity). cbn [bind after] in *.
        destruct (add_space _ (fst r)) as [x| | | |]; try (split; reflexivity). cbn [bind after] in *.
        part A A2. destruct (sup_agree s _ A2) as [V A3]. rewrite V. clear V A2. ask A3. rewrite B0. clear A3.
        destruct (own_box (Some fp)).
        + cbn [bind after fst snd] in *. destruct (add_space _ x) as [y| | | |]; try (split; reflexivity). cbn [bind after] in *.
          cbn [app] in A. ask A. rewrite B1. split; reflexivity.
        + part A A4. destruct (boxit_agree _ _ A4) as [<- <-].
          destruct (boxit E rec (sub s) (snd r)) as [q| | | |]; try (split; reflexivity). cbn [bind after] in *.
          destruct (add_space _ (fst q)) as [y| | | |]; try (split; reflexivity). cbn [bind after] in *.
          ask A. rewrite B1. split; reflexivity.
      - part A A0. ask A. rewrite (drops_agree s nuc A0). clear A0.
        match goal with |- context [let (_, _) := ?x in _] => destruct x as [u v] end.
        rewrite B in *. part A A1. destruct (boxit_agree _ _ A1) as [<- <-].
        destruct (boxit E rec (sub s) (Some fb)) as [r| | | |]; try (split; reflexivity). cbn [bind after] in *.
        destruct (add_space _ (fst r)) as [x| | | |]; try (split; reflexivity). cbn [bind after] in *.
        ask A. ask A. rewrite B0, B1. split; reflexivity.
      - part A A0. ask A. rewrite (drops_agree s nuc A0). clear A0.
        match goal with |- context [let (_, _) := ?x in _] => destruct x as [u v] end.
        rewrite B in *. part A A1. destruct (boxit_agree _ _ A1) as [<- <-].
        destruct (boxit E rec (sup s) (Some fp)) as [r| | | |]; try (split; reflexivity). cbn [bind after] in *.
        destruct (add_space _ (fst r)) as [x| | | |]; try (split; reflexivity). cbn [bind after] in *.
        part A A2. destruct (sup_agree s _ A2) as [V A3]. rewrite V. clear V A2. ask A3. rewrite B0. split; reflexivity.
    Qed.
    (** as it is used *)
    Lemma attach_agree' s nuc (a b : natom N) c : c = isCharacterBox nuc -> a_sub b = a_sub a -> a_sup b = a_sup a ->
      agree (attach_asks E rec qrec s c (a_sub a) (a_sup a)) ->
      attachSubSup E rec s nuc b = attachSubSup E' rec' s nuc b /\
      attach_asks E rec qrec s c (a_sub a) (a_sup a) = attach_asks E' rec' qrec' s c (a_sub a) (a_sup a).
    Proof. intros -> <- <-. apply attach_agree. Qed.

    Lemma rule17_agree s (a : natom N) : agree (rule17_asks E rec qrec s a) ->
      rule17 E rec s a = rule17 E' rec' s a /\ rule17_asks E rec qrec s a = rule17_asks E' rec' qrec' s a.
    Proof.
      unfold rule17_asks, rule17. intros A. part A A1. destruct (boxit_agree _ _ A1) as [<- <-].
      destruct (boxit E rec s (a_nuc a)) as [r| | | |]; try (split; reflexivity). cbn [bind after] in *.
      destruct (attach_agree' s (fst r) a (changeNucleus (fst r) a) _ eq_refl eq_refl eq_refl A) as [-> ->].
      split; reflexivity.
    Qed.
    (** with a box for a nucleus *)
    Lemma rule17_box s (b : natom N) n : a_nuc b = Some (FBox n) -> rule17 E rec s b = attachSubSup E rec s n (changeNucleus n b).
    Proof. intros H. unfold rule17. rewrite H. reflexivity. Qed.
    Lemma rule17_box' s (b : natom N) n : a_nuc b = Some (FBox n) -> rule17 E' rec' s b = attachSubSup E' rec' s n (changeNucleus n b).
    Proof. intros H. unfold rule17. rewrite H. reflexivity. Qed.
    Lemma boxed_agree s (a b : natom N) n c : a_nuc b = Some (FBox n) -> c = isCharacterBox n ->
      a_sub b = a_sub a -> a_sup b = a_sup a ->
      agree (attach_asks E rec qrec s c (a_sub a) (a_sup a)) ->
      rule17 E rec s b = rule17 E' rec' s b /\
      attach_asks E rec qrec s c (a_sub a) (a_sup a) = attach_asks E' rec' qrec' s c (a_sub a) (a_sup a).
    Proof.
      intros Hn Hc Hb Hp A. rewrite (rule17_box s b n Hn), (rule17_box' s b n Hn).
      apply attach_agree'; assumption.
    Qed.

    Lemma rule8_agree s (a : natom N) : agree (rule8_asks E rec qrec s a) ->
      rule8 E rec s a = rule8 E' rec' s a /\ rule8_asks E rec qrec s a = rule8_asks E' rec' qrec' s a.
    Proof.
      unfold rule8_asks, rule8, sg. cbn [e_params with_params]. intros A. part A A1. destruct (boxit_agree _ _ A1) as [<- <-].
      destruct (boxit E rec s (a_nuc a)) as [r| | | |]; try (split; reflexivity). cbn [bind after] in *.
      ask A. rewrite B. cbv zeta.
      match goal with |- rule17 _ _ _ ?b = _ /\ _ =>
        destruct (boxed_agree s a b _ false eq_refl eq_refl eq_refl eq_refl A) as [-> ->] end.
      split; reflexivity.
    Qed.

    Lemma over_agree s (a : natom N) : agree (bar_asks E rec qrec s a) ->
      rule9 E rec s a = rule9 E' rec' s a /\ bar_asks E rec qrec s a = bar_asks E' rec' qrec' s a.
    Proof.
      unfold bar_asks, rule9, xi, rule16. cbn [e_params with_params]. intros A. part A A1. destruct (boxit_agree _ _ A1) as [<- <-].
      destruct (boxit E rec (cramp s) (a_nuc a)) as [r| | | |]; try (split; reflexivity). cbn [bind after] in *.
      ask A. rewrite B. cbv zeta.
      match goal with |- rule17 _ _ _ ?b = _ /\ _ =>
        destruct (boxed_agree s a b _ false eq_refl eq_refl eq_refl eq_refl A) as [-> ->] end.
      split; reflexivity.
    Qed.
    Lemma under_agree s (a : natom N) : agree (bar_asks E rec qrec s a) ->
      rule10 E rec s a = rule10 E' rec' s a /\ bar_asks E rec qrec s a = bar_asks E' rec' qrec' s a.
    Proof.
      intros A. split; [|exact (proj2 (over_agree s a A))].
      revert A. unfold bar_asks, rule10, xi, rule16. cbn [e_params with_params]. intros A. part A A1. destruct (boxit_agree _ _ A1) as [<- _].
      destruct (boxit E rec (cramp s) (a_nuc a)) as [r| | | |]; try reflexivity. cbn [bind after] in *.
      ask A. rewrite B. cbv zeta.
      destruct (vtop _) as [b| | | |]; try reflexivity. cbn [bind].
      match goal with |- rule17 _ _ _ ?b = _ =>
        destruct (boxed_agree s a b _ false eq_refl eq_refl eq_refl eq_refl A) as [-> _] end.
      reflexivity.
    Qed.

    (** the part of [rule13] after the nucleus is changed *)
    Definition op_rest (E0 : engine N) rec0 (s : style) (lim : bool) (a : natom N) (delta : N) : result (natom N) :=
      if negb lim then rule17 E0 rec0 s a
      else
        do rx <- boxit E0 rec0 (sup s) (a_sup a);
        do ry <- boxit E0 rec0 s (a_nuc a);
        do rz <- boxit E0 rec0 (sub s) (a_sub a);
        let w := nmax3 (nw (fst rx)) (nw (fst ry)) (nw (fst rz)) in
        let (x, xnew) := widen w (fst rx) in
        let (y, ynew) := widen w (fst ry) in
        let (z, znew) := widen w (fst rz) in
        do r <- (match a_sup a with
                 | None => Ok ([], None)
                 | Some _ =>
                     do x <- shift_list x (nmul nhalf delta);
                     Ok ([NKern (f_big5 (xi E0 s)); x; NKern (nmax (f_big1 (xi E0 s)) (nsub (f_big3 (xi E0 s)) (nd x)))],
                         if own_box (a_sup a) && negb xnew then Some (FBox x) else snd rx)
                 end);
        let b := vbox (fst r ++ [y]) in
        let h := nsub (totalHeight (b_metrics b)) (nd y) in
        do q <- (match a_sub a with
                 | None => Ok (b, None)
                 | Some _ =>
                     do z' <- shift_list z (nmul (nopp nhalf) delta);
                     let l := b_list b ++
                       [NKern (nmax (f_big2 (xi E0 s)) (nsub (f_big4 (xi E0 s)) (nh z))); z'; NKern (f_big5 (xi E0 s))] in
                     Ok (changeHeight (vbox_rebox (set_list b l)) h,
                         if own_box (a_sub a) && negb znew then Some (FBox z') else snd rz)
                 end);
        Ok (changeNucleus (vnode (fst q)) (setSubSup (snd q) (snd r) a)).
    Definition op_asks (E0 : engine N) rec0 qrec0 (s : style) (lim : bool) (f : mfield N) (a : natom N) : list request :=
      if negb lim then
        boxit_asks qrec0 s (Some f) ++
        after (boxit E0 rec0 s (Some f)) (fun r => attach_asks E0 rec0 qrec0 s (isCharacterBox (fst r)) (a_sub a) (a_sup a))
      else
        boxit_asks qrec0 (sup s) (a_sup a) ++
        after (boxit E0 rec0 (sup s) (a_sup a)) (fun _ =>
        boxit_asks qrec0 s (Some f) ++
        after (boxit E0 rec0 s (Some f)) (fun _ =>
        boxit_asks qrec0 (sub s) (a_sub a) ++
        after (boxit E0 rec0 (sub s) (a_sub a)) (fun _ =>
        match a_sup a with
        | None => []
        | Some _ => [of_xi s bigOpSpacing5; of_xi s bigOpSpacing1; of_xi s bigOpSpacing3]
        end ++
        match a_sub a with
        | None => []
        | Some _ => [of_xi s bigOpSpacing2; of_xi s bigOpSpacing4; of_xi s bigOpSpacing5]
        end))).
    Definition op_limits (s : style) (a : natom N) : bool :=
      match a_lim a with Limits => true | DisplayLimits => style_gtb s T | NoLimits => false end.
    Lemma op_agree s lim f (a b : natom N) delta : a_nuc b = Some f -> a_sub b = a_sub a -> a_sup b = a_sup a ->
      agree (op_asks E rec qrec s lim f a) ->
      op_rest E rec s lim b delta = op_rest E' rec' s lim b delta /\
      op_asks E rec qrec s lim f a = op_asks E' rec' qrec' s lim f a.
    Proof.
      intros Hn Hb Hp. unfold op_asks, op_rest. destruct lim; cbn [negb].
      2:{ intros A. rewrite <- Hb, <- Hp, <- Hn in *. exact (rule17_agree s b A). }
      rewrite Hn, Hb, Hp. intros A. part A A1. destruct (boxit_agree _ _ A1) as [<- <-].
      destruct (boxit E rec (sup s) (a_sup a)) as [rx| | | |]; try (split; reflexivity). cbn [bind after] in *.
      part A A2. destruct (boxit_agree _ _ A2) as [<- <-].
      destruct (boxit E rec s (Some f)) as [ry| | | |]; try (split; reflexivity). cbn [bind after] in *.
      part A A3. destruct (boxit_agree _ _ A3) as [<- <-].
      destruct (boxit E rec (sub s) (a_sub a)) as [rz| | | |]; try (split; reflexivity). cbn [bind after] in *.
      split; [|reflexivity]. cbv zeta. unfold xi. cbn [e_params with_params].
      destruct (widen _ (fst rx)) as [x xnew]. destruct (widen _ (fst ry)) as [y ynew]. destruct (widen _ (fst rz)) as [z znew].
      part A A4.
      destruct (a_sup a) as [fp|]; [ask A4; ask A4; ask A4; rewrite ?B, ?B0, ?B1; clear B B0 B1|];
      (destruct (a_sub a) as [fb|]; [ask A; ask A; ask A; rewrite ?B, ?B0, ?B1; clear B B0 B1|]); reflexivity.
    Qed.
    Lemma rule13_agree s (a : natom N) : agree (rule13_asks E rec qrec s a) ->
      rule13 E rec s a = rule13 E' rec' s a /\ rule13_asks E rec qrec s a = rule13_asks E' rec' qrec' s a.
    Proof.
      unfold rule13_asks, rule13. cbn [e_largeop e_italic with_params]. fold (op_limits s a).
      intros A. part A A0. clear A0.
      destruct (a_nuc a) as [f|] eqn:Hn; [|split; reflexivity].
      assert (G : forall f' (b : natom N) delta, a_nuc b = Some f' -> a_sub b = a_sub a -> a_sup b = a_sup a ->
        agree (op_asks E rec qrec s (op_limits s a) f' a) ->
        op_rest E rec s (op_limits s a) b delta = op_rest E' rec' s (op_limits s a) b delta /\
        op_asks E rec qrec s (op_limits s a) f' a = op_asks E' rec' qrec' s (op_limits s a) f' a)
        by (intros; apply op_agree; assumption).
      destruct f as [y|n|l|].
      - destruct (style_gtb s T).
        + destruct (G (FBox (hnode (hbox [e_largeop E y]))) (changeNucleus (hnode (hbox [e_largeop E y])) a) (e_italic E y (s_fam y) (fsize_of s)) eq_refl eq_refl eq_refl A) as [G1 G2].
          split; [|exact (f_equal (app _) G2)].
          destruct (family_ok (s_fam y)); [|reflexivity]. exact G1.
        + destruct (G (FSym y) a n0 Hn eq_refl eq_refl A) as [G1 G2]. split; [exact G1|exact (f_equal (app _) G2)].
      - destruct (G (FBox n) a n0 Hn eq_refl eq_refl A) as [G1 G2]. split; [exact G1|exact (f_equal (app _) G2)].
      - destruct (G (FList l) a n0 Hn eq_refl eq_refl A) as [G1 G2]. split; [exact G1|exact (f_equal (app _) G2)].
      - destruct (G FOther a n0 Hn eq_refl eq_refl A) as [G1 G2]. split; [exact G1|exact (f_equal (app _) G2)].
    Qed.

    Lemma radical_agree s x : agree (radical_asks s) -> radical E s x = radical E' s x.
    Proof.
      unfold radical_asks, radical, radicalSignBox, xi, sg. cbn [e_params e_radical with_params]. intros A. ask A. rewrite B.
      part A A1. destruct (style_gtb s T); [ask A1; rewrite B0|]; reflexivity.
    Qed.
    Lemma rule11_agree s (a : natom N) : agree (rule11_asks E rec qrec s a) ->
      rule11 E rec s a = rule11 E' rec' s a /\ rule11_asks E rec qrec s a = rule11_asks E' rec' qrec' s a.
    Proof.
      unfold rule11_asks, rule11, rule16. intros A. part A A1. destruct (boxit_agree _ _ A1) as [<- <-].
      destruct (boxit E rec (cramp s) (a_nuc a)) as [r| | | |]; try (split; reflexivity). cbn [bind after] in *.
      destruct (radical E s (fst r)) as [y b] eqn:HR. part A A2. rewrite <- (radical_agree s (fst r) A2), HR.
      match goal with |- rule17 _ _ _ ?b = _ /\ _ =>
        destruct (boxed_agree s a b _ _ eq_refl eq_refl eq_refl eq_refl A) as [-> ->] end.
      split; reflexivity.
    Qed.

    (** the end of [rule12] *)
    Definition accent_rest (E0 : engine N) rec0 (s : style) (u : N) (p : natom N * node N * N) : result (natom N) :=
      let '(a, x, delta) := p in
      match a_acc a with
      | None => UB
      | Some y =>
          do y <- typeset E0 s y;
          let b := hbox [y] in
          let b := setShiftAmount b (nadd (b_shift b) (nmul nhalf (nsub u (m_width (b_metrics b))))) in
          let z := vbox [hnode b; NKern (nopp delta); x] in
          let z := if nltb (m_height (b_metrics z)) (nh x)
                   then vbox_rebox (set_list z (NKern (nsub (nh x) (m_height (b_metrics z))) :: b_list z))
                   else z in
          rule16 E0 rec0 s (changeNucleus (vnode z) a)
      end.
    Lemma accent_agree s u (a : natom N) x delta :
      agree (match a_acc a with
             | None => [] | Some y => after (typeset E s y) (fun _ => attach_asks E rec qrec s false (a_sub a) (a_sup a)) end) ->
      accent_rest E rec s u (a, x, delta) = accent_rest E' rec' s u (a, x, delta) /\
      match a_acc a with
      | None => [] | Some y => after (typeset E s y) (fun _ => attach_asks E rec qrec s false (a_sub a) (a_sup a)) end
      = match a_acc a with
        | None => [] | Some y => after (typeset E' s y) (fun _ => attach_asks E' rec' qrec' s false (a_sub a) (a_sup a)) end.
    Proof.
      unfold accent_rest, rule16. intros A. destruct (a_acc a) as [y|]; [|split; reflexivity].
      change (typeset E' s y) with (typeset E s y).
      destruct (typeset E s y) as [yb| | | |]; try (split; reflexivity). cbn [bind after] in *. cbv zeta.
      match goal with |- rule17 _ _ _ ?b = _ /\ _ =>
        destruct (boxed_agree s a b _ false eq_refl eq_refl eq_refl eq_refl A) as [-> ->] end.
      split; reflexivity.
    Qed.
    Lemma rule12_agree s (a : natom N) : agree (rule12_asks E rec qrec s a) ->
      rule12 E rec s a = rule12 E' rec' s a /\ rule12_asks E rec qrec s a = rule12_asks E' rec' qrec' s a.
    Proof.
      unfold rule12_asks, rule12, sg. cbn [e_params with_params]. intros A. part A A1. destruct (boxit_agree _ _ A1) as [<- <-].
      destruct (boxit E rec (cramp s) (a_nuc a)) as [r| | | |]; try (split; reflexivity). cbn [bind after] in *.
      ask A. rewrite B. cbv zeta. clear B A1.
      assert (K : forall (o : result (natom N * node N * N)) (o' : result (natom N * node N * N)) l l',
        (do p <- o; accent_rest E rec s (nw (fst r)) p) = (do p <- o'; accent_rest E' rec' s (nw (fst r)) p) /\ l = l' ->
        (do p <- o; accent_rest E rec s (nw (fst r)) p) = (do p <- o'; accent_rest E' rec' s (nw (fst r)) p) /\
        boxit_asks qrec (cramp s) (a_nuc a) ++ of_sigma s xHeight :: l
        = boxit_asks qrec (cramp s) (a_nuc a) ++ of_sigma s xHeight :: l').
      { intros o o' l l' [K1 ->]. split; [exact K1|reflexivity]. }
      refine (K _ _ _ _ _). clear K.
      destruct (a_nuc a) as [[y|n|l|]|].
      - destruct (rule17_agree s a A) as [H1 H2]. split; [|exact H2]. rewrite <- H1.
        destruct (rule17 E rec s a) as [a'| | | |]; try reflexivity. cbn [bind].
        destruct (a_nuc a') as [[| | |]|]; reflexivity.
      - exact (accent_agree s _ a _ _ A).
      - exact (accent_agree s _ a _ _ A).
      - exact (accent_agree s _ a _ _ A).
      - exact (accent_agree s _ a _ _ A).
    Qed.

    Lemma list_agree s l : agree (qrec s l) ->
      boxit_list rec s l = boxit_list rec' s l /\ qrec s l = qrec' s l /\ rec s l = rec' s l.
    Proof. intros A. destruct (Hrec s l A) as [H1 H2]. unfold boxit_list. rewrite H1. auto. Qed.

    Lemma rule15_agree s n d : agree (rule15_asks rec qrec s n d) ->
      rule15 E rec s n d = rule15 E' rec' s n d /\ rule15_asks rec qrec s n d = rule15_asks rec' qrec' s n d.
    Proof.
      unfold rule15_asks, rule15, xi, sg. cbn [e_params with_params]. intros A. ask A. rewrite B. clear B.
      part A A1. destruct (list_agree _ _ A1) as (<- & <- & <-). unfold boxit_list.
      destruct (rec (fracNum s) n) as [rx| | | |]; try (split; reflexivity). cbn [bind after] in *.
      part A A2. destruct (list_agree _ _ A2) as (_ & <- & <-).
      destruct (rec (fracDen s) d) as [rz| | | |]; try (split; reflexivity). cbn [bind after] in *.
      part A A3. ask A. rewrite B. destruct (style_gtb s T); ask A3; ask A3; rewrite B0, B1; split; reflexivity.
    Qed.

    Lemma root_agree s n d : agree (root_asks rec qrec s n d) ->
      processRoot E rec s n d = processRoot E' rec' s n d /\ root_asks rec qrec s n d = root_asks rec' qrec' s n d.
    Proof.
      unfold root_asks, processRoot. intros A.
      part A A1. destruct (list_agree _ _ A1) as (<- & <- & <-). unfold boxit_list.
      destruct (rec (cramp s) d) as [rx| | | |]; try (split; reflexivity). cbn [bind after] in *.
      part A A2. destruct (list_agree _ _ A) as (_ & <- & <-). rewrite <- (radical_agree _ _ A2).
      cbn [fst snd]. destruct (radical E s _) as [y b].
      destruct (rec SS n) as [ri| | | |]; split; reflexivity.
    Qed.

    Lemma lists_agree s c : agree (lists_asks rec qrec s c) ->
      boxit_lists rec s c = boxit_lists rec' s c /\ lists_asks rec qrec s c = lists_asks rec' qrec' s c.
    Proof.
      induction c as [|l c IH]; cbn [lists_asks boxit_lists]; intros A; [split; reflexivity|].
      part A A1. destruct (list_agree _ _ A1) as (<- & <- & <-). unfold boxit_list.
      destruct (rec s l) as [r| | | |]; try (split; reflexivity). cbn [bind after] in *.
      destruct (IH A) as [<- <-]. split; reflexivity.
    Qed.

    Lemma cell_agree w j b : f_quad (e_params E 0 TextFont) = f_quad (P 0 TextFont) -> cell E w j b = cell E' w j b.
    Proof. intros H. unfold cell, MathTypeset.quad. cbn [e_params with_params]. rewrite H. reflexivity. Qed.
    Lemma matrix_agree s c k : agree (matrix_asks rec qrec s c k) ->
      processMatrix E rec s c k = processMatrix E' rec' s c k /\
      matrix_asks rec qrec s c k = matrix_asks rec' qrec' s c k.
    Proof.
      unfold matrix_asks, processMatrix. intros A. ask A. part A A1. destruct (lists_agree _ _ A1) as [<- <-].
      destruct (boxit_lists rec s c) as [r| | | |]; try (split; reflexivity). cbn [bind after] in *.
      destruct (Nat.eqb k 0); [split; reflexivity|]. split; [|reflexivity].
      assert (M : matrix_box E k (fst r) = matrix_box E' k (fst r)).
      { unfold matrix_box. cbv zeta.
        change (mathstrut E') with (mathstrut E). change (baselineskip E') with (baselineskip E). change (lineskip E') with (lineskip E).
        rewrite (map_ext (matrix_row E k (fst r)) (matrix_row E' k (fst r))); [reflexivity|].
        intros i. unfold matrix_row. f_equal. f_equal. apply map_ext. intros j. f_equal. apply cell_agree, B. }
      rewrite <- M.
      destruct (rule8_agree s (create Vcent (matrix_box E k (fst r)))) as [-> _]; [|reflexivity].
      unfold rule8_asks. cbn [create a_nuc a_sub a_sup boxit_asks boxit after app]. exact A.
    Qed.

    Lemma atom_agree s first recent (a : natom N) : agree (atom_asks E rec qrec s a) ->
      process_atom E rec s first recent a = process_atom E' rec' s first recent a /\
      atom_asks E rec qrec s a = atom_asks E' rec' qrec' s a.
    Proof.
      unfold atom_asks, process_atom. cbv zeta.
      destruct (a_ty a =? Bin)%Z eqn:H1.
      { apply Z.eqb_eq in H1. rewrite H1. cbn -[rule17_asks rule5]. intros A.
        destruct (rule17_agree s a A) as [H2 H3]. split; [|exact H3].
        unfold rule5. destruct (first && _); [|exact H2].
        destruct (rule17_agree s (changeType Ord a) A) as [H4 _]. exact H4. }
      destruct (a_ty a =? Rel)%Z eqn:H2.
      { apply Z.eqb_eq in H2. rewrite H2. cbn -[rule17_asks rule17]. apply rule17_agree. }
      destruct (a_ty a =? Close)%Z eqn:H3.
      { apply Z.eqb_eq in H3. rewrite H3. cbn -[rule17_asks rule17]. apply rule17_agree. }
      destruct (a_ty a =? Punct)%Z eqn:H4.
      { apply Z.eqb_eq in H4. rewrite H4. cbn -[rule17_asks rule17]. apply rule17_agree. }
      destruct (a_ty a =? Open)%Z eqn:H5.
      { apply Z.eqb_eq in H5. rewrite H5. cbn -[rule17_asks rule17]. apply rule17_agree. }
      destruct (a_ty a =? Inner)%Z eqn:H6.
      { apply Z.eqb_eq in H6. rewrite H6. cbn -[rule17_asks rule17]. apply rule17_agree. }
      cbn [orb]. destruct (a_ty a =? Vcent)%Z; [apply rule8_agree|].
      destruct (a_ty a =? Over)%Z; [apply over_agree|]. cbn [orb].
      destruct (a_ty a =? Under)%Z; [apply under_agree|].
      destruct (a_ty a =? Rad)%Z; [apply rule11_agree|].
      destruct (a_ty a =? Acc)%Z; [apply rule12_agree|].
      destruct (a_ty a =? Op)%Z; [apply rule13_agree|].
      destruct (a_ty a =? Ord)%Z; [apply rule17_agree|]. split; reflexivity.
    Qed.

    Lemma step_agree st : agree (step_asks E rec qrec st) ->
      step E rec st = step E' rec' st /\ step_asks E rec qrec st = step_asks E' rec' qrec' st.
    Proof.
      unfold step_asks, step. destruct (p_rest st) as [|e r]; [split; reflexivity|].
      destruct e as [a|b|n d|n d|c k|s|o g|n]; intros A.
      - assert (HS : p_style (rule6 st a) = p_style st).
        { unfold rule6. destruct ((a_ty a =? Rel) || (a_ty a =? Close) || (a_ty a =? Punct))%Z; [|reflexivity].
          destruct (p_recent st); [|reflexivity]. destruct (recent_type st); [|reflexivity].
          destruct (_ =? Bin)%Z; reflexivity. }
        cbv zeta. rewrite HS.
        destruct (atom_agree (p_style st) (at_begin (rule6 st a)) (recent_type (rule6 st a)) a A) as [-> ->]. split; reflexivity.
      - split; reflexivity.
      - destruct (rule15_agree _ _ _ A) as [-> ->]. split; reflexivity.
      - destruct (root_agree _ _ _ A) as [-> ->]. split; reflexivity.
      - destruct (matrix_agree _ _ _ A) as [-> ->]. split; reflexivity.
      - split; reflexivity.
      - destruct o; [split; reflexivity| |split; reflexivity]. split; [|reflexivity].
        ask A. unfold rule2, scale_glue, sg. cbn [e_params with_params]. rewrite B. reflexivity.
      - destruct n; split; reflexivity.
    Qed.
    Lemma loop_agree : forall n st, agree (loop_asks E rec qrec n st) ->
      loop E rec n st = loop E' rec' n st /\ loop_asks E rec qrec n st = loop_asks E' rec' qrec' n st.
    Proof.
      induction n as [|n IH]; intros st A; cbn [loop loop_asks] in *; destruct (p_rest st) as [|e r]; try (split; reflexivity).
      part A A1. destruct (step_agree st A1) as [<- <-].
      destruct (step E rec st) as [st1| | | |]; try (split; reflexivity). cbn [bind after] in *.
      destruct (IH st1 A) as [-> ->]. split; reflexivity.
    Qed.
  End R.

  Lemma boundary_agree s l : agree (boundary_asks s l) -> processBoundary E s l = processBoundary E' s l.
  Proof.
    unfold boundary_asks, processBoundary. destruct l as [|[ | y | | | | | | ] r]; try reflexivity.
    destruct (last _ _); try reflexivity. intros A.
    apply agree_cons in A. destruct A as [B _]. apply some_eq in B. cbn in B.
    unfold delimiter_size, delimiter_box, sg. cbn [e_params with_params]. rewrite B. reflexivity.
  Qed.
  Lemma space_agree s t t' : agree (space_asks E s t t') -> insertSpace E s t t' = insertSpace E' s t t'.
  Proof.
    unfold space_asks, insertSpace.
    destruct (negb (t <=? Inner)%Z); [reflexivity|]. destruct (negb (t' <=? Inner)%Z); [reflexivity|].
    destruct (look2 spacing t t') as [am| | | |]; try reflexivity. cbn [bind].
    destruct (look2 spacingNonScript t t') as [ns| | | |]; try reflexivity. cbn [bind].
    unfold thinmuskip, medmuskip, thickmuskip, mu, sg. cbn [e_params with_params].
    destruct (_ || _); [reflexivity|].
    destruct (am =? 1)%Z; [|destruct (am =? 2)%Z; [|destruct (am =? 3)%Z; [|reflexivity]]]; intros A;
      apply agree_cons in A; destruct A as [B _]; apply some_eq in B; cbn in B; rewrite B; reflexivity.
  Qed.
  Lemma emit_agree p s : forall l recent, agree (emit_asks E s recent l) ->
    emit E p s recent l = emit E' p s recent l /\ emit_asks E s recent l = emit_asks E' s recent l.
  Proof.
    induction l as [|e l IH]; intros recent A; [split; reflexivity|].
    destruct e as [a| | | | | | | ]; cbn [emit emit_asks] in *;
      try (destruct (IH _ A) as [-> ->]; split; reflexivity).
    destruct recent as [t|].
    - apply agree_app in A. destruct A as [A1 A]. unfold space_asks. rewrite <- (space_agree _ _ _ A1).
      destruct (insertSpace E s t (a_ty a)) as [sp| | | |]; try (split; reflexivity). cbn [bind after] in *.
      destruct (IH _ A) as [-> ->]. split; reflexivity.
    - cbn [bind]. destruct (IH _ A) as [-> ->]. split; reflexivity.
  Qed.

  Theorem typeset_agree : forall fuel p s l, agree (typeset_asks E fuel s l) ->
    mlist2hlist E fuel p s l = mlist2hlist E' fuel p s l /\ typeset_asks E fuel s l = typeset_asks E' fuel s l.
  Proof.
    induction fuel as [|fuel IH]; intros p s l A; destruct l as [|e l]; try (split; reflexivity).
    cbn [mlist2hlist typeset_asks] in *. apply agree_app in A. destruct A as [A1 A].
    destruct (loop_agree (mlist2hlist E fuel default_penalties) (mlist2hlist E' fuel default_penalties)
      (typeset_asks E fuel) (typeset_asks E' fuel) (IH default_penalties) fuel _ A1) as [<- <-].
    destruct (loop E _ fuel _) as [st| | | |]; try (split; reflexivity). cbn [bind after] in *.
    apply agree_app in A. destruct A as [A2 A]. rewrite <- (boundary_agree _ _ A2).
    destruct (processBoundary E _ _) as [cur| | | |]; try (split; reflexivity). cbn [bind after] in *.
    destruct (emit_agree p s cur None A) as [<- <-]. split; reflexivity.
  Qed.
End Agree.
