(** The boxes in a typeset formula are those of its nodes taken alone. *)
From Coq Require Import List ZArith QArith Bool Lia Arith.
From Verif.Base Require Import Result Num.
From Verif.Model Require Import Glue Box MathList MathTypeset.
From Verif.Spec Require Import MathSpec TypesetSpec.
From Verif.Proofs Require Import TypesetEmit TypesetTypes.
Import ListNotations.
Local Open Scope nat_scope.

Section Boxes.
  Context {N : Num}.
  Variable E : engine N.

  (** the box of a node alone *)
  Definition alone (n : nat) (p : penalties) (q : style * mnode N) (b : node N) : Prop :=
    exists x, mlist2hlist E n p (fst q) [snd q] = Ok ([b], x).

  Section Loop.
    Variable n : nat.
    Let rec := mlist2hlist E n default_penalties.

    Lemma loop_end k st : p_rest st = [] -> loop E rec k st = Ok st.
    Proof. intros H. destruct k; cbn [loop]; rewrite H; reflexivity. Qed.

    Lemma loop_next R j k st e r : j = Datatypes.S k -> p_rest st = e :: r ->
      loop E R j st = (do st <- step E R st; loop E R k st).
    Proof. intros -> H. cbn [loop]. rewrite H. reflexivity. Qed.

    Lemma process_atom_context s first recent a : (first = true -> recent = None) ->
      process_atom E rec s first recent a = process_atom E rec s true None a.
    Proof.
      intros H. unfold process_atom. destruct (a_ty a =? Bin)%Z; [|reflexivity].
      unfold rule5. cbn [andb]. destruct first; [rewrite (H eq_refl); reflexivity|reflexivity].
    Qed.
    Lemma rule6_empty e s a : rule6 (mkP [] e s None) a = mkP (N := N) [] e s None.
    Proof. unfold rule6. cbn. destruct (_ || _); reflexivity. Qed.

    Lemma alone_atom k p s a a' : n = Datatypes.S k -> process_atom E rec s true None a = Ok a' ->
      alone (Datatypes.S n) p (s, MAtom a) (nucleus_of a').
    Proof.
      intros Hn H. exists [MAtom a']. cbn [mlist2hlist fst snd]. fold rec.
      rewrite (loop_next rec n k (mkP [] [MAtom a] s None) _ _ Hn eq_refl). cbn [p_rest step].
      rewrite rule6_empty. cbn [p_style at_begin recent_type recent_atom p_done p_recent forallb option_map].
      rewrite H. cbn [bind]. rewrite loop_end by reflexivity.
      reflexivity.
    Qed.
    Lemma alone_frac k p s x y a o : n = Datatypes.S k -> rule15 E rec s x y = Ok (a, o) ->
      alone (Datatypes.S n) p (s, MFrac x y) (nucleus_of a).
    Proof.
      intros Hn H. exists [o]. cbn [mlist2hlist fst snd]. fold rec.
      rewrite (loop_next rec n k (mkP [] [MFrac x y] s None) _ _ Hn eq_refl). cbn [p_rest step].
      cbn [p_style]. rewrite H. cbn [bind]. rewrite loop_end by reflexivity. reflexivity.
    Qed.
    Lemma alone_root k p s x y a o : n = Datatypes.S k -> processRoot E rec s x y = Ok (a, o) ->
      alone (Datatypes.S n) p (s, MRoot x y) (nucleus_of a).
    Proof.
      intros Hn H. exists [o]. cbn [mlist2hlist fst snd]. fold rec.
      rewrite (loop_next rec n k (mkP [] [MRoot x y] s None) _ _ Hn eq_refl). cbn [p_rest step].
      cbn [p_style]. rewrite H. cbn [bind]. rewrite loop_end by reflexivity. reflexivity.
    Qed.
    Lemma alone_matrix k p s x y a o : n = Datatypes.S k -> processMatrix E rec s x y = Ok (a, o) ->
      alone (Datatypes.S n) p (s, MMatrix x y) (nucleus_of a).
    Proof.
      intros Hn H. exists [o]. cbn [mlist2hlist fst snd]. fold rec.
      rewrite (loop_next rec n k (mkP [] [MMatrix x y] s None) _ _ Hn eq_refl). cbn [p_rest step].
      cbn [p_style]. rewrite H. cbn [bind]. rewrite loop_end by reflexivity. reflexivity.
    Qed.

    Definition tied p (whole : list (style * mnode N)) (st : pstate N) : Prop :=
      exists ps, whole = ps ++ parts (p_style st) (p_rest st) /\
        Forall2 (alone (Datatypes.S n) p) ps (boxes_of (currents (p_done st))).

    Lemma boxes_retype_one x : boxes_of [retype Ord x] = boxes_of (N := N) [x].
    Proof. destruct x; reflexivity. Qed.
    Lemma boxes_app a b : boxes_of (N := N) (a ++ b) = boxes_of a ++ boxes_of b.
    Proof. apply flat_map_app. Qed.
    Lemma boxes_update k l : boxes_of (N := N) (currents (update k retype_item l)) = boxes_of (currents l).
    Proof.
      revert k; induction l as [|i l IH]; intros k; [destruct k; reflexivity|].
      destruct k; cbn [update].
      - change (retype_item i :: l) with ([retype_item i] ++ l). change (i :: l) with ([i] ++ l).
        rewrite !currents_app, !boxes_app. f_equal. unfold retype_item. destruct i as [o [c|]]; [|reflexivity].
        cbn [currents flat_map it_cur option_map app]. apply boxes_retype_one.
      - change (i :: update k retype_item l) with ([i] ++ update k retype_item l). change (i :: l) with ([i] ++ l).
        rewrite !currents_app, !boxes_app, IH. reflexivity.
    Qed.
    Lemma rule6_boxes st a : boxes_of (N := N) (currents (p_done (rule6 st a))) = boxes_of (currents (p_done st)) /\
      p_rest (rule6 st a) = p_rest st /\ p_style (rule6 st a) = p_style st.
    Proof.
      unfold rule6. destruct (_ || _); [|auto]. destruct (p_recent st); [|auto].
      destruct (recent_type st); [|auto]. destruct (z =? Bin)%Z; [|auto].
      cbn [p_done p_rest p_style]. split; [apply boxes_update|auto].
    Qed.

    Lemma tied_box p whole st e r b o c q :
      tied p whole st -> p_rest st = e :: r -> parts (p_style st) (e :: r) = (p_style st, e) :: parts (p_style st) r ->
      alone (Datatypes.S n) p (p_style st, e) b -> boxes_of [c] = [b] ->
      tied p whole (mkP (p_done st ++ [mkItem o (Some c)]) r (p_style st) q).
    Proof.
      intros (ps & H1 & H2) Hr Hp Ha Hc. exists (ps ++ [(p_style st, e)]). cbn [p_done p_rest p_style].
      rewrite H1, Hr, Hp, <- app_assoc. split; [reflexivity|].
      rewrite currents_app, boxes_app. apply Forall2_app; [exact H2|].
      cbn [currents flat_map it_cur app]. rewrite Hc. constructor; [exact Ha|constructor].
    Qed.
    Lemma tied_pass p whole st r s x q :
      tied p whole st -> parts (p_style st) (p_rest st) = parts s r -> boxes_of (currents x) = [] ->
      tied p whole (mkP (p_done st ++ x) r s q).
    Proof.
      intros (ps & H1 & H2) Hp Hx. exists ps. cbn [p_done p_rest p_style]. rewrite <- Hp. split; [exact H1|].
      rewrite currents_app, boxes_app, Hx, app_nil_r. exact H2.
    Qed.

    Lemma step_tied k p whole st : n = Datatypes.S k -> tied p whole st -> p_rest st <> [] ->
      holds (step E rec st) (tied p whole).
    Proof.
      intros Hn Ht Hne. unfold step. destruct (p_rest st) as [|e r] eqn:Hr; [congruence|].
      destruct e as [a|y|x d|x d|c cols|s|o g|x].
      - destruct (rule6_boxes st a) as (B1 & B2 & B3).
        assert (Ht' : tied p whole (rule6 st a)).
        { destruct Ht as (ps & H1 & H2). exists ps. rewrite B1, B2, B3. auto. }
        rewrite process_atom_context by apply at_begin_recent.
        intros st' H. apply bind_Ok in H. destruct H as (a' & Ha & [= <-]).
        rewrite <- B2 in Hr.
        apply (tied_box p whole (rule6 st a) (MAtom a) r (nucleus_of a') _ _ _ Ht' Hr eq_refl); [|reflexivity].
        exact (alone_atom k p _ _ _ Hn Ha).
      - apply holds_ok. apply tied_pass; [exact Ht|rewrite Hr; reflexivity|reflexivity].
      - intros st' H. apply bind_Ok in H. destruct H as ([a o] & Ha & [= <-]).
        apply (tied_box p whole st (MFrac x d) r (nucleus_of a) _ _ _ Ht Hr eq_refl); [|reflexivity].
        exact (alone_frac k p _ _ _ _ _ Hn Ha).
      - intros st' H. apply bind_Ok in H. destruct H as ([a o] & Ha & [= <-]).
        apply (tied_box p whole st (MRoot x d) r (nucleus_of a) _ _ _ Ht Hr eq_refl); [|reflexivity].
        exact (alone_root k p _ _ _ _ _ Hn Ha).
      - intros st' H. apply bind_Ok in H. destruct H as ([a o] & Ha & [= <-]).
        apply (tied_box p whole st (MMatrix c cols) r (nucleus_of a) _ _ _ Ht Hr eq_refl); [|reflexivity].
        exact (alone_matrix k p _ _ _ _ _ Hn Ha).
      - apply holds_ok. apply tied_pass; [exact Ht|rewrite Hr; reflexivity|reflexivity].
      - apply holds_ok. unfold rule2. destruct o.
        + apply tied_pass; [exact Ht|rewrite Hr; reflexivity|reflexivity].
        + apply tied_pass; [exact Ht|rewrite Hr; reflexivity|reflexivity].
        + destruct r as [|m r'].
          * apply tied_pass; [exact Ht|rewrite Hr; reflexivity|reflexivity].
          * destruct (isGlueOrKern m && style_leb (p_style st) MathList.S) eqn:Q.
            -- unfold advance. cbn [p_done]. rewrite <- app_assoc.
               apply tied_pass; [exact Ht| |reflexivity]. rewrite Hr.
               apply andb_true_iff in Q. destruct Q as [Q _]. destruct m as [| | | | | | |y]; try discriminate Q; [reflexivity|].
               destruct y; try discriminate Q; reflexivity.
            -- apply tied_pass; [exact Ht|rewrite Hr; reflexivity|reflexivity].
      - destruct x; apply holds_ok;
          first [exact Ht | apply tied_pass; [exact Ht|rewrite Hr; reflexivity|reflexivity]].
    Qed.
    Lemma loop_tied k p whole : n = Datatypes.S k -> forall j st, tied p whole st ->
      holds (loop E rec j st) (fun st' => Forall2 (alone (Datatypes.S n) p) whole (boxes_of (currents (p_done st')))).
    Proof.
      intros Hn.
      assert (D : forall st, tied p whole st -> p_rest st = [] ->
                  Forall2 (alone (Datatypes.S n) p) whole (boxes_of (currents (p_done st)))).
      { intros st (ps & H1 & H2) Hr. rewrite Hr in H1. cbn [parts] in H1. rewrite app_nil_r in H1. subst. exact H2. }
      induction j as [|j IH]; intros st Hi; cbn [loop]; destruct (p_rest st) eqn:Hr.
      - apply holds_ok. auto.
      - intros ? [=].
      - apply holds_ok. auto.
      - eapply holds_bind; [apply (step_tied k p whole st Hn Hi); congruence|]. exact IH.
    Qed.
  End Loop.

  Lemma delimiter_of s y h : delimiter E s y h (delimiter_box E s y h).
  Proof.
    unfold delimiter, delimiter_box. set (x := typesetDelimiter E y h).
    exists (b_metrics (hbox [x])), (b_ratio (hbox [x])), (b_order (hbox [x])), x.
    split; [reflexivity|]. unfold x, typesetDelimiter. destruct y; [reflexivity|].
    unfold nullbox, hnode, node_of. reflexivity.
  Qed.

  (** the sums of heights and depths over the atoms and the rules *)
  Lemma tally_extents (l : list (mnode N)) : forall p, fold_left tally l p =
    (fold_left nadd (map m_height (extents (map to_slot l) (boxes_of l))) (fst p),
     fold_left nadd (map m_depth (extents (map to_slot l) (boxes_of l))) (snd p)).
  Proof.
    induction l as [|e l IH]; intros [h d]; [reflexivity|].
    cbn [fold_left]. rewrite IH. clear IH.
    destruct e as [a|y|m c|m c|c cols|s'|o g|x]; try reflexivity.
    - cbn [map to_slot boxes_of flat_map app extents tally].
      unfold tally, nucleus_of. destruct (a_nuc a) as [f|]; [destruct f|]; try reflexivity.
      unfold dims. cbn [fst snd]. change (flat_map _ l) with (boxes_of l). destruct (box_metrics _) as [m|]; reflexivity.
    - cbn [map boxes_of flat_map app tally].
      destruct x; try reflexivity.
  Qed.
  Lemma size_fence s (l : list (mnode N)) : delimiter_size E s l = fence_around (f_axis (sg E s)) (extents (map to_slot l) (boxes_of l)).
  Proof. unfold delimiter_size. rewrite (tally_extents l (n0, n0)). reflexivity. Qed.
  Lemma boxes_delimited s l : holds (processBoundary E s l) (fun l' =>
      all_boxes E s (map to_slot l) (boxes_of l) (boxes_of l')).
  Proof.
    unfold processBoundary. destruct l as [|e r]; [intros ? [=]|].
    destruct e as [a|y|m d|m d|c cols|s'|o g|x]; try (apply holds_ok; reflexivity).
    2: { destruct x; apply holds_ok; reflexivity. }
    destruct (last (MBoundary y :: r) (MStyle s)) as [|z| | | | | |] eqn:Q; try (intros ? [=]; fail). apply holds_ok.
    rewrite size_fence. unfold all_boxes. set (h := fence_around _ _). destruct r as [|e2 r].
    - cbn in Q. injection Q as <-. eexists. split; [reflexivity|apply delimiter_of].
    - change (set_last ?c (?o :: e2 :: r)) with (o :: set_last c (e2 :: r)).
      rewrite set_last_removelast by congruence. change (last (MBoundary y :: e2 :: r) (MStyle s)) with (last (e2 :: r) (MStyle s)) in Q.
      set (t := e2 :: r) in *. assert (Ht : t <> []) by discriminate. clearbody t. clear e2 r.
      pose proof (app_removelast_last (MStyle s) Ht) as Hl. rewrite Q in Hl.
      cbn [map to_slot]. destruct (map to_slot t) as [|u us] eqn:Hm.
      { destruct t; [congruence|discriminate]. }
      exists z. do 2 eexists. split; [|split; [|split; apply delimiter_of]].
      + rewrite <- Hm, Hl, map_app. apply last_last.
      + change (boxes_of (?o :: ?q)) with (boxes_of ([o] ++ q)). rewrite !boxes_app.
        change (boxes_of [MBoundary y]) with (@nil (node N)). cbn [app]. rewrite Hl at 2. rewrite boxes_app.
        change (boxes_of [MBoundary z]) with (@nil (node N)). rewrite app_nil_r. reflexivity.
  Qed.

  (** the style at the end *)
  Lemma step_style R st : holds (step E R st) (fun st' =>
    end_style (p_style st') (p_rest st') = end_style (p_style st) (p_rest st)).
  Proof.
    unfold step. destruct (p_rest st) as [|e r] eqn:Hr; [apply holds_ok; rewrite Hr; reflexivity|].
    destruct e as [a|y|m d|m d|c cols|s'|o g|x].
    - apply holds_any. intros a'. apply holds_ok. unfold rule6.
      destruct ((a_ty a =? Rel) || (a_ty a =? Close) || (a_ty a =? Punct))%Z; [|reflexivity].
      destruct (p_recent st) as [k|]; [|reflexivity]. destruct (recent_type st) as [t|]; [|reflexivity].
      destruct (t =? Bin)%Z; reflexivity.
    - apply holds_ok. reflexivity.
    - apply holds_any. intros a'. apply holds_ok. reflexivity.
    - apply holds_any. intros a'. apply holds_ok. reflexivity.
    - apply holds_any. intros a'. apply holds_ok. reflexivity.
    - apply holds_ok. reflexivity.
    - apply holds_ok. unfold rule2. destruct o; try reflexivity. destruct r as [|n r]; [reflexivity|].
      destruct (isGlueOrKern n && style_leb (p_style st) MathList.S) eqn:Q; [|reflexivity].
      apply andb_prop in Q. destruct Q as [Q _]. destruct n as [| | | | | | |x]; try discriminate Q; reflexivity.
    - destruct x; apply holds_ok; try reflexivity; rewrite Hr; reflexivity.
  Qed.
  Lemma loop_style R : forall k st st', loop E R k st = Ok st' ->
    p_style st' = end_style (p_style st) (p_rest st).
  Proof.
    induction k as [|k IH]; intros st st' H; cbn [loop] in H; destruct (p_rest st) as [|e r] eqn:Hr;
      try (injection H as <-; reflexivity); try discriminate H.
    apply bind_Ok in H. destruct H as (st1 & H1 & H). rewrite (IH _ _ H), <- Hr. exact (step_style R st _ H1).
  Qed.

  Theorem typeset_boxes : forall n p s l out l', mlist2hlist E n p s l = Ok (out, l') ->
    exists inner boxes,
      Forall2 (alone n p) (parts s l) inner /\ all_boxes E (end_style s l) (expected s l) inner boxes /\
      length boxes = length (classes (delimited (expected s l))) /\
      out = render E Op p s None (delimited (expected s l)) boxes.
  Proof.
    intros n p s l out l' H. destruct l as [|e r].
    - exists [], []. destruct n; injection H as <- <-; split; [constructor| |constructor|]; repeat split; reflexivity.
    - destruct n as [|n]; [discriminate|]. cbn [mlist2hlist] in H. set (l := e :: r) in *.
      apply bind_Ok in H. destruct H as (st & H1 & H).
      apply bind_Ok in H. destruct H as (cur & H2 & H).
      apply bind_Ok in H. destruct H as (o & H3 & [= -> _]).
      assert (Hi : inv (expected s l) (mkP [] l s None)).
      { split; [reflexivity|]. split; [exact I|constructor]. }
      destruct (loop_inv E _ _ _ _ Hi _ H1) as [L1 L2].
      destruct (boundary_slots E _ _ L2 _ H2) as [B1 B2].
      unfold slots in L1. rewrite L1 in B1.
      assert (Ht : Forall type_ok (types cur)).
      { clear -B2. induction B2 as [|n l Hn _ IH]; [constructor|]. unfold types in *. cbn.
        apply Forall_app. split; [|exact IH]. destruct n; try constructor; [apply Hn|constructor]. }
      pose proof (emit_pieces E p s cur [] ltac:(constructor) Ht) as Hp.
      change (last_type []) with (@None Z) in Hp. rewrite Hp in H3. injection H3 as <-.
      exists (boxes_of (currents (p_done st))), (boxes_of cur). split; [|split; [|split]].
      + destruct n as [|k]; [discriminate H1|].
        assert (T : tied (Datatypes.S k) p (parts s l) (mkP [] l s None)).
        { exists []. split; [reflexivity|constructor]. }
        exact (loop_tied (Datatypes.S k) k p (parts s l) eq_refl _ _ T _ H1).
      + rewrite <- L1. replace (end_style s l) with (p_style st) by exact (loop_style _ _ _ _ H1). exact (boxes_delimited _ _ _ H2).
      + rewrite <- B1. clear. induction cur as [|n l IH]; [reflexivity|]. unfold boxes_of, classes in *. cbn.
        rewrite !app_length, IH. destruct n as [| | | | | | |x]; try reflexivity. destruct x; reflexivity.
      + rewrite <- B1. apply (pieces_render E Op p s cur [] B2).
  Qed.
End Boxes.
