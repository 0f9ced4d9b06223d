From Coq Require Import List ZArith Bool QArith Qcanon Arith Lia Sorted.
From Verif.Base Require Import Result Num.
From Verif.Model Require Import Glue Box ListBuilders LineBreaks.
From Verif.Spec Require Import BoxSpec LineBreakSpec.
From Verif.Proofs Require Import BoxProofs.
Import ListNotations.

Section AnyNum.
  Context {N : Num}.
  Variable pw : pows N.
  Variable P : para N.

  Definition add_item (s : ltotals N) (n : node N) : ltotals N :=
    match n with
    | NGlue g => add_glue s g
    | NKern x => add_width s x
    | _ => match box_metrics n with Some m => add_width s (m_width m) | None => s end
    end.

  Definition upto (l : list (node N)) : ltotals N := fold_left add_item l ltotals0.

  Lemma fold_add_item l : forall s,
    lt_width (fold_left add_item l s) = fold_left nadd (flat_map item_width l) (lt_width s) /\
    (forall o, comp (lt_stretch (fold_left add_item l s)) o = fold_left nadd (flat_map (stretch_of o) l) (comp (lt_stretch s) o)) /\
    (forall o, comp (lt_shrink (fold_left add_item l s)) o = fold_left nadd (flat_map (shrink_of o) l) (comp (lt_shrink s) o)).
  Proof.
    induction l as [|n l IH]; intros s; [simpl; auto|].
    cbn [fold_left flat_map]. destruct (IH (add_item s n)) as (Hw & Hs & Hh).
    rewrite Hw. repeat split; [|intros o; rewrite Hs|intros o; rewrite Hh]; rewrite fold_left_app; f_equal;
      destruct n; try reflexivity; cbn [add_item add_glue accumulate lt_stretch lt_shrink];
      destruct (g_stretchOrder g) eqn:?, (g_shrinkOrder g) eqn:?, o;
      cbn [stretch_of shrink_of]; rewrite ?Heqg0, ?Heqg1; reflexivity.
  Qed.

  Lemma upto_width l i : lt_width (upto (firstn i l)) = width_upto l i.
  Proof. apply (fold_add_item (firstn i l) ltotals0). Qed.
  Lemma upto_stretch l i o : comp (lt_stretch (upto (firstn i l))) o = stretch_upto l i o.
  Proof.
    destruct (fold_add_item (firstn i l) ltotals0) as (_ & H & _). unfold upto. rewrite H.
    cbn [ltotals0 lt_stretch]. rewrite comp_no_totals. reflexivity.
  Qed.
  Lemma upto_shrink l i o : comp (lt_shrink (upto (firstn i l))) o = shrink_upto l i o.
  Proof.
    destruct (fold_add_item (firstn i l) ltotals0) as (_ & _ & H). unfold upto. rewrite H.
    cbn [ltotals0 lt_shrink]. rewrite comp_no_totals. reflexivity.
  Qed.

  Lemma order_normal (t : totals N) :
    negb (gorder_eqb (totals_order t) Normal) = nonzero (comp t Fil) || nonzero (comp t Fill).
  Proof.
    unfold totals_order. cbn [comp].
    destruct (nonzero (t_fill t)), (nonzero (t_fil t)); reflexivity.
  Qed.

  Lemma comp_add a b o : comp (totals_add (N := N) a b) o = nadd (comp a o) (comp b o).
  Proof. destruct o; reflexivity. Qed.
  Lemma comp_sub a b o : comp (totals_sub (N := N) a b) o = nsub (comp a o) (comp b o).
  Proof. destruct o; reflexivity. Qed.
  Lemma comp_stretchTotals o :
    comp (stretchTotals (p_leftskip P) (p_rightskip P)) o = stretch_total (skip_list P) o.
  Proof.
    unfold stretchTotals, stretch_total, skip_list, sum. cbn [flat_map stretch_of].
    destruct (g_stretchOrder (p_leftskip P)), (g_stretchOrder (p_rightskip P)), o; reflexivity.
  Qed.
  Lemma comp_shrinkTotals o :
    comp (shrinkTotals (p_leftskip P) (p_rightskip P)) o = shrink_total (skip_list P) o.
  Proof.
    unfold shrinkTotals, shrink_total, skip_list, sum. cbn [flat_map shrink_of].
    destruct (g_shrinkOrder (p_leftskip P)), (g_shrinkOrder (p_rightskip P)), o; reflexivity.
  Qed.

  Lemma ratio_spec l n e b :
    computeGlueRatio P (upto (firstn b l)) (upto (firstn e l)) n = line_ratio l P n e b.
  Proof.
    unfold computeGlueRatio, line_ratio. rewrite !upto_width.
    set (w := nsub (nsub (nsub _ _) _) _).
    destruct (nltb w (linelength P n)); [|destruct (nltb (linelength P n) w); [|reflexivity]].
    - rewrite order_normal, !comp_sub, !comp_add, !comp_stretchTotals, !upto_stretch.
      unfold available. destruct (_ || _); [reflexivity|]. cbn [ratio_of].
      change (t_normal ?t) with (comp t Normal).
      rewrite !comp_sub, !comp_add, !comp_stretchTotals, !upto_stretch. reflexivity.
    - rewrite order_normal, !comp_sub, !comp_add, !comp_shrinkTotals, !upto_shrink.
      unfold available. destruct (_ || _); [reflexivity|]. cbn [ratio_of].
      change (t_normal ?t) with (comp t Normal).
      rewrite !comp_sub, !comp_add, !comp_shrinkTotals, !upto_shrink. reflexivity.
  Qed.

  (** * The beginning of a line *)
  Lemma is_box_at (l : list (node N)) i : box_at l i <-> exists n, nth_error l i = Some n /\ is_box n = true.
  Proof.
    unfold box_at, is_box. destruct (nth_error l i) as [n|].
    - destruct n; simpl; split; intros H; try tauto; eauto;
        destruct H as (? & E & H); inversion E; subst; discriminate.
    - split; [tauto|]. intros (? & ? & _). discriminate.
  Qed.
  Lemma is_forced_at (l : list (node N)) i : forced_at l i <-> exists n, nth_error l i = Some n /\ isForcedLinebreak n = true.
  Proof.
    unfold forced_at, isForcedLinebreak. destruct (nth_error l i) as [n|].
    - destruct n; split; intros H; try tauto;
        try (destruct H as (? & E & H); inversion E; subst; try discriminate; apply Z.leb_le; exact H).
      eexists. split; [reflexivity|]. apply Z.leb_le. exact H.
    - split; [tauto|]. intros (? & ? & _). discriminate.
  Qed.

  Lemma line_begin_unique (l : list (node N)) a e e' : line_begin l a e -> line_begin l a e' -> e = e'.
  Proof.
    destruct a as [a|]; simpl; [|congruence].
    intros (H1 & H2 & H3) (G1 & G2 & G3).
    destruct (Nat.lt_trichotomy e e') as [L|[L|L]]; [exfalso|exact L|exfalso].
    - specialize (G2 e ltac:(lia)). destruct H3 as [H3|[H3|(H3 & H4)]]; [lia|tauto|tauto].
    - specialize (H2 e' ltac:(lia)). destruct G3 as [G3|[G3|(G3 & G4)]]; [lia|tauto|tauto].
  Qed.

  Lemma squeeze_at (suf : list (node N)) : forall pre first,
    let l := pre ++ suf in
    exists e, (length pre <= e <= length l)%nat /\
      squeezeDiscardables (upto pre) first suf = upto (firstn e l) /\
      (forall i, (length pre <= i < e)%nat -> ~ box_at l i /\ ((first = true /\ i = length pre) \/ ~ forced_at l i)) /\
      (e = length l \/ box_at l e \/ ((first = false \/ e <> length pre) /\ forced_at l e)).
  Proof.
    induction suf as [|n suf IH]; intros pre first; cbv zeta.
    - exists (length pre). rewrite app_nil_r, firstn_all. split; [lia|]. split; [reflexivity|].
      split; [intros; lia|auto].
    - assert (Hn : nth_error (pre ++ n :: suf) (length pre) = Some n).
      { rewrite nth_error_app2, Nat.sub_diag by lia. reflexivity. }
      assert (go : forall s, s = upto (pre ++ [n]) ->
        is_box n = false -> (first = true \/ isForcedLinebreak n = false) ->
        exists e, (length pre <= e <= length (pre ++ n :: suf))%nat /\
        squeezeDiscardables s false suf = upto (firstn e (pre ++ n :: suf)) /\
        (forall i, (length pre <= i < e)%nat -> ~ box_at (pre ++ n :: suf) i /\ ((first = true /\ i = length pre) \/ ~ forced_at (pre ++ n :: suf) i)) /\
        (e = length (pre ++ n :: suf) \/ box_at (pre ++ n :: suf) e \/ ((first = false \/ e <> length pre) /\ forced_at (pre ++ n :: suf) e))).
      { intros s -> Hb Hf. destruct (IH (pre ++ [n]) false) as (e & H1 & H2 & H3 & H4).
        rewrite <- app_assoc in H1, H2, H3, H4. cbn [app] in *.
        rewrite app_length in H1, H3, H4. cbn [length] in *.
        exists e. split; [lia|]. split; [exact H2|]. split.
        - intros i Hi. destruct (Nat.eq_dec i (length pre)) as [->|Hne].
          + split.
            * rewrite is_box_at. intros (n' & E & B). congruence.
            * destruct Hf as [Hf|Hf]; [auto|]. right. rewrite is_forced_at. intros (n' & E & B). congruence.
          + destruct (H3 i ltac:(lia)) as (Ha & [(Hx & _)|Hc]); [discriminate|]. auto.
        - destruct H4 as [H4|[H4|(_ & H4)]]; [left; rewrite app_length; exact H4|right; left; exact H4|].
          right. right. split; [right; lia|exact H4]. }
      assert (stop : is_box n = true \/ (first = false /\ isForcedLinebreak n = true) ->
        exists e, (length pre <= e <= length (pre ++ n :: suf))%nat /\
        upto pre = upto (firstn e (pre ++ n :: suf)) /\
        (forall i, (length pre <= i < e)%nat -> ~ box_at (pre ++ n :: suf) i /\ ((first = true /\ i = length pre) \/ ~ forced_at (pre ++ n :: suf) i)) /\
        (e = length (pre ++ n :: suf) \/ box_at (pre ++ n :: suf) e \/ ((first = false \/ e <> length pre) /\ forced_at (pre ++ n :: suf) e))).
      { intros H. exists (length pre). rewrite app_length. cbn [length]. split; [lia|].
        rewrite firstn_app, Nat.sub_diag, firstn_all, app_nil_r. split; [reflexivity|]. split; [intros; lia|].
        right. destruct H as [H|(H & H')].
        - left. apply is_box_at. eauto.
        - right. split; [auto|]. apply is_forced_at. eauto. }
      assert (Hu : upto (pre ++ [n]) = add_item (upto pre) n).
      { unfold upto. rewrite fold_left_app. reflexivity. }
      destruct n; cbn [squeezeDiscardables is_box box_metrics orb];
        try (apply stop; left; reflexivity);
        try (apply go; [rewrite Hu; reflexivity|reflexivity|right; reflexivity]);
        try (cbn [isForcedLinebreak]; rewrite andb_false_r; apply go; [rewrite Hu; reflexivity|reflexivity|right; reflexivity]).
      destruct (negb first && isForcedLinebreak (NPenalty p)) eqn:E.
      + apply stop. right. apply andb_true_iff in E. rewrite negb_true_iff in E. tauto.
      + apply go; [rewrite Hu; reflexivity|reflexivity|].
        destruct first; [auto|]. right. exact E.
  Qed.

  Lemma squeeze_begin pre suf :
    exists e, squeezeDiscardables (upto pre) true suf = upto (firstn e (pre ++ suf)) /\
      line_begin (pre ++ suf) (Some (length pre)) e.
  Proof.
    destruct (squeeze_at suf pre true) as (e & H1 & H2 & H3 & H4). exists e. split; [exact H2|].
    simpl. split; [exact H1|]. split.
    - intros i Hi. destruct (H3 i Hi) as (Ha & [(_ & ->)|Hb]); auto.
    - destruct H4 as [H4|[H4|([H4|H4] & H5)]]; auto. discriminate.
  Qed.

  (** * Demerits *)
  Lemma compat_adjacent a b : checkCompatibility a b = adjacent a b.
  Proof. destruct a, b; reflexivity. Qed.

  Lemma ckE z y : ck z = Ok y -> y = z.
  Proof. unfold ck. destruct (_ && _); [intros H; inversion H; reflexivity|discriminate]. Qed.

  Lemma newDemerits_spec (l : list (node N)) n k r a d :
    nth_error l k = Some n -> newDemerits pw P n r a = Ok d ->
    d = (bp_dem a + line_demerits l P pw r k (bp_fit a))%Z.
  Proof.
    intros Hn. unfold newDemerits, line_demerits, computeDemerits, computeBadness, node_penalty.
    rewrite Hn, compat_adjacent. change (getFitnessClass r) with (fitness_of r).
    set (p := match n with NPenalty p => p | _ => 0%Z end).
    replace (match n with NPenalty p0 => p0 | _ => 0%Z end) with p by reflexivity.
    rewrite !bind_Ok. intros (d1 & H1 & H2). apply bind_Ok in H2. destruct H2 as (d2 & H2 & H3).
    apply bind_Ok in H1. destruct H1 as (s & H0 & H1).
    apply ckE in H0. apply ckE in H3. subst s d.
    destruct (adjacent _ _).
    - inversion H2; subst d2.
      destruct (_ && _)%bool; [apply ckE in H1; lia|]. destruct (_ && _)%bool; apply ckE in H1; lia.
    - apply ckE in H2. subst d2.
      destruct (_ && _)%bool; [apply ckE in H1; lia|]. destruct (_ && _)%bool; apply ckE in H1; lia.
  Qed.

  (** * One call of tryBreak *)
  Section Try.
    Variables (n : node N) (sum tot : ltotals N) (pos : nat).

    Definition R (a : bp N) : N := computeGlueRatio P sum (bp_tot a) (bp_line a).
    Definition K (a : bp N) : bool := negb (nltb (R a) (nz (-1)) || isForcedLinebreak n).

    Definition of_line (line : nat) (c : cands N) : Prop :=
      forall f a d, c f = Some (a, d) -> bp_line a = line /\ (d < int_max)%Z.

    Lemma fitness_eqb_eq a b : fitness_eqb a b = true <-> a = b.
    Proof. destruct a, b; split; intros H; try reflexivity; discriminate. Qed.

    Lemma consider_spec a c k c' :
      of_line (bp_line a) c ->
      consider pw P n sum (bp_line a) a c = Ok (k, c') ->
      k = K a /\ of_line (bp_line a) c' /\
      (forall f x d, c' f = Some (x, d) ->
         c f = Some (x, d) \/
         (x = a /\ feasible pw P (R a) = true /\ f = getFitnessClass (R a) /\ newDemerits pw P n (R a) a = Ok d)) /\
      (forall f x d, c f = Some (x, d) -> exists x' d', c' f = Some (x', d') /\ (d' <= d)%Z) /\
      (feasible pw P (R a) = true -> exists d, newDemerits pw P n (R a) a = Ok d /\
         ((d < int_max)%Z -> exists x' d', c' (getFitnessClass (R a)) = Some (x', d') /\ (d' <= d)%Z)).
    Proof.
      intros Hc. unfold consider. fold (R a).
      destruct (feasible pw P (R a)) eqn:Ef.
      - rewrite bind_Ok. intros (d & Hd & H).
        destruct (d <? cand_dem (c (getFitnessClass (R a))))%Z eqn:Ed; inversion H; subst; clear H.
        + apply Z.ltb_lt in Ed.
          assert (Hlt : (d < int_max)%Z).
          { destruct (c (getFitnessClass (R a))) as [[x0 d0]|] eqn:E0; simpl in Ed; [apply Hc in E0; lia|exact Ed]. }
          split; [reflexivity|]. split; [|split; [|split]].
          * intros f x d0. destruct (fitness_eqb f _); [|apply Hc]. intros E; inversion E; subst. auto.
          * intros f x d0. destruct (fitness_eqb f _) eqn:Ef2; [|auto].
            apply fitness_eqb_eq in Ef2. intros E; inversion E; subst. auto.
          * intros f x d0 Hx. destruct (fitness_eqb f _) eqn:Ef2.
            -- apply fitness_eqb_eq in Ef2. subst f. rewrite Hx in Ed. simpl in Ed.
               exists a, d. split; [reflexivity|lia].
            -- exists x, d0. split; [exact Hx|lia].
          * intros _. exists d. split; [exact Hd|]. intros _. exists a, d.
            rewrite (proj2 (fitness_eqb_eq _ _) eq_refl). split; [reflexivity|lia].
        + apply Z.ltb_ge in Ed. split; [reflexivity|]. split; [exact Hc|]. split; [auto|]. split.
          * intros f x d0 Hx. exists x, d0. split; [exact Hx|lia].
          * intros _. exists d. split; [exact Hd|]. intros Hlt.
            destruct (c' (getFitnessClass (R a))) as [[x0 d0]|] eqn:E0; simpl in Ed; [|lia].
            exists x0, d0. split; [reflexivity|exact Ed].
      - intros H; inversion H; subst. split; [reflexivity|]. split; [exact Hc|]. split; [auto|]. split.
        + intros f x d0 Hx. exists x, d0. split; [exact Hx|lia].
        + discriminate.
    Qed.

    Lemma new_bps_in (c : cands N) x :
      In x (new_bps pos tot c) <->
      exists f a d, c f = Some (a, d) /\ (d < int_max)%Z /\ x = mkBp pos d (S (bp_line a)) f tot (Some a).
    Proof.
      unfold new_bps. rewrite in_flat_map. split.
      - intros (f & _ & H). destruct (c f) as [[a d]|] eqn:E; [|contradiction].
        destruct (Z.ltb_spec d int_max); [|contradiction]. destruct H as [<-|[]]. exists f, a, d. auto.
      - intros (f & a & d & E & H & ->). exists f. split; [destruct f; simpl; tauto|].
        rewrite E. apply Z.ltb_lt in H. rewrite H. left. reflexivity.
    Qed.

    Definition sortedL (l : list (bp N)) := StronglySorted (fun a b => (bp_line a <= bp_line b)%nat) l.

    Lemma sortedL_app l1 l2 :
      sortedL l1 -> sortedL l2 -> (forall a b, In a l1 -> In b l2 -> (bp_line a <= bp_line b)%nat) ->
      sortedL (l1 ++ l2).
    Proof.
      induction l1 as [|a l1 IH]; intros H1 H2 H; [exact H2|]. simpl.
      inversion H1; subst. constructor.
      - apply IH; auto. intros; apply H; [right|]; assumption.
      - apply Forall_app. split; [assumption|]. apply Forall_forall. intros b Hb. apply H; [left; reflexivity|exact Hb].
    Qed.

    Lemma sortedL_const m l : (forall x, In x l -> bp_line x = m) -> sortedL l.
    Proof.
      induction l as [|a l IH]; intros H; [constructor|]. constructor.
      - apply IH. intros; apply H; right; assumption.
      - apply Forall_forall. intros b Hb. rewrite (H a), (H b); [lia|right; exact Hb|left; reflexivity].
    Qed.

    Lemma of_line_none m : of_line m no_cands.
    Proof. intros f a d H. discriminate H. Qed.

    (** The main facts about the loop. *)
    Lemma try_loop_spec act : forall line c out,
      sortedL act -> (forall a, In a act -> (line <= bp_line a)%nat) -> of_line line c ->
      try_loop pw P n sum tot pos line c act = Ok out ->
      sortedL out /\ (forall x, In x out -> (line <= bp_line x)%nat) /\
      (* soundness *)
      (forall x, In x out ->
         (In x act /\ K x = true) \/
         exists f a d, x = mkBp pos d (S (bp_line a)) f tot (Some a) /\ (d < int_max)%Z /\
           (c f = Some (a, d) \/
            (In a act /\ feasible pw P (R a) = true /\ f = getFitnessClass (R a) /\ newDemerits pw P n (R a) a = Ok d))) /\
      (* completeness *)
      (forall a, In a act -> K a = true -> In a out) /\
      (forall f a d, c f = Some (a, d) ->
         exists a' d', In (mkBp pos d' (S line) f tot (Some a')) out /\ (d' <= d)%Z) /\
      (forall a, In a act -> feasible pw P (R a) = true ->
         exists d, newDemerits pw P n (R a) a = Ok d /\
           ((d < int_max)%Z -> exists a' d', In (mkBp pos d' (S (bp_line a)) (getFitnessClass (R a)) tot (Some a')) out /\ (d' <= d)%Z)).
    Proof.
      induction act as [|a act IH]; intros line c out Hs Hl Hc H.
      - inversion H; subst; clear H.
        assert (Hall : forall x, In x (new_bps pos tot c) -> bp_line x = S line).
        { intros x Hx. apply new_bps_in in Hx. destruct Hx as (f & a & d & E & _ & ->). simpl.
          apply Hc in E. destruct E as (-> & _). reflexivity. }
        split; [apply sortedL_const with (S line); exact Hall|].
        split; [intros x Hx; rewrite (Hall x Hx); lia|].
        split; [|split; [|split]].
        + intros x Hx. right. apply new_bps_in in Hx. destruct Hx as (f & a & d & E & Hd & ->). exists f, a, d. auto.
        + intros a [].
        + intros f a d E. exists a, d. split; [|lia]. apply new_bps_in. exists f, a, d.
          destruct (Hc _ _ _ E) as (<- & Hd). auto.
        + intros a [].
      - cbn [try_loop] in H. inversion Hs as [|? ? Hs' Ha]; subst.
        rewrite Forall_forall in Ha.
        assert (main : forall c1, of_line (bp_line a) c1 ->
          forall out1,
          (do (k, c') <- consider pw P n sum (bp_line a) a c1;
           do out <- try_loop pw P n sum tot pos (bp_line a) c' act;
           Ok (keep_if k a ++ out)) = Ok out1 ->
          sortedL out1 /\ (forall x, In x out1 -> (bp_line a <= bp_line x)%nat) /\
          (forall x, In x out1 ->
             (In x (a :: act) /\ K x = true) \/
             exists f a0 d, x = mkBp pos d (S (bp_line a0)) f tot (Some a0) /\ (d < int_max)%Z /\
               (c1 f = Some (a0, d) \/
                (In a0 (a :: act) /\ feasible pw P (R a0) = true /\ f = getFitnessClass (R a0) /\ newDemerits pw P n (R a0) a0 = Ok d))) /\
          (forall x, In x (a :: act) -> K x = true -> In x out1) /\
          (forall f a0 d, c1 f = Some (a0, d) ->
             exists a' d', In (mkBp pos d' (S (bp_line a)) f tot (Some a')) out1 /\ (d' <= d)%Z) /\
          (forall a0, In a0 (a :: act) -> feasible pw P (R a0) = true ->
             exists d, newDemerits pw P n (R a0) a0 = Ok d /\
               ((d < int_max)%Z -> exists a' d', In (mkBp pos d' (S (bp_line a0)) (getFitnessClass (R a0)) tot (Some a')) out1 /\ (d' <= d)%Z))).
        { intros c1 Hc1 out1 H1. apply bind_Ok in H1. destruct H1 as ((k & c') & Hk & H1).
          apply bind_Ok in H1. destruct H1 as (out2 & H2 & H1). inversion H1; subst out1; clear H1.
          destruct (consider_spec a c1 k c' Hc1 Hk) as (-> & Hc' & Hsnd & Hmono & Hadd).
          destruct (IH (bp_line a) c' out2 Hs' Ha Hc' H2) as (S1 & S2 & S3 & S4 & S5 & S6).
          assert (Hkeep : forall x, In x (keep_if (K a) a) -> x = a /\ K a = true).
          { intros x. destruct (K a); simpl; [intros [<-|[]]; auto|tauto]. }
          split; [|split; [|split; [|split; [|split]]]].
          - apply sortedL_app; [apply sortedL_const with (bp_line a)|exact S1|].
            + intros x Hx. destruct (Hkeep x Hx) as (-> & _). reflexivity.
            + intros x y Hx Hy. destruct (Hkeep x Hx) as (-> & _). apply S2. exact Hy.
          - intros x Hx. apply in_app_or in Hx. destruct Hx as [Hx|Hx]; [destruct (Hkeep x Hx) as (-> & _); lia|apply S2; exact Hx].
          - intros x Hx. apply in_app_or in Hx. destruct Hx as [Hx|Hx].
            + destruct (Hkeep x Hx) as (-> & Hka). left. split; [left; reflexivity|exact Hka].
            + destruct (S3 x Hx) as [(Hi & Hk2)|(f & a0 & d & -> & Hd & Hor)].
              * left. split; [right; exact Hi|exact Hk2].
              * right. exists f, a0, d. split; [reflexivity|]. split; [exact Hd|].
                destruct Hor as [Hcf|(Hi & Hrest)].
                -- destruct (Hsnd f a0 d Hcf) as [Hold|(-> & Hrest)]; [left; exact Hold|].
                   right. split; [left; reflexivity|exact Hrest].
                -- right. split; [right; exact Hi|exact Hrest].
          - intros x [<-|Hx] Hka; apply in_or_app.
            + left. rewrite Hka. left. reflexivity.
            + right. apply S4; assumption.
          - intros f a0 d Hcf. destruct (Hmono f a0 d Hcf) as (x' & d' & Hx' & Hle).
            destruct (S5 f x' d' Hx') as (a' & d'' & Hin & Hle'). exists a', d''. split; [apply in_or_app; right; exact Hin|lia].
          - intros a0 [<-|Hi] Hf.
            + destruct (Hadd Hf) as (d & Hd & Hgo). exists d. split; [exact Hd|]. intros Hlt.
              destruct (Hgo Hlt) as (x' & d' & Hx' & Hle).
              destruct (S5 _ x' d' Hx') as (a' & d'' & Hin & Hle'). exists a', d''. split; [apply in_or_app; right; exact Hin|lia].
            + destruct (S6 a0 Hi Hf) as (d & Hd & Hgo). exists d. split; [exact Hd|]. intros Hlt.
              destruct (Hgo Hlt) as (a' & d' & Hin & Hle). exists a', d'. split; [apply in_or_app; right; exact Hin|exact Hle]. }
        destruct (Nat.eqb_spec (bp_line a) line) as [El|El].
        + subst line. exact (main c Hc out H).
        + destruct (Nat.ltb_spec (bp_line a) line) as [Hlt|Hge]; [discriminate|].
          specialize (Hl a (or_introl eq_refl)) as Hla.
          apply bind_Ok in H. destruct H as ((k & c') & Hk & H).
          apply bind_Ok in H. destruct H as (out2 & H2 & H). inversion H; subst out; clear H.
          destruct (main no_cands (of_line_none _) (keep_if k a ++ out2)) as (S1 & S2 & S3 & S4 & _ & S6).
          { rewrite Hk. cbn [bind]. rewrite H2. reflexivity. }
          assert (Hnew : forall x, In x (new_bps pos tot c) -> bp_line x = S line).
          { intros x Hx. apply new_bps_in in Hx. destruct Hx as (f & a0 & d & E & _ & ->). simpl.
            apply Hc in E. destruct E as (-> & _). reflexivity. }
          split; [|split; [|split; [|split; [|split]]]].
          * apply sortedL_app; [apply sortedL_const with (S line); exact Hnew|exact S1|].
            intros x y Hx Hy. rewrite (Hnew x Hx). specialize (S2 y Hy). lia.
          * intros x Hx. apply in_app_or in Hx. destruct Hx as [Hx|Hx]; [rewrite (Hnew x Hx); lia|specialize (S2 x Hx); lia].
          * intros x Hx. apply in_app_or in Hx. destruct Hx as [Hx|Hx].
            -- right. apply new_bps_in in Hx. destruct Hx as (f & a0 & d & E & Hd & ->). exists f, a0, d. auto.
            -- destruct (S3 x Hx) as [Hi|(f & a0 & d & -> & Hd & Hor)]; [left; exact Hi|].
               right. exists f, a0, d. split; [reflexivity|]. split; [exact Hd|].
               destruct Hor as [Hcf|Hor]; [discriminate Hcf|right; exact Hor].
          * intros x Hx Hkx. apply in_or_app. right. apply S4; assumption.
          * intros f a0 d E. exists a0, d. split; [|lia]. apply in_or_app. left. apply new_bps_in. exists f, a0, d.
            destruct (Hc _ _ _ E) as (<- & Hd). auto.
          * intros a0 Hi Hf. destruct (S6 a0 Hi Hf) as (d & Hd & Hgo). exists d. split; [exact Hd|]. intros Hlt.
            destruct (Hgo Hlt) as (a' & d' & Hin & Hle). exists a', d'. split; [apply in_or_app; right; exact Hin|exact Hle].
    Qed.

    Lemma ck_cases z : ck z = Ok z \/ ck z = UB.
    Proof. unfold ck. destruct (_ && _); auto. Qed.

    Lemma newDemerits_cases r a : (exists d, newDemerits pw P n r a = Ok d) \/ newDemerits pw P n r a = UB.
    Proof.
      unfold newDemerits, computeDemerits.
      destruct (ck_cases (p_linepenalty P + computeBadness pw r)) as [->| ->]; cbn [bind]; [|auto].
      set (s := (p_linepenalty P + computeBadness pw r)%Z). set (p := node_penalty n).
      assert (H : exists z, (if (0 <=? p) && (p <? 10000) then ck (s * s + p * p)
              else if (-10000 <? p) && (p <? 0) then ck (s * s - p * p) else ck (s * s))%Z = ck z).
      { destruct (_ && _)%bool; [eauto|]. destruct (_ && _)%bool; eauto. }
      destruct H as (z & ->). destruct (ck_cases z) as [->| ->]; cbn [bind]; [|auto].
      destruct (checkCompatibility _ _); cbn [bind].
      - destruct (ck_cases (z + bp_dem a)) as [->| ->]; eauto.
      - destruct (ck_cases (z + p_adjdemerits P)) as [->| ->]; cbn [bind]; [|auto].
        match goal with |- context [ck ?y] => destruct (ck_cases y) as [->| ->] end; eauto.
    Qed.

    Lemma consider_cases line a c :
      (exists y, consider pw P n sum line a c = Ok y) \/ consider pw P n sum line a c = UB.
    Proof.
      unfold consider. destruct (feasible _ _ _); [|eauto].
      destruct (newDemerits_cases (computeGlueRatio P sum (bp_tot a) line) a) as [(d & ->)| ->]; cbn [bind]; [|auto].
      destruct (_ <? _)%Z; eauto.
    Qed.

    Lemma try_loop_cases act : forall line c,
      sortedL act -> (forall a, In a act -> (line <= bp_line a)%nat) ->
      (exists out, try_loop pw P n sum tot pos line c act = Ok out) \/ try_loop pw P n sum tot pos line c act = UB.
    Proof.
      induction act as [|a act IH]; intros line c Hs Hl; cbn [try_loop]; [eauto|].
      inversion Hs as [|? ? Hs' Ha]; subst. rewrite Forall_forall in Ha.
      destruct (Nat.eqb_spec (bp_line a) line) as [El|El].
      - subst line. destruct (consider_cases (bp_line a) a c) as [([k c'] & ->)| ->]; cbn [bind]; [|auto].
        destruct (IH (bp_line a) c' Hs' Ha) as [(out & ->)| ->]; cbn [bind]; eauto.
      - specialize (Hl a (or_introl eq_refl)).
        destruct (Nat.ltb_spec (bp_line a) line) as [Hlt|Hge]; [lia|].
        destruct (consider_cases (bp_line a) a no_cands) as [([k c'] & ->)| ->]; cbn [bind]; [|auto].
        destruct (IH (bp_line a) c' Hs' Ha) as [(out & ->)| ->]; cbn [bind]; eauto.
    Qed.
  End Try.
End AnyNum.
