(** Formulas that cannot be typeset: the converse of Proofs/TypesetOk.v. *)
From Coq Require Import List ZArith Bool Arith Lia.
From Verif.Base Require Import Result Num.
From Verif.Model Require Import Glue Box ListBuilders MathList MathTypeset.
From Verif.Spec Require Import MathSpec TypesetSpec TypesetOkSpec.
From Verif.Proofs Require Import TypesetTotal TypesetOk.
Import ListNotations.

Section Fails.
  Context {N : Num}.
  Variable E : engine N.

  Notation ffine := (opt_bool (fine_field (N := N))).
  Notation fplain := (opt_bool (unboxed_field (N := N))).
  Definition aplain (a : natom N) : Prop :=
    fplain (a_nuc a) = true /\ fplain (a_sub a) = true /\ fplain (a_sup a) = true /\ a_lim a = NoLimits.
  Lemma unboxed_atom a : unboxed (MAtom a) = true <-> aplain a.
  Proof.
    destruct a as [t nu sb sp ac li]. unfold aplain. cbn [a_nuc a_sub a_sup a_lim].
    change (unboxed (MAtom (mkAtom t nu sb sp ac li)))
      with (fplain nu && fplain sb && fplain sp && match li with NoLimits => true | _ => false end).
    rewrite !andb_true_iff. destruct li; intuition congruence.
  Qed.
  Lemma plain_attachable f : unboxed_field (N := N) f = true -> attachable f = true.
  Proof. destruct f; [reflexivity|discriminate|reflexivity|discriminate]. Qed.

  Variable rec : style -> list (mnode N) -> result (list (node N) * list (mnode N)).
  Hypothesis Hrec : forall s l r, unboxed_list l = true -> rec s l = Ok r -> fine l = true.

  Lemma boxit_needs s f r : fplain f = true -> boxit E rec s f = Ok r -> ffine f = true.
  Proof.
    intros Hp H. destruct f as [[y|n|l|]|]; cbn [boxit] in H; try reflexivity; try discriminate.
    - apply bind_Ok in H. destruct H as (n & H & _). unfold typeset in H.
      cbn [opt_bool fine_field]. rewrite fonts_family. destruct (family_ok _); [reflexivity|discriminate].
    - apply bind_Ok in H. destruct H as (x & H & _). exact (Hrec _ _ _ Hp H).
  Qed.
  Lemma script_needs s f r : fplain f = true -> boxit E rec s f = Ok r -> sfine f = true.
  Proof.
    intros Hp H. pose proof (boxit_needs s f r Hp H) as Hf. destruct f as [f|]; [|reflexivity].
    cbn [sfine opt_bool] in *. rewrite Hf. exact (plain_attachable f Hp).
  Qed.
  (** the scripts, when they have been attached *)
  Definition scripts_fine (a : natom N) : Prop :=
    sfine (a_sup a) = true /\ (a_sup a = None -> sfine (a_sub a) = true).
  Lemma attach_needs s nuc a a' : fplain (a_sub a) = true -> fplain (a_sup a) = true ->
    attachSubSup E rec s nuc a = Ok a' -> scripts_fine a /\ a_acc a' = a_acc a.
  Proof.
    intros Hb Hp H. unfold attachSubSup in H. unfold scripts_fine.
    destruct (if isCharacterBox nuc then (n0, n0) else _) as [u v].
    destruct (a_sub a) as [sb|] eqn:Eb, (a_sup a) as [sp|] eqn:Ep.
    - apply bind_Ok in H. destruct H as (r & Hr & H). apply bind_Ok in H. destruct H as (x & _ & H).
      apply bind_Ok in H. destruct H as (q & _ & H). apply bind_Ok in H. destruct H as (y & _ & H).
      match type of H with (let (_, _) := ?e in _) = _ => destruct e as [u' v'] end.
      apply bind_Ok in H. destruct H as (x' & _ & H). injection H as <-.
      split; [|reflexivity]. split; [exact (script_needs _ _ _ Hp Hr)|discriminate].
    - apply bind_Ok in H. destruct H as (r & Hr & H). apply bind_Ok in H. destruct H as (x & _ & H).
      apply bind_Ok in H. destruct H as (x' & _ & H). injection H as <-.
      split; [|reflexivity]. split; [reflexivity|]. intros _. exact (script_needs _ _ _ Hb Hr).
    - apply bind_Ok in H. destruct H as (r & Hr & H). apply bind_Ok in H. destruct H as (x & _ & H).
      apply bind_Ok in H. destruct H as (x' & _ & H). injection H as <-.
      split; [|reflexivity]. split; [exact (script_needs _ _ _ Hp Hr)|discriminate].
    - injection H as <-. split; [|reflexivity]. split; reflexivity.
  Qed.
  (** [rule17] with the scripts of [a] and another nucleus or type *)
  Lemma rule17_needs s a a' : fplain (a_sub a) = true -> fplain (a_sup a) = true -> rule17 E rec s a = Ok a' ->
    (exists r, boxit E rec s (a_nuc a) = Ok r) /\ scripts_fine a /\ a_acc a' = a_acc a.
  Proof.
    intros Hb Hp H. unfold rule17 in H. apply bind_Ok in H. destruct H as (r & Hr & H).
    apply attach_needs in H; [|exact Hb|exact Hp]. split; [eauto|exact H].
  Qed.

  Lemma afine_intro a : aplain a -> (0 <= a_ty a <= 12)%Z -> ffine (a_nuc a) = true -> scripts_fine a ->
    (a_ty a = Op -> a_nuc a <> None) -> (a_ty a = Acc -> exists y, a_acc a = Some y /\ has_fonts y = true) -> afine a.
  Proof.
    intros (_ & _ & _ & Hl) H1 H2 [H3 H4] H5 H6. split; auto.
    unfold has_limits. rewrite Hl. discriminate.
  Qed.

  Lemma process_atom_needs s first recent a a' : aplain a -> process_atom E rec s first recent a = Ok a' -> afine a.
  Proof.
    intros Ha H. pose proof Ha as (Hn & Hb & Hp & Hl).
    assert (Hplain : forall t, t <> Op -> t <> Acc -> a_ty a = t -> (0 <= t <= 12)%Z -> ffine (a_nuc a) = true -> scripts_fine a -> afine a).
    { intros t N1 N2 <- Ht H2 H3. apply afine_intro; auto; intros; contradiction. }
    assert (H17 : forall b, rule17 E rec s (changeType b a) = Ok a' -> ffine (a_nuc a) = true /\ scripts_fine a).
    { intros b Q. apply rule17_needs in Q; [|exact Hb|exact Hp]. destruct Q as ((r & Qr) & Q & _).
      split; [|exact Q]. exact (boxit_needs _ _ _ Hn Qr). }
    assert (H17' : rule17 E rec s a = Ok a' -> ffine (a_nuc a) = true /\ scripts_fine a).
    { intros Q. apply rule17_needs in Q; [|exact Hb|exact Hp]. destruct Q as ((r & Qr) & Q & _).
      split; [|exact Q]. exact (boxit_needs _ _ _ Hn Qr). }
    assert (Hre : forall t n b, rule17 E rec s (changeType t (changeNucleus n b)) = Ok a' ->
      a_sub b = a_sub a -> a_sup b = a_sup a -> scripts_fine a).
    { intros t n b Q Q1 Q2. apply rule17_needs in Q; cbn [changeType changeNucleus a_sub a_sup] in *.
      - destruct Q as (_ & Q & _). unfold scripts_fine in *. cbn [changeType changeNucleus a_sub a_sup] in Q. rewrite Q1, Q2 in Q. exact Q.
      - rewrite Q1. exact Hb.
      - rewrite Q2. exact Hp. }
    unfold process_atom in H.
    unfold Bin, Rel, Close, Punct, Open, Inner, Vcent, Over, Under, Rad in H.
    destruct (a_ty a =? 2)%Z eqn:T1.
    { unfold rule5 in H. destruct (first && _).
      - apply H17 in H. destruct H. apply (Hplain 2%Z); auto; try discriminate; lia.
      - apply H17' in H. destruct H. apply (Hplain 2%Z); auto; try discriminate; lia. }
    match type of H with (if ?c then _ else _) = _ => destruct c eqn:T2 end.
    { apply H17' in H. destruct H. apply (Hplain (a_ty a)); auto; unfold Op, Acc; lia. }
    match type of H with (if ?c then _ else _) = _ => destruct c eqn:T3 end.
    { apply H17' in H. destruct H. apply (Hplain (a_ty a)); auto; unfold Op, Acc; lia. }
    match type of H with (if ?c then _ else _) = _ => destruct c eqn:T4 end.
    { unfold rule8 in H. apply bind_Ok in H. destruct H as (r & Hr & H). apply boxit_needs in Hr; [|exact Hn].
      apply Hre in H; [|reflexivity|reflexivity]. apply (Hplain (a_ty a)); auto; unfold Op, Acc; lia. }
    match type of H with (if ?c then _ else _) = _ => destruct c eqn:T5 end.
    { unfold rule9 in H. apply bind_Ok in H. destruct H as (r & Hr & H). apply boxit_needs in Hr; [|exact Hn].
      apply Hre in H; [|reflexivity|reflexivity]. apply (Hplain (a_ty a)); auto; unfold Op, Acc; lia. }
    match type of H with (if ?c then _ else _) = _ => destruct c eqn:T6 end.
    { unfold rule10 in H. apply bind_Ok in H. destruct H as (r & Hr & H). apply boxit_needs in Hr; [|exact Hn].
      apply bind_Ok in H. destruct H as (b & _ & H).
      apply Hre in H; [|reflexivity|reflexivity]. apply (Hplain (a_ty a)); auto; unfold Op, Acc; lia. }
    match type of H with (if ?c then _ else _) = _ => destruct c eqn:T7 end.
    { unfold rule11 in H. apply bind_Ok in H. destruct H as (r & Hr & H). apply boxit_needs in Hr; [|exact Hn].
      destruct (radical E s (fst r)).
      apply Hre in H; [|reflexivity|reflexivity]. apply (Hplain (a_ty a)); auto; unfold Op, Acc; lia. }
    match type of H with (if ?c then _ else _) = _ => destruct c eqn:T8 end.
    { apply Z.eqb_eq in T8. unfold rule12 in H. apply bind_Ok in H. destruct H as (r & Hr & H).
      apply boxit_needs in Hr; [|exact Hn]. apply bind_Ok in H. destruct H as ([[b x] delta] & Hb1 & H).
      destruct (a_acc b) as [y|] eqn:Ey; [|discriminate].
      apply bind_Ok in H. destruct H as (ybox & Hy & H).
      assert (Hacc : exists y, a_acc b = Some y /\ has_fonts y = true).
      { exists y. split; [exact Ey|]. rewrite fonts_family. unfold typeset in Hy. destruct (family_ok _); [reflexivity|discriminate]. }
      assert (Hboth : scripts_fine a /\ a_acc b = a_acc a).
      { destruct (a_nuc a) as [[z|z|z|]|] eqn:En; try (injection Hb1 as <- <- <-; split; [|reflexivity];
          apply Hre in H; [exact H|reflexivity|reflexivity]).
        apply bind_Ok in Hb1. destruct Hb1 as (a1 & H1 & Hb1).
        apply rule17_needs in H1; [|exact Hb|exact Hp]. destruct H1 as (_ & H1 & H1').
        split; [exact H1|]. destruct (a_nuc a1) as [[]|]; try discriminate. injection Hb1 as <- <- <-. exact H1'. }
      destruct Hboth as [Hs Hacc']. rewrite Hacc' in Hacc.
      apply afine_intro; auto; rewrite T8; unfold Acc, Op; try lia. }
    match type of H with (if ?c then _ else _) = _ => destruct c eqn:T9 end.
    { apply Z.eqb_eq in T9. unfold rule13 in H. rewrite Hl in H.
      assert (Hboth : a_nuc a <> None /\ ffine (a_nuc a) = true /\ scripts_fine a).
      { destruct (a_nuc a) as [[y|n|l|]|] eqn:En; try discriminate Hn; cbn [bind negb] in H.
        - destruct (style_gtb s T); cbn [bind negb] in H.
          + destruct (family_ok (s_fam y)) eqn:Fy; [|discriminate H]. cbn [bind negb] in H.
            split; [discriminate|]. split; [cbn; rewrite fonts_family; exact Fy|].
            apply rule17_needs in H; [|exact Hb|exact Hp]. destruct H as (_ & H & _). exact H.
          + apply H17' in H. split; [discriminate|exact H].
        - apply H17' in H. split; [discriminate|exact H].
        - discriminate H. }
      destruct Hboth as (B1 & B2 & B3). apply afine_intro; auto; rewrite T9; unfold Op; try discriminate. lia. }
    destruct (a_ty a =? Ord)%Z eqn:T10; [|discriminate].
    apply H17' in H. destruct H. apply (Hplain (a_ty a)); auto; unfold Op, Acc, Ord in *; lia.
  Qed.

  Lemma boxit_list_needs s l r : unboxed_list l = true -> boxit_list rec s l = Ok r -> fine l = true.
  Proof. intros Hl H. unfold boxit_list in H. apply bind_Ok in H. destruct H as (x & H & _). exact (Hrec _ _ _ Hl H). Qed.
  Lemma boxit_lists_needs s : forall c r, forallb unboxed_list c = true -> boxit_lists rec s c = Ok r -> forallb fine c = true.
  Proof.
    induction c as [|l c IH]; intros r Hc H; [reflexivity|]. cbn [boxit_lists] in H.
    apply andb_true_iff in Hc. destruct Hc as [H1 H2].
    apply bind_Ok in H. destruct H as (x & Hx & H). apply bind_Ok in H. destruct H as (y & Hy & _).
    cbn [forallb]. rewrite (boxit_list_needs _ _ _ H1 Hx), (IH _ H2 Hy). reflexivity.
  Qed.

  Lemma step_needs st st' e r : p_rest st = e :: r -> unboxed e = true -> step E rec st = Ok st' -> fine_node e = true.
  Proof.
    intros Hr He H. unfold step in H. rewrite Hr in H. destruct e as [a|y|n d|n d|c cols|s|o g|x]; try reflexivity.
    - apply bind_Ok in H. destruct H as (a' & H & _). apply fine_atom. apply unboxed_atom in He.
      exact (process_atom_needs _ _ _ _ _ He H).
    - apply bind_Ok in H. destruct H as (x & H & _). apply andb_true_iff in He. destruct He as [H1 H2].
      unfold rule15 in H. apply bind_Ok in H. destruct H as (rx & Hx & H). apply bind_Ok in H. destruct H as (rz & Hz & _).
      change (fine n && fine d = true). rewrite (boxit_list_needs _ _ _ H1 Hx), (boxit_list_needs _ _ _ H2 Hz). reflexivity.
    - apply bind_Ok in H. destruct H as (x & H & _). apply andb_true_iff in He. destruct He as [H1 H2].
      unfold processRoot in H. apply bind_Ok in H. destruct H as (rx & Hx & H).
      destruct (radical E (p_style st) (hnode (fst rx))) as [y b].
      apply bind_Ok in H. destruct H as (rz & Hz & _).
      change (fine n && fine d = true). rewrite (boxit_list_needs _ _ _ H1 Hz), (boxit_list_needs _ _ _ H2 Hx). reflexivity.
    - apply bind_Ok in H. destruct H as (x & H & _). unfold processMatrix in H.
      apply bind_Ok in H. destruct H as (rx & Hx & H).
      change (negb (cols =? 0)%nat && forallb fine c = true). rewrite (boxit_lists_needs _ _ _ He Hx).
      destruct (Nat.eqb cols 0); [discriminate|reflexivity].
  Qed.

  Lemma step_shp l st st' : shp l st -> step E rec st = Ok st' -> shp l st'.
  Proof.
    intros HI H. unfold step in H. destruct (p_rest st) as [|e r] eqn:Hr; [injection H as <-; exact HI|].
    destruct e as [a|y|n d|n d|c cols|s|o g|x].
    - destruct (rule6_shp l st a HI) as [HI' Hr']. rewrite Hr in Hr'.
      apply bind_Ok in H. destruct H as (a' & _ & [= <-]).
      eapply shp_keep; [exact HI'|exact Hr'|reflexivity|reflexivity| | | |]; reflexivity.
    - injection H as <-. eapply shp_keep; [exact HI|exact Hr|reflexivity|reflexivity| | | |]; reflexivity.
    - apply bind_Ok in H. destruct H as (x & H & [= <-]).
      unfold rule15 in H. apply bind_Ok in H. destruct H as (rx & Hx & H). apply bind_Ok in H. destruct H as (rz & Hz & H).
      destruct (neqb _ _); [|discriminate]. injection H as <-.
      eapply shp_keep; [exact HI|exact Hr|reflexivity|reflexivity| | | |]; reflexivity.
    - apply bind_Ok in H. destruct H as (x & H & [= <-]).
      unfold processRoot in H. apply bind_Ok in H. destruct H as (rx & Hx & H).
      destruct (radical E (p_style st) (hnode (fst rx))) as [y b].
      apply bind_Ok in H. destruct H as (rz & Hz & H). apply bind_Ok in H. destruct H as (a & _ & [= <-]).
      eapply shp_keep; [exact HI|exact Hr|reflexivity|reflexivity| | | |]; reflexivity.
    - apply bind_Ok in H. destruct H as (x & H & [= <-]).
      unfold processMatrix in H. apply bind_Ok in H. destruct H as (rx & Hx & H).
      destruct (Nat.eqb cols 0); [discriminate|]. apply bind_Ok in H. destruct H as (a & _ & [= <-]).
      eapply shp_keep; [exact HI|exact Hr|reflexivity|reflexivity| | | |]; reflexivity.
    - injection H as <-. apply shp_style; assumption.
    - injection H as <-. unfold rule2. destruct o.
      + eapply shp_keep; [exact HI|exact Hr|reflexivity|reflexivity| | | |]; reflexivity.
      + eapply shp_keep; [exact HI|exact Hr|reflexivity|reflexivity| | | |]; reflexivity.
      + assert (HI' : shp l (advance st (MGlue OrNonscript g) (MGlue OrNonscript g) r)).
        { eapply shp_keep; [exact HI|exact Hr|reflexivity|reflexivity| | | |]; reflexivity. }
        destruct r as [|n r']; [exact HI'|]. destruct (isGlueOrKern n) eqn:Q; [|exact HI']. cbn [andb].
        destruct (style_leb _ _); [|exact HI'].
        eapply shp_drop; [exact HI'|reflexivity|reflexivity|reflexivity| |];
          destruct n as [| | | | | | |x]; try discriminate Q; reflexivity.
    - destruct x; injection H as <-; try exact HI; (eapply shp_keep; [exact HI|exact Hr|reflexivity|reflexivity| | | |]; reflexivity).
  Qed.

  Lemma loop_needs l : forall n st st', forallb unboxed (p_rest st) = true -> shp l st -> loop E rec n st = Ok st' ->
    forallb fine_node (p_rest st) = true /\ shp l st'.
  Proof.
    induction n as [|n IH]; intros st st' Hu HI H; cbn [loop] in H; destruct (p_rest st) as [|e r] eqn:Hr;
      try discriminate; try (injection H as <-; split; [reflexivity|exact HI]).
    apply bind_Ok in H. destruct H as (st1 & H1 & H2).
    cbn [forallb] in Hu. apply andb_true_iff in Hu. destruct Hu as [He Hu].
    pose proof (step_needs st st1 e r Hr He H1) as Hf. pose proof (step_shp l st st1 HI H1) as HI1.
    destruct (step_suffix E rec st st1 H1) as [Q|[(a & Q)|(a & b & Q & Q')]]; rewrite Hr in Q.
    - assert (Hu1 : forallb unboxed (p_rest st1) = true) by (rewrite Q; cbn [forallb]; rewrite He; exact Hu).
      destruct (IH st1 st' Hu1 HI1 H2) as [A B]. rewrite Q in A. auto.
    - injection Q as _ Q. assert (Hu1 : forallb unboxed (p_rest st1) = true) by (rewrite <- Q; exact Hu).
      destruct (IH st1 st' Hu1 HI1 H2) as [A B]. rewrite <- Q in A. cbn [forallb]. rewrite Hf. auto.
    - injection Q as _ Q. rewrite Q in Hu. cbn [forallb] in Hu. apply andb_true_iff in Hu. destruct Hu as [_ Hu].
      destruct (IH st1 st' Hu HI1 H2) as [A B]. rewrite Q. cbn [forallb]. rewrite Hf, A. split; [|exact B].
      destruct b; try discriminate Q'; reflexivity.
  Qed.
End Fails.

Section Main.
  Context {N : Num}.
  Variable E : engine N.

  Lemma processBoundary_needs s (l l' : list (mnode N)) : processBoundary E s l = Ok l' ->
    match ends (map is_boundary l) with Some (f, g) => implb f g = true | None => False end.
  Proof.
    intros H. unfold processBoundary in H. destruct l as [|x r]; [discriminate|].
    cbn [map ends]. destruct x; try reflexivity. cbn [is_boundary implb].
    destruct (last (MBoundary s0 :: r) (MStyle s)) eqn:Q; try discriminate.
    assert (Hl : is_boundary (last (MBoundary s0 :: r) (MStyle s)) = true) by (rewrite Q; reflexivity).
    clear -Hl. destruct r as [|y r]; [reflexivity|]. cbn [last map] in Hl |- *.
    revert y Hl. induction r as [|z r IH]; intros y Hl; [exact Hl|]. cbn [map]. apply IH. exact Hl.
  Qed.

  Theorem typesets_fine : forall n p s l r, unboxed_list l = true -> mlist2hlist E n p s l = Ok r -> fine l = true.
  Proof.
    induction n as [|n IH]; intros p s l r Hu H; (destruct l as [|e l]; [reflexivity|]); [discriminate H|].
    cbn [mlist2hlist] in H. set (l' := e :: l) in *.
    apply bind_Ok in H. destruct H as (st & HL & H).
    assert (H0 : shp l' (mkP [] l' s None)) by (split; reflexivity).
    destruct (loop_needs E (mlist2hlist E n default_penalties) (fun s l r => IH default_penalties s l r) l' n
                (mkP [] l' s None) st Hu H0 HL) as [Hf [I4 I5 I6]].
    pose proof (loop_rest E _ n _ _ HL) as Hrest. rewrite Hrest, app_nil_r in *.
    apply bind_Ok in H. destruct H as (cur & HB & _). apply processBoundary_needs in HB.
    fold (cur_sig (p_done st)) in HB. unfold fine. cbn [p_rest] in Hf. rewrite Hf. rewrite framed_ends. unfold l' at 1.
    rewrite <- I5, <- I6. destruct (ends (cur_sig (p_done st))) as [[f g]|]; [exact HB|contradiction].
  Qed.
End Main.
