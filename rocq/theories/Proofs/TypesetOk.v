(** Which formulas can be typeset. *)
From Coq Require Import List ZArith Bool Arith Lia.
From Verif.Base Require Import Result Num.
From Verif.Model Require Import Glue Box ListBuilders MathList MathTypeset.
From Verif.Spec Require Import MathSpec TypesetSpec TypesetOkSpec.
From Verif.Proofs Require Import TypesetTotal.
Import ListNotations.

Definition safe {A} (r : result A) (Q : A -> Prop) : Prop :=
  match r with Ok a => Q a | Fuel => True | _ => False end.
Lemma safe_bind {A B} (r : result A) (f : A -> result B) P Q :
  safe r P -> (forall a, P a -> safe (f a) Q) -> safe (bind r f) Q.
Proof. destruct r; cbn; auto; contradiction. Qed.
Lemma safe_weak {A} (r : result A) (P Q : A -> Prop) : safe r P -> (forall a, P a -> Q a) -> safe r Q.
Proof. destruct r; cbn; auto. Qed.

Section Ok.
  Context {N : Num}.
  Variable E : engine N.
  Hypothesis HE : char_engine E.
  Hypothesis HN : self_equal N.

  Lemma fonts_family y : has_fonts y = family_ok (s_fam y).
  Proof.
    unfold has_fonts, family_ok. f_equal.
    destruct (Z.leb_spec (s_fam y) 15), (Z.ltb_spec (s_fam y) 16); auto; lia.
  Qed.

  Notation ffine := (opt_bool (fine_field (N := N))).
  (** a script that can be attached *)
  Definition sfine (f : option (mfield N)) : bool := opt_bool (fun f => fine_field f && attachable f) f.
  Definition lfine (f : option (mfield N)) : bool := ffine f && opt_bool movable f.
  Definition has_limits (a : natom N) : bool :=
    match a_lim a with NoLimits => false | _ => (a_ty a =? Op)%Z end.
  (** what a fine atom is *)
  Record afine (a : natom N) : Prop := mkAfine {
    af_ty : (0 <= a_ty a <= 12)%Z;
    af_nuc : ffine (a_nuc a) = true;
    af_sup : sfine (a_sup a) = true;
    af_sub : a_sup a = None -> sfine (a_sub a) = true;
    af_op : a_ty a = Op -> a_nuc a <> None;
    af_acc : a_ty a = Acc -> exists y, a_acc a = Some y /\ has_fonts y = true;
    af_lim : has_limits a = true -> lfine (a_sub a) = true /\ lfine (a_sup a) = true }.

  Definition fine_parts (t : Z) (nu sb sp : option (mfield N)) (ac : option sym) (li : limits) : bool :=
    ((Ord <=? t) && (t <=? Vcent))%Z
        && ffine nu
        && match sp with
           | Some f => fine_field f && attachable f
           | None => sfine sb
           end
        && (if (t =? Op)%Z then match nu with Some _ => true | None => false end else true)
        && (if (t =? Acc)%Z then match ac with Some y => has_fonts y | None => false end else true)
        && (match li with
            | NoLimits => true
            | _ => if (t =? Op)%Z then
                     ffine sb && opt_bool movable sb && opt_bool movable sp
                   else true
            end).
  Lemma fine_atom_eq t nu sb sp ac li : fine_node (MAtom (mkAtom t nu sb sp ac li)) = fine_parts t nu sb sp ac li.
  Proof. reflexivity. Qed.
  Lemma fine_atom a : fine_node (MAtom a) = true <-> afine a.
  Proof.
    destruct a as [t nu sb sp ac li]. rewrite fine_atom_eq. unfold fine_parts. rewrite !andb_true_iff. split.
    - intros [[[[[[H1 H1'] H2] H3] H4] H5] H6]. unfold Ord, Vcent in *. split; cbn [a_ty a_nuc a_sub a_sup a_acc].
      + lia.
      + exact H2.
      + destruct sp; [exact H3|reflexivity].
      + intros ->. exact H3.
      + intros ->. rewrite Z.eqb_refl in H4. destruct nu; congruence.
      + intros ->. rewrite Z.eqb_refl in H5. destruct ac; [eauto|discriminate].
      + unfold has_limits, lfine. cbn [a_lim a_ty]. destruct li; [discriminate| |];
          intros Q; rewrite Q in H6; rewrite !andb_true_iff in H6; destruct H6 as [[H6 H7] H8];
          rewrite H6, H7, H8; split; auto; destruct sp; auto; apply andb_true_iff in H3;
          destruct H3 as [H3 _]; cbn [opt_bool]; rewrite H3; reflexivity.
    - intros [H1 H2 H3 H4 H5 H6 H7]; cbn [a_ty a_nuc a_sub a_sup a_acc] in *. unfold Ord, Vcent.
      repeat split; try lia; try assumption.
      + destruct sp; [exact H3|]. apply H4. reflexivity.
      + destruct (t =? Op)%Z eqn:Q; [|reflexivity]. apply Z.eqb_eq in Q. destruct nu; [reflexivity|]. exfalso; apply H5; auto.
      + destruct (t =? Acc)%Z eqn:Q; [|reflexivity]. apply Z.eqb_eq in Q. destruct (H6 Q) as (y & -> & Hy). exact Hy.
      + unfold has_limits in H7. cbn [a_lim a_ty] in H7. destruct li; [reflexivity| |];
          (destruct (t =? Op)%Z; [|reflexivity]; destruct (H7 eq_refl) as [A B]; unfold lfine in *;
           apply andb_true_iff in A; apply andb_true_iff in B; destruct A as [A1 A2]; destruct B as [B1 B2];
           rewrite A1, A2, B2; reflexivity).
  Qed.

  Variable rec : style -> list (mnode N) -> result (list (node N) * list (mnode N)).
  Hypothesis Hrec : forall s l, fine l = true -> safe (rec s l) (fun r => fine (snd r) = true).

  Lemma boxit_safe s f : ffine f = true -> safe (boxit E rec s f) (fun r => ffine (snd r) = true).
  Proof.
    intros Hf. destruct f as [[y|n|l|]|]; cbn [boxit].
    - unfold typeset. cbn [opt_bool fine_field] in Hf. rewrite fonts_family in Hf. rewrite Hf. cbn.
      rewrite fonts_family. exact Hf.
    - reflexivity.
    - eapply safe_bind; [apply Hrec; exact Hf|]. intros r Hr. exact Hr.
    - discriminate Hf.
    - reflexivity.
  Qed.
  Lemma boxit_script s f : sfine f = true ->
    safe (boxit E rec s f) (fun r => script_box (fst r) = true /\ sfine (snd r) = true /\
      (f <> None -> snd r <> None) /\ (opt_bool movable f = true -> opt_bool movable (snd r) = true)).
  Proof.
    intros Hf. destruct f as [[y|n|l|]|]; cbn [boxit sfine opt_bool fine_field attachable] in *; try rewrite !andb_true_r in *.
    - unfold typeset. rewrite fonts_family in Hf. rewrite Hf. cbn. rewrite fonts_family, Hf. auto using HE.
    - cbn. auto.
    - eapply safe_bind; [apply Hrec; exact Hf|]. intros r Hr. cbn. split; [reflexivity|]. 
      split; [rewrite andb_true_r; exact Hr|]. split; [discriminate|reflexivity].
    - discriminate Hf.
    - cbn. auto.
  Qed.
  Lemma boxit_limit s f : lfine f = true ->
    safe (boxit E rec s f) (fun r => list_box (fst r) = true /\ lfine (snd r) = true /\ (f = None <-> snd r = None)).
  Proof.
    intros Hf. unfold lfine in *. destruct f as [[y|n|l|]|]; cbn [boxit opt_bool fine_field movable] in *;
      rewrite ?andb_true_r, ?andb_false_r in *; try discriminate Hf.
    - cbn in Hf |- *. rewrite Hf. repeat split; intros; discriminate.
    - eapply safe_bind; [apply Hrec; exact Hf|]. intros r Hr. cbn [safe fst snd]. split; [reflexivity|].
      split; [|split; discriminate]. cbn [opt_bool movable]. rewrite andb_true_r. exact Hr.
    - cbn. repeat split.
  Qed.

  Lemma add_space_safe x sp : script_box x = true ->
    safe (add_space (N := N) sp x) (fun y => list_box y = true).
  Proof.
    unfold add_space, enlarge, isCharacterBox. destruct x as [| | | | | | |k m s r o l]; try (cbn; congruence); try (intros; reflexivity).
    destruct k; [|cbn; congruence]. intros _. destruct (Nat.eqb _ _); reflexivity.
  Qed.
  Lemma shift_hbox_safe x sp : list_box x = true -> safe (shift_hbox (N := N) x sp) (fun y => list_box y = true).
  Proof. destruct x as [| | | | | | |k m s r o l]; try discriminate. destruct k; try discriminate. intros _. reflexivity. Qed.
  Lemma shift_list_safe x sp : list_box x = true -> safe (shift_list (N := N) x sp) (fun y => list_box y = true).
  Proof. destruct x as [| | | | | | |k m s r o l]; try discriminate. destruct k; try discriminate. intros _. reflexivity. Qed.
  Lemma list_script (x : node N) : list_box x = true -> script_box x = true.
  Proof. destruct x as [| | | | | | |k m s r o l]; try discriminate. destruct k; try discriminate. reflexivity. Qed.
  Lemma own_sfine (b : bool) (x : node N) f : list_box x = true -> sfine f = true ->
    sfine (if b then Some (FBox x) else f) = true.
  Proof. intros H1 H2. destruct b; [|exact H2]. cbn. apply list_script in H1. exact H1. Qed.
  Lemma own_some (b : bool) (x : node N) (f : option (mfield N)) : f <> None -> (if b then Some (FBox x) else f) <> None.
  Proof. destruct b; [discriminate|auto]. Qed.

  (** the atom after the scripts are attached *)
  Definition becomes (a a' : natom N) : Prop :=
    a_ty a' = a_ty a /\ afine a' /\ exists x, a_nuc a' = Some (FBox x).

  Lemma sfine_ffine f : sfine f = true -> ffine f = true.
  Proof. destruct f as [f|]; [|reflexivity]. cbn. intros H. apply andb_true_iff in H. tauto. Qed.
  Lemma lfine_intro f : sfine f = true -> opt_bool movable f = true -> lfine f = true.
  Proof. intros H1 H2. unfold lfine. rewrite H2, (sfine_ffine f H1). reflexivity. Qed.
  Lemma own_movable (b : bool) (x : node N) f : list_box x = true -> opt_bool movable f = true ->
    opt_bool movable (if b then Some (FBox x) else f) = true.
  Proof. intros H1 H2. destruct b; [exact H1|exact H2]. Qed.
  Lemma lfine_movable f : lfine f = true -> opt_bool movable f = true.
  Proof. unfold lfine. intros H. apply andb_true_iff in H. tauto. Qed.

  Lemma attach_safe s nuc a : afine a -> a_nuc a = Some (FBox nuc) ->
    safe (attachSubSup E rec s nuc a) (becomes a).
  Proof.
    intros Ha Hn. destruct a as [t nu sb sp ac li]. cbn [a_nuc] in Hn. subst nu.
    destruct Ha as [H1 H2 H3 H4 H5 H6 H7]. cbn [a_ty a_nuc a_sub a_sup a_acc] in *.
    set (a := mkAtom t (Some (FBox nuc)) sb sp ac li) in *.
    assert (Hbec : forall nuc' sb' sp', sfine sp' = true -> (sp' = None -> sfine sb' = true) ->
      (has_limits a = true -> lfine sb' = true /\ lfine sp' = true) ->
      becomes a (mkAtom t (Some (FBox nuc')) sb' sp' ac li)).
    { intros nuc' sb' sp' Q1 Q2 Q3. split; [reflexivity|]. split; [|exists nuc'; reflexivity].
      split; cbn [a_ty a_nuc a_sub a_sup a_acc opt_bool fine_field]; auto; try discriminate. }
    unfold attachSubSup. cbn [a a_sub a_sup].
    destruct (if isCharacterBox nuc then (n0, n0) else _) as [u v].
    destruct sb as [sb|], sp as [sp|].
    - eapply safe_bind; [apply boxit_script; exact H3|]. intros r (R1 & R2 & R3 & R4).
      eapply safe_bind; [apply add_space_safe; exact R1|]. intros x Hx.
      eapply safe_bind with (P := fun q => script_box (fst q) = true /\ sfine (snd q) = true /\ snd q <> None /\
        (opt_bool movable (snd r) = true -> opt_bool movable (snd q) = true)).
      { destruct (own_box _).
        - cbn. rewrite (list_script x Hx). repeat split; try discriminate. intros _. exact Hx.
        - eapply safe_weak; [apply boxit_script; exact R2|]. cbn. intros q (Q1 & Q2 & Q3 & Q4).
          repeat split; auto. apply Q3, R3. discriminate. }
      intros q (Q1 & Q2 & Q3 & Q4). eapply safe_bind; [apply add_space_safe; exact Q1|]. intros y Hy.
      match goal with |- safe (let (_, _) := ?e in _) _ => destruct e as [u' v'] end.
      eapply safe_bind with (P := fun x => list_box x = true).
      { apply shift_list_safe. destruct (own_box _); assumption. }
      intros x' Hx'. cbn [safe changeNucleus setSubSup a_ty a_nuc a_sub a_sup a_acc a_lim]. apply Hbec.
      + apply own_sfine; assumption.
      + intros Q. destruct (own_some (own_box (Some sp)) x' (snd q) Q3 Q).
      + intros Q. destruct (H7 Q) as [L1 L2]. split; [exact L1|]. apply lfine_intro; [apply own_sfine; assumption|].
        apply own_movable; [exact Hx'|]. apply Q4, R4, lfine_movable, L2.
    - specialize (H4 eq_refl). eapply safe_bind; [apply boxit_script; exact H4|]. intros r (R1 & R2 & R3 & R4).
      eapply safe_bind; [apply add_space_safe; exact R1|]. intros x Hx.
      eapply safe_bind; [apply shift_hbox_safe; exact Hx|]. intros x' Hx'.
      cbn [safe changeNucleus setSubSup a_ty a_nuc a_sub a_sup a_acc a_lim]. apply Hbec.
      + reflexivity.
      + intros _. apply own_sfine; assumption.
      + intros Q. destruct (H7 Q) as [L1 L2]. split; [|reflexivity]. apply lfine_intro; [apply own_sfine; assumption|].
        apply own_movable; [exact Hx'|]. apply R4, lfine_movable, L1.
    - eapply safe_bind; [apply boxit_script; exact H3|]. intros r (R1 & R2 & R3 & R4).
      eapply safe_bind; [apply add_space_safe; exact R1|]. intros x Hx.
      eapply safe_bind; [apply shift_hbox_safe; exact Hx|]. intros x' Hx'.
      cbn [safe changeNucleus setSubSup a_ty a_nuc a_sub a_sup a_acc a_lim]. apply Hbec.
      + apply own_sfine; assumption.
      + intros Q. exfalso. assert (H : snd r <> None) by (apply R3; discriminate).
        destruct (own_some (own_box (Some sp)) x' (snd r) H Q).
      + intros Q. destruct (H7 Q) as [L1 L2]. split; [reflexivity|]. apply lfine_intro; [apply own_sfine; assumption|].
        apply own_movable; [exact Hx'|]. apply R4, lfine_movable, L2.
    - cbn [safe]. apply Hbec; auto.
  Qed.

  Lemma renuc (n : node N) a : afine a -> afine (changeNucleus n a).
  Proof.
    intros [H1 H2 H3 H4 H5 H6 H7]. split; cbn [changeNucleus a_ty a_nuc a_sub a_sup a_acc] in *; auto; try discriminate.
  Qed.
  Lemma reord a : afine a -> afine (changeType Ord a).
  Proof.
    intros [H1 H2 H3 H4 H5 H6 H7]. split; cbn [changeType a_ty a_nuc a_sub a_sup a_acc] in *; auto; try discriminate.
    - cbv; split; discriminate.
    - unfold has_limits. cbn. destruct (a_lim a); discriminate.
  Qed.
  (** the result of a rule: a fine atom with a box, of one of the eight types *)
  Definition done (a : natom N) : Prop := (0 <= a_ty a <= 7)%Z /\ afine a /\ exists x, a_nuc a = Some (FBox x).

  Lemma rule17_becomes s a : afine a -> safe (rule17 E rec s a) (becomes a).
  Proof.
    intros Ha. unfold rule17. pose proof (af_nuc a Ha) as Hn.
    eapply safe_bind; [apply boxit_safe; exact Hn|]. intros r _.
    eapply safe_weak; [apply attach_safe; [apply renuc; exact Ha|reflexivity]|].
    intros a' (B1 & B2 & B3). split; [exact B1|split; assumption].
  Qed.
  Lemma rule17_safe s a : afine a -> (a_ty a <= 7)%Z -> safe (rule17 E rec s a) done.
  Proof.
    intros Ha Ht. eapply safe_weak; [apply rule17_becomes; assumption|].
    intros a' (B1 & B2 & B3). split; [|auto]. rewrite B1. destruct (af_ty a Ha). auto.
  Qed.
  Lemma rule16_safe s a : afine a -> safe (rule16 E rec s a) done.
  Proof. intros Ha. unfold rule16. apply rule17_safe; [apply reord; exact Ha|cbn; unfold Ord; lia]. Qed.

  Lemma rule8_safe s a : afine a -> safe (rule8 E rec s a) done.
  Proof.
    intros Ha. unfold rule8. eapply safe_bind; [apply boxit_safe; apply (af_nuc a Ha)|]. intros r _.
    apply rule17_safe; [apply reord, renuc; exact Ha|cbn; unfold Ord; lia].
  Qed.
  Lemma rule9_safe s a : afine a -> safe (rule9 E rec s a) done.
  Proof.
    intros Ha. unfold rule9. eapply safe_bind; [apply boxit_safe; apply (af_nuc a Ha)|]. intros r _.
    apply rule16_safe, renuc. exact Ha.
  Qed.
  Lemma rule10_safe s a : afine a -> safe (rule10 E rec s a) done.
  Proof.
    intros Ha. unfold rule10. eapply safe_bind; [apply boxit_safe; apply (af_nuc a Ha)|]. intros r _.
    eapply safe_bind with (P := fun _ => True).
    { unfold vtop, make_vtop. cbn. exact I. }
    intros b _. apply rule16_safe, renuc. exact Ha.
  Qed.
  Lemma rule11_safe s a : afine a -> safe (rule11 E rec s a) done.
  Proof.
    intros Ha. unfold rule11. eapply safe_bind; [apply boxit_safe; apply (af_nuc a Ha)|]. intros r _.
    destruct (radical E s (fst r)). apply rule16_safe, renuc. exact Ha.
  Qed.
  Lemma rule12_safe s a : afine a -> a_ty a = Acc -> safe (rule12 E rec s a) done.
  Proof.
    intros Ha Ht. unfold rule12. pose proof (af_nuc a Ha) as Hn.
    eapply safe_bind; [apply boxit_safe; exact Hn|]. intros r _.
    eapply safe_bind with (P := fun p => afine (fst (fst p)) /\ a_ty (fst (fst p)) = Acc).
    { destruct (a_nuc a) as [[y|n|l|]|] eqn:Q; try (cbn; split; [exact Ha|exact Ht]).
      eapply safe_bind; [apply rule17_becomes; assumption|]. intros a' (B1 & B2 & x & Bx).
      rewrite Bx. cbn. split; [|congruence].
      destruct B2 as [H1 H2 H3 H4 H5 H6 H7]. split; cbn [setSubSup a_ty a_nuc a_sub a_sup a_acc] in *; auto.
      all: intros; reflexivity || (split; reflexivity). }
    intros [[a' x] delta] [H1 H2]. cbn [fst] in H1, H2.
    destruct (af_acc a' H1 H2) as (y & -> & Hy).
    eapply safe_bind with (P := fun _ => True).
    { unfold typeset. rewrite <- fonts_family, Hy. exact I. }
    intros y' _. apply rule16_safe, renuc. exact H1.
  Qed.
  Lemma widen_box w (x : node N) : list_box x = true -> list_box (fst (widen w x)) = true.
  Proof. unfold widen. destruct (nltb _ _); [reflexivity|auto]. Qed.
  Lemma own_lfine (b : bool) (x : node N) f : list_box x = true -> lfine f = true ->
    lfine (if b then Some (FBox x) else f) = true.
  Proof. intros H1 H2. destruct b; [|exact H2]. exact H1. Qed.
  Lemma lfine_sfine f : lfine f = true -> sfine f = true.
  Proof.
    unfold lfine, sfine. destruct f as [[y|n|l|]|]; cbn [opt_bool movable attachable fine_field]; rewrite ?andb_true_r, ?andb_false_r; try discriminate; auto.
    cbn. intros H. apply list_script. exact H.
  Qed.
  Lemma rule13_safe s a : afine a -> a_ty a = Op -> safe (rule13 E rec s a) done.
  Proof.
    intros Ha Ht. unfold rule13. cbv zeta.
    remember (match a_lim a with Limits => true | DisplayLimits => style_gtb s T | NoLimits => false end) as hl eqn:Hhl.
    assert (Hlim : hl = true -> has_limits a = true).
    { intros Q. unfold has_limits. rewrite Ht. destruct (a_lim a); [congruence|reflexivity|reflexivity]. }
    eapply safe_bind with (P := fun p => afine (fst p) /\ a_ty (fst p) = Op /\ a_lim (fst p) = a_lim a /\
      a_sub (fst p) = a_sub a /\ a_sup (fst p) = a_sup a /\ a_nuc (fst p) <> None).
    { pose proof (af_op a Ha Ht) as Hn. pose proof (af_nuc a Ha) as Hf.
      destruct (a_nuc a) as [[y|n|l|]|] eqn:Q; try (cbn; rewrite Q; refine (conj Ha (conj Ht (conj _ (conj _ (conj _ _))))); auto; discriminate); try congruence.
      destruct (style_gtb s T); [|cbn; rewrite Q; refine (conj Ha (conj Ht (conj _ (conj _ (conj _ _))))); auto; discriminate].
      cbn [opt_bool fine_field] in Hf. rewrite fonts_family in Hf. rewrite Hf. cbn.
      refine (conj (renuc _ _ Ha) (conj Ht (conj _ (conj _ (conj _ _))))); auto; discriminate. }
    intros [a' delta] (P1 & P2 & P3 & P4 & P5 & P6). cbn [fst] in *.
    destruct hl; cbn [negb].
    2:{ apply rule17_safe; [exact P1|rewrite P2; unfold Op; lia]. }
    specialize (Hlim eq_refl).
    assert (Hlim' : has_limits a' = true).
    { unfold has_limits in *. rewrite P2, P3. rewrite Ht in Hlim. exact Hlim. }
    destruct (af_lim a' P1 Hlim') as [L1 L2].
    eapply safe_bind; [apply boxit_limit; exact L2|]. intros rx (X1 & X2 & X3).
    eapply safe_bind; [apply boxit_safe; apply (af_nuc a' P1)|]. intros ry _.
    eapply safe_bind; [apply boxit_limit; exact L1|]. intros rz (Z1 & Z2 & Z3).
    remember (nmax3 (nw (fst rx)) (nw (fst ry)) (nw (fst rz))) as w.
    pose proof (widen_box w _ X1) as Wx. pose proof (widen_box w _ Z1) as Wz.
    destruct (widen w (fst rx)) as [x xn]. destruct (widen w (fst ry)) as [y yn].
    destruct (widen w (fst rz)) as [z zn]. cbn [fst] in Wx, Wz.
    eapply safe_bind with (P := fun r => lfine (snd r) = true).
    { destruct (a_sup a') as [f|]; [|reflexivity].
      eapply safe_bind; [apply shift_list_safe; exact Wx|]. intros x' Hx'. cbn [safe snd].
      apply own_lfine; assumption. }
    intros r Hr.
    eapply safe_bind with (P := fun q => lfine (snd q) = true).
    { destruct (a_sub a') as [f|]; [|reflexivity].
      eapply safe_bind; [apply shift_list_safe; exact Wz|]. intros z' Hz'. cbn [safe snd].
      apply own_lfine; assumption. }
    intros q Hq. cbn [safe]. split; [cbn; rewrite P2; unfold Op; lia|]. split; [|eexists; reflexivity].
    split; cbn [changeNucleus setSubSup a_ty a_nuc a_sub a_sup a_acc]; auto using lfine_sfine; try discriminate.
    - apply (af_ty a' P1).
    - rewrite P2. discriminate.
  Qed.

  Lemma process_atom_safe s first recent a : afine a -> safe (process_atom E rec s first recent a) done.
  Proof.
    intros Ha. unfold process_atom, rule5. pose proof (af_ty a Ha) as Ht.
    assert (H17 : forall b : bool, b = true -> (a_ty a <= 7)%Z -> safe (rule17 E rec s a) done).
    { intros b _ H. apply rule17_safe; assumption. }
    unfold Bin, Rel, Close, Punct, Open, Inner, Vcent, Over, Under, Rad, Acc, Op, Ord in *.
    repeat match goal with
           | |- safe (if ?c then _ else _) _ => destruct c eqn:?
           end;
      auto using rule8_safe, rule9_safe, rule10_safe, rule11_safe; try (apply rule17_safe; [exact Ha|lia]).
    - apply rule17_safe; [apply reord; exact Ha|cbn; unfold Ord; lia].
    - apply rule12_safe; [exact Ha|unfold Acc; lia].
    - apply rule13_safe; [exact Ha|unfold Op; lia].
    - lia.
  Qed.

  Lemma fine_parts2 (a b : list (mnode N)) : forallb fine_node a && framed a && (forallb fine_node b && framed b) = true ->
    fine a = true /\ fine b = true.
  Proof. intros H. apply andb_true_iff in H. exact H. Qed.
  Lemma boxit_list_safe s l : fine l = true -> safe (boxit_list rec s l) (fun r => fine (snd r) = true).
  Proof. intros H. unfold boxit_list. eapply safe_bind; [apply Hrec; exact H|]. intros r Hr. exact Hr. Qed.
  (** the atom put in place of a node, and the node *)
  Definition replaced (x : natom N * mnode N) (n : mnode N) : Prop :=
    (0 <= a_ty (fst x) <= 7)%Z /\ fine_node (snd x) = true /\
    is_style (snd x) = is_style n /\ is_boundary (snd x) = is_boundary n.

  Lemma changeHeight_height (b : lbox N) h : m_height (b_metrics (changeHeight b h)) = h.
  Proof. reflexivity. Qed.
  Lemma rule15_safe s n d : fine_node (MFrac n d) = true ->
    safe (rule15 E rec s n d) (fun x => replaced x (MFrac n d)).
  Proof.
    intros H. destruct (fine_parts2 n d H) as [Hn Hd]. unfold rule15.
    eapply safe_bind; [apply boxit_list_safe; exact Hn|]. intros rx Hx.
    eapply safe_bind; [apply boxit_list_safe; exact Hd|]. intros rz Hz.
    rewrite changeHeight_height, HN. cbn [safe]. split; [cbn; unfold Inner; lia|]. cbn [fst snd]. split; [|split; reflexivity].
    change (fine (snd rx) && fine (snd rz) = true). rewrite Hx, Hz. reflexivity.
  Qed.
  Lemma create_fine t n : (0 <= t <= 12)%Z -> t <> Acc -> afine (create t n).
  Proof. intros H1 H2. split; cbn; auto; try discriminate. contradiction. Qed.
  Lemma processRoot_safe s n d : fine_node (MRoot n d) = true ->
    safe (processRoot E rec s n d) (fun x => replaced x (MRoot n d)).
  Proof.
    intros H. destruct (fine_parts2 n d H) as [Hn Hd]. unfold processRoot.
    eapply safe_bind; [apply boxit_list_safe; exact Hd|]. intros rx Hx.
    destruct (radical E s (hnode (fst rx))) as [y b].
    eapply safe_bind; [apply boxit_list_safe; exact Hn|]. intros ri Hi.
    eapply safe_bind; [apply rule16_safe; apply create_fine; [unfold Rad; lia|discriminate]|]. intros a (A1 & A2 & A3).
    cbn [safe]. split; [exact A1|]. split; [|split; reflexivity].
    change (fine (snd ri) && fine (snd rx) = true). rewrite Hx, Hi. reflexivity.
  Qed.
  Lemma boxit_lists_safe s c : forallb fine c = true ->
    safe (boxit_lists rec s c) (fun r => forallb fine (snd r) = true).
  Proof.
    induction c as [|l r IH]; intros H; cbn [boxit_lists]; [reflexivity|].
    apply andb_true_iff in H. destruct H as [H1 H2].
    eapply safe_bind; [apply boxit_list_safe; exact H1|]. intros x Hx.
    eapply safe_bind; [apply IH; exact H2|]. intros y Hy. cbn [safe snd forallb]. rewrite Hx, Hy. reflexivity.
  Qed.
  Lemma processMatrix_safe s c k : fine_node (MMatrix c k) = true ->
    safe (processMatrix E rec s c k) (fun x => replaced x (MMatrix c k)).
  Proof.
    intros H. change (negb (k =? 0)%nat && forallb fine c = true) in H.
    apply andb_true_iff in H. destruct H as [Hk Hc]. unfold processMatrix.
    eapply safe_bind; [apply boxit_lists_safe; exact Hc|]. intros r Hr.
    destruct (Nat.eqb k 0) eqn:Q; [discriminate Hk|].
    eapply safe_bind; [apply rule8_safe; apply create_fine; [unfold Vcent; lia|discriminate]|]. intros a (A1 & A2 & A3).
    cbn [safe]. split; [exact A1|]. split; [|split; reflexivity].
    change (negb (k =? 0)%nat && forallb fine (snd r) = true). rewrite Q, Hr. reflexivity.
  Qed.

  (** * The loop *)
  Definition sig (l : list (mnode N)) : list bool := map is_boundary (filter (fun n => negb (is_style n)) l).
  Definition ends (l : list bool) : option (bool * bool) :=
    match l with [] => None | x :: r => Some (x, last (x :: r) x) end.
  Lemma sig_app a b : sig (a ++ b) = sig a ++ sig b.
  Proof. unfold sig. rewrite filter_app, map_app. reflexivity. Qed.
  Lemma last_snoc {A} (l : list A) x d : last (l ++ [x]) d = x.
  Proof. apply last_last. Qed.
  Lemma ends_snoc l b : ends (l ++ [b]) = Some (match ends l with Some (f, _) => f | None => b end, b).
  Proof.
    destruct l as [|x l]; [reflexivity|]. cbn [app ends]. f_equal. f_equal.
    change (x :: l ++ [b]) with ((x :: l) ++ [b]). apply last_snoc.
  Qed.
  Lemma last_map {A B} (f : A -> B) : forall l x, last (map f l) (f x) = f (last l x).
  Proof. induction l as [|y l IH]; intros x; [reflexivity|]. cbn [map last]. destruct l; [reflexivity|apply IH]. Qed.
  Lemma framed_ends l : framed l = match l with [] => true | _ =>
    match ends (sig l) with Some (f, g) => implb f g | None => false end end.
  Proof.
    unfold framed, sig. destruct l as [|n l]; [reflexivity|].
    destruct (filter _ (n :: l)) as [|x r]; [reflexivity|]. cbn [map ends].
    rewrite <- (last_map is_boundary (x :: r) x). reflexivity.
  Qed.

  Definition typed (n : mnode N) : Prop := match n with MAtom a => (0 <= a_ty a <= 7)%Z | _ => True end.
  Definition cur_sig (d : list (MathTypeset.item N)) : list bool := map is_boundary (currents d).
  Definition origs (d : list (MathTypeset.item N)) : list (mnode N) := map it_orig d.
  Record shp (l : list (mnode N)) (st : pstate N) : Prop := mkShp {
    sh_len : length (origs (p_done st) ++ p_rest st) = length l;
    sh_sig : sig (origs (p_done st) ++ p_rest st) = sig l;
    sh_ends : ends (cur_sig (p_done st)) = ends (sig (origs (p_done st))) }.
  Record inv (l : list (mnode N)) (st : pstate N) : Prop := mkInv {
    iv_orig : forallb fine_node (origs (p_done st)) = true;
    iv_rest : forallb fine_node (p_rest st) = true;
    iv_cur : Forall typed (currents (p_done st));
    iv_shp : shp l st }.

  Lemma currents_app a b : currents (N := N) (a ++ b) = currents a ++ currents b.
  Proof. unfold currents. apply flat_map_app. Qed.

  (** one node of the list passed: erased or kept *)
  Lemma shp_keep l st e r o c st' : shp l st -> p_rest st = e :: r ->
    p_done st' = p_done st ++ [mkItem o (Some c)] -> p_rest st' = r ->
    is_style e = false -> is_style o = false -> is_boundary o = is_boundary e ->
    is_boundary c = is_boundary e -> shp l st'.
  Proof.
    intros [I4 I5 I6] Hr Hd Hr' S1 S2 B1 B2. unfold origs, cur_sig in *.
    rewrite Hr in *.
    split; unfold origs, cur_sig; rewrite ?Hd, ?Hr', ?map_app, ?currents_app; cbn [map it_orig].
    - rewrite <- I4, <- app_assoc, !app_length. reflexivity.
    - rewrite <- I5. rewrite <- app_assoc. rewrite !sig_app. f_equal. unfold sig. cbn. rewrite S1, S2. cbn. rewrite B1. reflexivity.
    - rewrite map_app, sig_app. unfold sig at 2. cbn. rewrite S2. cbn. rewrite !ends_snoc, I6, B1, B2. reflexivity.
  Qed.
  Lemma shp_style l st s r : shp l st -> p_rest st = MStyle s :: r ->
    shp l (mkP (p_done st ++ [mkItem (MStyle s) None]) r s (p_recent st)).
  Proof.
    intros [I4 I5 I6] Hr. unfold origs, cur_sig in *. rewrite Hr in *.
    split; unfold origs, cur_sig; cbn [p_done p_rest]; rewrite ?map_app, ?currents_app; cbn [map it_orig].
    - rewrite <- I4, <- app_assoc, !app_length. reflexivity.
    - rewrite <- I5, <- app_assoc. reflexivity.
    - rewrite map_app, sig_app. cbn. rewrite !app_nil_r. exact I6.
  Qed.
  (** the glue after a nonscript glue *)
  Lemma shp_drop l st e r s q d o c : shp l st -> p_rest st = e :: r -> p_done st = d ++ [mkItem o (Some c)] ->
    is_boundary c = false -> is_style e = false -> is_boundary e = false ->
    shp l (mkP (p_done st ++ [mkItem e None]) r s q).
  Proof.
    intros [I4 I5 I6] Hr Hd Bc Se Be. unfold origs, cur_sig in *. rewrite Hr in *.
    split; unfold origs, cur_sig; cbn [p_done p_rest]; rewrite ?map_app, ?currents_app; cbn [map it_orig].
    - rewrite <- I4, <- app_assoc, !app_length. reflexivity.
    - rewrite <- I5, <- app_assoc. reflexivity.
    - rewrite map_app, sig_app. cbn. rewrite Se. cbn. rewrite app_nil_r. rewrite ends_snoc, <- I6.
      rewrite Be, Hd, currents_app, map_app. cbn. rewrite ends_snoc, Bc. reflexivity.
  Qed.
  Lemma inv_keep l st e r o c st' : inv l st -> p_rest st = e :: r ->
    p_done st' = p_done st ++ [mkItem o (Some c)] -> p_rest st' = r ->
    fine_node o = true -> typed c -> is_style e = false -> is_style o = false -> is_boundary o = is_boundary e ->
    is_boundary c = is_boundary e -> inv l st'.
  Proof.
    intros [I1 I2 I3 I4] Hr Hd Hr' Ho Hc S1 S2 B1 B2.
    pose proof (shp_keep l st e r o c st' I4 Hr Hd Hr' S1 S2 B1 B2) as I5. unfold origs in *.
    rewrite Hr in *. cbn [forallb] in I2. apply andb_true_iff in I2. destruct I2 as [I2 I2'].
    split; unfold origs; rewrite ?Hd, ?Hr', ?map_app, ?currents_app, ?forallb_app; cbn [map it_orig]; [| | |exact I5].
    - rewrite I1. cbn. rewrite Ho. reflexivity.
    - exact I2'.
    - apply Forall_app. split; [exact I3|]. constructor; [exact Hc|constructor].
  Qed.
  Lemma inv_erase l st e r s q : inv l st -> p_rest st = e :: r ->
    let st' := mkP (p_done st ++ [mkItem e None]) r s q in shp l st' -> inv l st'.
  Proof.
    intros [I1 I2 I3 I4] Hr st' I5. unfold origs in *. rewrite Hr in *.
    cbn [forallb] in I2. apply andb_true_iff in I2. destruct I2 as [I2 I2'].
    split; [| | |exact I5]; unfold origs, st'; cbn [p_done p_rest]; rewrite ?map_app, ?currents_app, ?forallb_app; cbn [map it_orig].
    - rewrite I1. cbn. rewrite I2. reflexivity.
    - exact I2'.
    - cbn. rewrite app_nil_r. exact I3.
  Qed.

  Lemma retype_ord_fine n : fine_node (N := N) n = true -> fine_node (retype Ord n) = true.
  Proof. destruct n; auto. cbn [retype]. rewrite !fine_atom. apply reord. Qed.
  Lemma retype_flags t (n : mnode N) : is_style (retype t n) = is_style n /\ is_boundary (retype t n) = is_boundary n.
  Proof. destruct n; split; reflexivity. Qed.
  Lemma update_keeps j : forall d : list (MathTypeset.item N),
    let d' := update j (fun i => mkItem (retype Ord (it_orig i)) (option_map (retype Ord) (it_cur i))) d in
    (forallb fine_node (origs d) = true -> forallb fine_node (origs d') = true) /\
    (Forall typed (currents d) -> Forall typed (currents d')) /\
    length (origs d') = length (origs d) /\ sig (origs d') = sig (origs d) /\ cur_sig d' = cur_sig d.
  Proof.
    induction j as [|j IH]; intros [|i d]; cbn [update].
    - repeat split; auto.
    - unfold origs, cur_sig, currents. cbn [map it_orig forallb flat_map it_cur length].
      destruct (retype_flags Ord (it_orig i)) as [F1 F2].
      repeat split.
      + rewrite !andb_true_iff. intros [A B]. split; [apply retype_ord_fine; exact A|exact B].
      + intros H. apply Forall_app in H. destruct H as [A B]. apply Forall_app. split; [|exact B].
        destruct (it_cur i) as [c|]; [|constructor]. cbn. constructor; [|constructor].
        inversion A; subst. destruct c; auto. cbn. unfold Ord. lia.
      + unfold sig. cbn. rewrite F1. destruct (is_style (it_orig i)); cbn; [reflexivity|]. rewrite F2. reflexivity.
      + rewrite !map_app. f_equal. destruct (it_cur i) as [c|]; [|reflexivity]. cbn.
        destruct (retype_flags Ord c) as [_ ->]. reflexivity.
    - repeat split; auto.
    - destruct (IH d) as (A1 & A2 & A3 & A4 & A5). unfold origs, cur_sig, currents in *.
      cbn [map forallb flat_map length] in *. repeat split.
      + rewrite !andb_true_iff. intros [X Y]. auto.
      + intros H. apply Forall_app in H. destruct H as [X Y]. apply Forall_app. auto.
      + f_equal. exact A3.
      + unfold sig in *. cbn. destruct (is_style (it_orig i)); cbn; [exact A4|]. f_equal. exact A4.
      + rewrite !map_app. f_equal. exact A5.
  Qed.
  Lemma rule6_shp l st a : shp l st -> shp l (rule6 st a) /\ p_rest (rule6 st a) = p_rest st.
  Proof.
    intros HI. unfold rule6. destruct (_ || _)%bool; [|auto].
    destruct (p_recent st) as [j|]; [|auto]. destruct (recent_type st) as [t|]; [|auto].
    destruct (t =? Bin)%Z; [|auto]. split; [|reflexivity].
    destruct HI as [I4 I5 I6]. destruct (update_keeps j (p_done st)) as (A1 & A2 & A3 & A4 & A5).
    split; cbn [p_done p_rest]; auto.
    - rewrite app_length in *. rewrite A3. exact I4.
    - rewrite sig_app in *. rewrite A4. exact I5.
    - rewrite A5, A4. exact I6.
  Qed.
  Lemma rule6_inv l st a : inv l st -> inv l (rule6 st a) /\ p_rest (rule6 st a) = p_rest st.
  Proof.
    intros HI. destruct (rule6_shp l st a (iv_shp l st HI)) as [HS Hr]. split; [|exact Hr].
    destruct HI as [I1 I2 I3 I4]. split; [| | |exact HS]; [|rewrite Hr; exact I2|];
      unfold rule6; (destruct (_ || _)%bool; [|auto]);
      (destruct (p_recent st) as [j|]; [|auto]); (destruct (recent_type st) as [t|]; [|auto]);
      (destruct (t =? Bin)%Z; [|auto]); apply (update_keeps j (p_done st)); assumption.
  Qed.

  Lemma step_safe l st : inv l st -> safe (step E rec st) (inv l).
  Proof.
    intros HI. unfold step. destruct (p_rest st) as [|e r] eqn:Hr; [exact HI|].
    assert (He : fine_node e = true).
    { pose proof (iv_rest l st HI) as H. rewrite Hr in H. cbn [forallb] in H. apply andb_true_iff in H. tauto. }
    destruct e as [a|y|n d|n d|c cols|s|o g|x].
    - destruct (rule6_inv l st a HI) as [HI' Hr']. rewrite Hr in Hr'.
      eapply safe_bind; [apply process_atom_safe; apply fine_atom; exact He|].
      intros a' (D1 & D2 & D3). cbn [safe].
      eapply inv_keep; [exact HI'|exact Hr'|reflexivity|reflexivity| |exact D1| | | |]; try reflexivity.
      apply fine_atom. exact D2.
    - eapply inv_keep; [exact HI|exact Hr|reflexivity|reflexivity| | | | | |]; try reflexivity.
    - eapply safe_bind; [apply rule15_safe; exact He|]. intros x (X1 & X2 & X3 & X4). cbn [safe].
      eapply inv_keep; [exact HI|exact Hr|reflexivity|reflexivity|exact X2|exact X1|reflexivity|exact X3|exact X4|reflexivity].
    - eapply safe_bind; [apply processRoot_safe; exact He|]. intros x (X1 & X2 & X3 & X4). cbn [safe].
      eapply inv_keep; [exact HI|exact Hr|reflexivity|reflexivity|exact X2|exact X1|reflexivity|exact X3|exact X4|reflexivity].
    - eapply safe_bind; [apply processMatrix_safe; exact He|]. intros x (X1 & X2 & X3 & X4). cbn [safe].
      eapply inv_keep; [exact HI|exact Hr|reflexivity|reflexivity|exact X2|exact X1|reflexivity|exact X3|exact X4|reflexivity].
    - cbn [safe]. apply inv_erase; [exact HI|exact Hr|]. apply shp_style; [apply (iv_shp l st HI)|exact Hr].
    - cbn [safe]. unfold rule2. destruct o.
      + eapply inv_keep; [exact HI|exact Hr|reflexivity|reflexivity| | | | | |]; reflexivity.
      + eapply inv_keep; [exact HI|exact Hr|reflexivity|reflexivity| | | | | |]; reflexivity.
      + assert (HI' : inv l (advance st (MGlue OrNonscript g) (MGlue OrNonscript g) r)).
        { eapply inv_keep; [exact HI|exact Hr|reflexivity|reflexivity| | | | | |]; reflexivity. }
        destruct r as [|n r']; [exact HI'|]. destruct (isGlueOrKern n) eqn:Q; [|exact HI']. cbn [andb].
        destruct (style_leb _ _); [|exact HI'].
        apply (inv_erase l _ n r' (p_style st) (p_recent st) HI'); [reflexivity|].
        eapply shp_drop; [exact (iv_shp l _ HI')|reflexivity|reflexivity|reflexivity| |];
          destruct n as [| | | | | | |x]; try discriminate Q; reflexivity.
    - destruct x; try exact HI; cbn [safe]; (eapply inv_keep; [exact HI|exact Hr|reflexivity|reflexivity| | | | | |]; reflexivity).
  Qed.
  Lemma loop_safe l : forall n st, inv l st -> safe (loop E rec n st) (inv l).
  Proof.
    induction n as [|n IH]; intros st HI; cbn [loop]; destruct (p_rest st); try exact HI; try exact I.
    eapply safe_bind; [apply step_safe; exact HI|]. exact IH.
  Qed.
  Lemma loop_rest : forall n st st', loop E rec n st = Ok st' -> p_rest st' = [].
  Proof.
    induction n as [|n IH]; intros st st' H; cbn [loop] in H; destruct (p_rest st) eqn:Hr; try discriminate; try (injection H as <-; exact Hr).
    apply bind_Ok in H. destruct H as (st1 & _ & H). eapply IH. exact H.
  Qed.
End Ok.

Section Main.
  Context {N : Num}.
  Variable E : engine N.
  Hypothesis HE : char_engine E.
  Hypothesis HN : self_equal N.

  Lemma set_last_Forall {A} (P : A -> Prop) x : forall l, P x -> Forall P l -> Forall P (set_last x l).
  Proof.
    induction l as [|y l IH]; intros Hx Hl; [constructor|]. inversion Hl; subst.
    cbn [set_last]. destruct l; [constructor; [exact Hx|constructor]|]. constructor; auto.
  Qed.
  Lemma processBoundary_safe s l : Forall typed l ->
    match ends (map is_boundary l) with Some (f, g) => implb f g = true | None => False end ->
    safe (processBoundary E s l) (Forall typed).
  Proof.
    intros Ht He. unfold processBoundary. destruct l as [|x r]; [exact He|].
    destruct x; try exact Ht. cbn [map is_boundary ends] in He. cbn [implb] in He.
    assert (Hl : is_boundary (last (MBoundary s0 :: r) (MStyle s)) = true).
    { destruct r as [|y r]; [reflexivity|]. cbn [last map] in He |- *.
      clear -He. revert y He. induction r as [|z r IH]; intros y He; [exact He|]. cbn [map] in He. apply IH. exact He. }
    destruct (last (MBoundary s0 :: r) (MStyle s)); try discriminate Hl.
    cbn [safe]. inversion Ht; subst. apply set_last_Forall; [cbn; unfold Close; lia|].
    constructor; [cbn; unfold Open; lia|assumption].
  Qed.
  Lemma insertSpace_safe s t u : (0 <= t <= 7)%Z -> (0 <= u <= 7)%Z -> safe (insertSpace E s t u) (fun _ => True).
  Proof.
    intros Ht Hu.
    assert (t = 0 \/ t = 1 \/ t = 2 \/ t = 3 \/ t = 4 \/ t = 5 \/ t = 6 \/ t = 7)%Z as Q by lia.
    assert (u = 0 \/ u = 1 \/ u = 2 \/ u = 3 \/ u = 4 \/ u = 5 \/ u = 6 \/ u = 7)%Z as R by lia.
    repeat destruct Q as [Q|Q]; repeat destruct R as [R|R]; subst; exact I.
  Qed.
  Lemma emit_safe p s : forall l recent, Forall typed l ->
    (match recent with Some t => (0 <= t <= 7)%Z | None => True end) -> safe (emit E p s recent l) (fun _ => True).
  Proof.
    induction l as [|n l IH]; intros recent Hl Hr; [exact I|]. inversion Hl as [|? ? H1 H2]; subst.
    destruct n; cbn [emit]; try (eapply safe_bind; [apply IH; assumption|intros; exact I]).
    eapply safe_bind with (P := fun _ => True).
    { destruct recent as [t|]; [apply insertSpace_safe; assumption|exact I]. }
    intros sp _. eapply safe_bind; [apply IH; assumption|intros; exact I].
  Qed.

  Lemma mlist2hlist_safe : forall n p s l, fine l = true ->
    safe (mlist2hlist E n p s l) (fun r => fine (snd r) = true).
  Proof.
    induction n as [|n IH]; intros p s l Hf; (destruct l as [|e l]; [reflexivity|]); [exact I|].
    cbn [mlist2hlist]. set (l' := e :: l) in *.
    apply andb_true_iff in Hf. destruct Hf as [Hf Hfr].
    assert (H0 : inv l' (mkP [] l' s None)).
    { split; cbn; auto. split; reflexivity. }
    pose proof (loop_safe E HE HN (mlist2hlist E n default_penalties) (fun s l => IH default_penalties s l) l' n _ H0) as HL.
    destruct (loop E (mlist2hlist E n default_penalties) n (mkP [] l' s None)) as [st| | | |] eqn:Q; try exact HL.
    cbn [bind]. cbn [safe] in HL. pose proof (loop_rest E _ n _ _ Q) as Hrest.
    destruct HL as [I1 I2 I3 [I4 I5 I6]]. rewrite Hrest, app_nil_r in *.
    rewrite framed_ends in Hfr. unfold l' in Hfr at 1. rewrite <- I5, <- I6 in Hfr.
    eapply safe_bind.
    - apply processBoundary_safe; [exact I3|]. fold (cur_sig (p_done st)).
      destruct (ends (cur_sig (p_done st))) as [[f g]|]; [exact Hfr|discriminate].
    - intros cur Hc. eapply safe_bind; [apply emit_safe; [exact Hc|exact Logic.I]|].
      intros out _. cbn [safe snd]. unfold fine. fold (origs (p_done st)). rewrite I1. rewrite framed_ends.
      destruct (origs (p_done st)); [reflexivity|]. rewrite <- I6. exact Hfr.
  Qed.

  Theorem fine_typesets : forall l p s n, math_list l = true -> fine l = true -> list_size l < n ->
    exists r, mlist2hlist E n p s l = Ok r /\ fine (snd r) = true.
  Proof.
    intros l p s n Hm Hf Hn. pose proof (typeset_terminates E n p s l Hn Hm) as Ht.
    pose proof (mlist2hlist_safe n p s l Hf) as Hs.
    destruct (mlist2hlist E n p s l) as [r| | | |]; try contradiction. exists r. auto.
  Qed.
End Main.
