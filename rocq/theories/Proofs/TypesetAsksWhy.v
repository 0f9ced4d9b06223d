(** Each parameter asked for is needed by something in the formula. *)
From Coq Require Import List ZArith Bool Arith Lia.
From Verif.Base Require Import Result Num.
From Verif.Model Require Import Token Lexer Glue Box ListBuilders Tfm FontUsage MathList MathParser MathTypeset MathFrontend TypesetAsks.
From Verif.Spec Require Import FontUsageSpec TypesetAsksSpec.
Import ListNotations.

Section Why.
  Context {N : Num}.
  Variable E : engine N.

  Lemma occurs_one (Q : mnode N -> Prop) l n : In n l -> occurs Q [n] -> occurs Q l.
  Proof.
    intros Hn H. remember [n] as k eqn:Hk. destruct H as [k m Hm HQ|k a l' Hm Hf H|k a l' Hm Hf H|k a l' Hm Hf H
      |k x d Hm H|k x d Hm H|k x d Hm H|k x d Hm H|k c j m Hm Hc H]; subst k; destruct Hm as [->|[]].
    - exact (oc_here Q l _ Hn HQ).
    - exact (oc_nucleus Q l a l' Hn Hf H).
    - exact (oc_subscript Q l a l' Hn Hf H).
    - exact (oc_superscript Q l a l' Hn Hf H).
    - exact (oc_numerator Q l x d Hn H).
    - exact (oc_denominator Q l x d Hn H).
    - exact (oc_degree Q l x d Hn H).
    - exact (oc_radicand Q l x d Hn H).
    - exact (oc_cell Q l c j m Hn Hc H).
  Qed.
  Lemma occurs_some (Q : mnode N -> Prop) l : occurs Q l -> exists n, In n l /\ occurs Q [n].
  Proof.
    intros H. destruct H as [k m Hm HQ|k a l' Hm Hf H|k a l' Hm Hf H|k a l' Hm Hf H
      |k x d Hm H|k x d Hm H|k x d Hm H|k x d Hm H|k c j m Hm Hc H]; (eexists; split; [exact Hm|]).
    - eapply oc_here; [left; reflexivity|exact HQ].
    - eapply oc_nucleus; [left; reflexivity|exact Hf|exact H].
    - eapply oc_subscript; [left; reflexivity|exact Hf|exact H].
    - eapply oc_superscript; [left; reflexivity|exact Hf|exact H].
    - eapply oc_numerator; [left; reflexivity|exact H].
    - eapply oc_denominator; [left; reflexivity|exact H].
    - eapply oc_degree; [left; reflexivity|exact H].
    - eapply oc_radicand; [left; reflexivity|exact H].
    - eapply oc_cell; [left; reflexivity|exact Hc|exact H].
  Qed.

  (** all the reasons in [l'] are in [l] already *)
  Definition tame (l' l : list (mnode N)) : Prop := forall r, used_by l' r -> used_by l r.
  Definition ftame (f' f : option (mfield N)) : Prop :=
    forall l', f' = Some (FList l') -> exists l, f = Some (FList l) /\ tame l' l.
  Lemma tame_refl l : tame l l. Proof. intros r H. exact H. Qed.
  Lemma ftame_refl f : ftame f f. Proof. intros l H. exists l. split; [exact H|apply tame_refl]. Qed.
  Lemma ftame_box f n : ftame (Some (FBox n)) f. Proof. intros l H. discriminate H. Qed.
  Lemma ftame_none f : ftame None f. Proof. intros l H. discriminate H. Qed.
  Lemma ftame_trans f1 f2 f3 : ftame f1 f2 -> ftame f2 f3 -> ftame f1 f3.
  Proof.
    intros A B l H. destruct (A l H) as (l2 & H2 & T2). destruct (B l2 H2) as (l3 & H3 & T3).
    exists l3. split; [exact H3|]. intros r X. apply T3, T2, X.
  Qed.
  Lemma tame_lists l' l : (forall n', In n' l' -> exists n, In n l /\ tame [n'] [n]) -> tame l' l.
  Proof.
    intros H r U. apply occurs_some in U. destruct U as (n' & Hn & U). destruct (H n' Hn) as (n & Hl & T).
    exact (occurs_one _ l n Hl (T r U)).
  Qed.

  (** an atom after the changes *)
  Definition atame (a' a : natom N) : Prop :=
    ((given (a_sub a') = given (a_sub a) /\ given (a_sup a') = given (a_sup a)) \/ (a_sub a' = None /\ a_sup a' = None)) /\
    (a_ty a' = a_ty a \/ a_ty a' = Ord) /\ a_lim a' = a_lim a /\
    ftame (a_nuc a') (a_nuc a) /\ ftame (a_sub a') (a_sub a) /\ ftame (a_sup a') (a_sup a).
  Lemma uses_less g fam (a' a : natom N) : atame a' a -> atom_uses g fam a' = true -> atom_uses g fam a = true.
  Proof.
    intros (HS & HT & HL & _). unfold atom_uses. rewrite HL.
    destruct HS as [[-> ->]|[-> ->]]; (destruct HT as [->| ->]); cbn [given]; [intros X; exact X| | | ];
    destruct g; try (intros X; exact X); destruct fam as [|[[]|[]|]|]; try (intros X; exact X);
    destruct (given (a_sub a)), (given (a_sup a)), (a_lim a); cbn; try discriminate; try reflexivity; try (intros X; exact X);
    repeat match goal with |- context [Z.eqb (a_ty a) ?k] => destruct (Z.eqb (a_ty a) k); cbn end; try discriminate; reflexivity.
  Qed.

  Lemma ok_inj {A} (x y : A) : Ok x = Ok y -> x = y.
  Proof. congruence. Qed.
  Lemma given_none (f : option (mfield N)) : given f = false -> f = None.
  Proof. destruct f; [discriminate|reflexivity]. Qed.
  Lemma atame_refl a : atame a a.
  Proof. split; [left; auto|]. split; [auto|]. split; [reflexivity|]. repeat split; apply ftame_refl. Qed.
  Lemma atame_trans a1 a2 a3 : atame a1 a2 -> atame a2 a3 -> atame a1 a3.
  Proof.
    intros (HS & HT & HL & H1 & H2 & H3) (KS & KT & KL & K1 & K2 & K3).
    split; [|split; [|split; [congruence|repeat split; eapply ftame_trans; eassumption]]].
    - destruct HS as [[A B]|[A B]]; [|right; auto]. destruct KS as [[C D']|[C D']]; [left; split; congruence|].
      right. rewrite C in A. rewrite D' in B. split; apply given_none; assumption.
    - destruct HT as [A|A]; [|auto]. destruct KT as [B|B]; [left|right]; congruence.
  Qed.
  Lemma atame_tame a' a : atame a' a -> tame [MAtom a'] [MAtom a].
  Proof.
    intros H r U. pose proof H as (_ & _ & _ & H1 & H2 & H3). unfold used_by in *.
    remember [MAtom a'] as k eqn:Hk. destruct U as [k m Hm HQ|k b l' Hm Hf U|k b l' Hm Hf U|k b l' Hm Hf U
      |k x d Hm U|k x d Hm U|k x d Hm U|k x d Hm U|k c j m Hm Hc U]; subst k; destruct Hm as [Hm|[]]; try discriminate Hm.
    - subst m. eapply oc_here; [left; reflexivity|]. cbn [node_uses] in *. apply orb_true_iff in HQ. apply orb_true_iff.
      destruct HQ as [HQ|HQ]; [left; exact (uses_less _ _ _ _ H HQ)|right; exact HQ].
    - injection Hm as <-. destruct (H1 l' Hf) as (l & Hl & T). eapply oc_nucleus; [left; reflexivity|exact Hl|]. exact (T r U).
    - injection Hm as <-. destruct (H2 l' Hf) as (l & Hl & T). eapply oc_subscript; [left; reflexivity|exact Hl|]. exact (T r U).
    - injection Hm as <-. destruct (H3 l' Hf) as (l & Hl & T). eapply oc_superscript; [left; reflexivity|exact Hl|]. exact (T r U).
  Qed.
  Lemma boxed_tame n t (a : natom N) : t = a_ty a \/ t = Ord -> atame (changeType t (changeNucleus n a)) a.
  Proof.
    intros H. split; [left; auto|]. split; [exact H|]. split; [reflexivity|]. split; [apply ftame_box|]. split; apply ftame_refl.
  Qed.
  Lemma retype_tame n : tame [retype Ord n] [n].
  Proof.
    destruct n; try apply tame_refl. apply atame_tame. split; [left; auto|]. split; [right; reflexivity|]. split; [reflexivity|].
    repeat split; apply ftame_refl.
  Qed.

  Section R.
    Variable rec : style -> list (mnode N) -> result (list (node N) * list (mnode N)).
    Variable qrec : style -> list (mnode N) -> list request.
    Hypothesis Trec : forall s l o l', rec s l = Ok (o, l') -> tame l' l.
    Hypothesis Urec : forall s l r, In r (qrec s l) -> used_by l r.

    Lemma boxit_tame s f r : boxit E rec s f = Ok r -> ftame (snd r) f /\ given (snd r) = given f.
    Proof.
      destruct f as [[y|n|l|]|]; cbn [boxit]; intros H.
      - apply bind_Ok in H as (n & _ & H). injection H as <-. split; [apply ftame_refl|reflexivity].
      - injection H as <-. split; [apply ftame_refl|reflexivity].
      - apply bind_Ok in H as ((o, l') & HR & H). injection H as <-. split; [|reflexivity].
        intros k Hk. cbn [snd] in Hk. injection Hk as <-. exists l. split; [reflexivity|]. exact (Trec s l o l' HR).
      - discriminate H.
      - injection H as <-. split; [apply ftame_refl|reflexivity].
    Qed.
    Lemma own_given (f : option (mfield N)) : own_box f = true -> given f = true.
    Proof. destruct f; [reflexivity|discriminate]. Qed.

    Lemma attach_tame s nuc (a a' : natom N) : attachSubSup E rec s nuc a = Ok a' -> atame a' a.
    Proof.
      unfold attachSubSup. intros H.
      assert (K : forall n sb sp, ftame sb (a_sub a) -> given sb = given (a_sub a) -> ftame sp (a_sup a) -> given sp = given (a_sup a) ->
        atame (changeNucleus n (setSubSup sb sp a)) a).
      { intros n sb sp A B C G. split; [left; auto|]. split; [left; reflexivity|]. split; [reflexivity|].
        split; [apply ftame_box|]. split; [exact A|exact C]. }
      destruct (a_sub a) as [fb|] eqn:Hb, (a_sup a) as [fp|] eqn:Hp; cbv zeta in H;
        try match type of H with context [let (_, _) := ?x in _] => destruct x as [u v] end.
      - apply bind_Ok in H as (r & HR & H). apply bind_Ok in H as (x & _ & H). apply bind_Ok in H as (q & HQ & H).
        apply bind_Ok in H as (y & _ & H).
        match type of H with context [let (_, _) := ?z in _] => destruct z as [u' v'] end.
        apply bind_Ok in H as (x' & _ & H). apply ok_inj in H; subst a'.
        apply K; [apply ftame_refl|reflexivity| |].
        + destruct (own_box (Some fp)); [apply ftame_box|]. destruct (boxit_tame _ _ _ HR) as [A _].
          destruct (boxit_tame _ _ _ HQ) as [B _]. exact (ftame_trans _ _ _ B A).
        + destruct (own_box (Some fp)); [reflexivity|]. destruct (boxit_tame _ _ _ HR) as [_ A].
          destruct (boxit_tame _ _ _ HQ) as [_ B]. congruence.
      - apply bind_Ok in H as (r & HR & H). apply bind_Ok in H as (x & _ & H). apply bind_Ok in H as (x' & _ & H). apply ok_inj in H; subst a'.
        destruct (boxit_tame _ _ _ HR) as [A B].
        apply K; [| |apply ftame_refl|reflexivity]; (destruct (own_box (Some fb)); [|assumption]); [apply ftame_box|reflexivity].
      - apply bind_Ok in H as (r & HR & H). apply bind_Ok in H as (x & _ & H). apply bind_Ok in H as (x' & _ & H). apply ok_inj in H; subst a'.
        destruct (boxit_tame _ _ _ HR) as [A B].
        apply K; [apply ftame_refl|reflexivity| |]; (destruct (own_box (Some fp)); [|assumption]); [apply ftame_box|reflexivity].
      - apply ok_inj in H; subst a'. apply atame_refl.
    Qed.
    Lemma rule17_tame s (a a' : natom N) : rule17 E rec s a = Ok a' -> atame a' a.
    Proof.
      unfold rule17. intros H. apply bind_Ok in H as (r & _ & H). apply attach_tame in H.
      eapply atame_trans; [exact H|]. apply (boxed_tame (fst r) (a_ty a) a). left. reflexivity.
    Qed.
    Lemma rule16_tame s n (a a' : natom N) : rule16 E rec s (changeNucleus n a) = Ok a' -> atame a' a.
    Proof.
      unfold rule16. intros H. apply rule17_tame in H. eapply atame_trans; [exact H|]. apply boxed_tame. right. reflexivity.
    Qed.
    Lemma rule13_tame s (a a' : natom N) : rule13 E rec s a = Ok a' -> atame a' a.
    Proof.
      unfold rule13. cbv zeta. intros H. apply bind_Ok in H as ((b, delta) & HB & H).
      assert (TB : atame b a).
      { destruct (a_nuc a) as [[y| | |]|] eqn:Hn; try discriminate HB;
          try (injection HB as <- _; apply atame_refl).
        destruct (style_gtb s T); [|injection HB as <- _; apply atame_refl].
        destruct (family_ok (s_fam y)); [|discriminate HB]. injection HB as <- _.
        exact (boxed_tame _ (a_ty a) a (or_introl eq_refl)). }
      clear HB. destruct (negb _); [apply rule17_tame in H; eapply atame_trans; eassumption|].
      apply bind_Ok in H as (rx & HX & H). apply bind_Ok in H as (ry & _ & H). apply bind_Ok in H as (rz & HZ & H).
      destruct (boxit_tame _ _ _ HX) as [X1 X2]. destruct (boxit_tame _ _ _ HZ) as [Z1 Z2].
      destruct (widen _ (fst rx)) as [x xnew]. destruct (widen _ (fst ry)) as [y ynew]. destruct (widen _ (fst rz)) as [z znew].
      apply bind_Ok in H as (r & HR & H). apply bind_Ok in H as (q & HQ & H). apply ok_inj in H; subst a'.
      eapply atame_trans; [|exact TB].
      assert (R' : ftame (snd r) (a_sup b) /\ given (snd r) = given (a_sup b)).
      { destruct (a_sup b) as [fp|].
        - apply bind_Ok in HR as (x' & _ & HR). apply ok_inj in HR; subst r. cbn [snd].
          destruct (own_box (Some fp) && negb xnew); [split; [apply ftame_box|reflexivity]|auto].
        - injection HR as <-. split; [apply ftame_refl|reflexivity]. }
      assert (Q' : ftame (snd q) (a_sub b) /\ given (snd q) = given (a_sub b)).
      { destruct (a_sub b) as [fb|].
        - apply bind_Ok in HQ as (z' & _ & HQ). apply ok_inj in HQ; subst q. cbn [snd].
          destruct (own_box (Some fb) && negb znew); [split; [apply ftame_box|reflexivity]|auto].
        - injection HQ as <-. split; [apply ftame_refl|reflexivity]. }
      destruct R' as [R1 R2], Q' as [Q1 Q2].
      split; [left; split; [exact Q2|exact R2]|]. split; [left; reflexivity|]. split; [reflexivity|].
      split; [apply ftame_box|]. split; [exact Q1|exact R1].
    Qed.
    Lemma rule12_tame s (a a' : natom N) : rule12 E rec s a = Ok a' -> atame a' a.
    Proof.
      unfold rule12. cbv zeta. intros H. apply bind_Ok in H as (r & _ & H). apply bind_Ok in H as (((b, x), delta) & HB & H).
      assert (TB : atame b a).
      { destruct (a_nuc a) as [[y| | |]|] eqn:Hn; try (injection HB as <- _ _; apply atame_refl).
        apply bind_Ok in HB as (a1 & H1 & HB). apply rule17_tame in H1.
        destruct (a_nuc a1) as [[|n| |]|]; try discriminate HB. injection HB as <- _ _.
        destruct H1 as (_ & HT & HL & HN & _). split; [right; split; reflexivity|]. split; [exact HT|]. split; [exact HL|].
        split; [exact HN|]. split; apply ftame_none. }
      destruct (a_acc b) as [y|]; [|discriminate H]. apply bind_Ok in H as (yb & _ & H).
      apply rule16_tame in H. eapply atame_trans; eassumption.
    Qed.
    Lemma process_tame s first recent (a a' : natom N) : process_atom E rec s first recent a = Ok a' -> atame a' a.
    Proof.
      unfold process_atom. cbv zeta. intros H.
      destruct (a_ty a =? Bin)%Z.
      { unfold rule5 in H. destruct (first && _); apply rule17_tame in H; [|exact H].
        eapply atame_trans; [exact H|]. split; [left; auto|]. split; [right; reflexivity|]. split; [reflexivity|].
        repeat split; apply ftame_refl. }
      destruct (_ || _)%Z; [exact (rule17_tame _ _ _ H)|]. destruct (_ || _)%Z; [exact (rule17_tame _ _ _ H)|].
      destruct (a_ty a =? Vcent)%Z.
      { unfold rule8 in H. apply bind_Ok in H as (r & _ & H). cbv zeta in H. exact (rule16_tame _ _ _ _ H). }
      destruct (a_ty a =? Over)%Z.
      { unfold rule9 in H. apply bind_Ok in H as (r & _ & H). exact (rule16_tame _ _ _ _ H). }
      destruct (a_ty a =? Under)%Z.
      { unfold rule10 in H. apply bind_Ok in H as (r & _ & H). apply bind_Ok in H as (b & _ & H). exact (rule16_tame _ _ _ _ H). }
      destruct (a_ty a =? Rad)%Z.
      { unfold rule11 in H. apply bind_Ok in H as (r & _ & H). destruct (radical _ _ _) as [y b]. exact (rule16_tame _ _ _ _ H). }
      destruct (a_ty a =? Acc)%Z; [exact (rule12_tame _ _ _ H)|]. destruct (a_ty a =? Op)%Z; [exact (rule13_tame _ _ _ H)|].
      destruct (a_ty a =? Ord)%Z; [exact (rule17_tame _ _ _ H)|discriminate H].
    Qed.

    Lemma frac_tame n d n' d' : tame n' n -> tame d' d -> tame [MFrac n' d'] [MFrac n d].
    Proof.
      intros A B r U. unfold used_by in *. remember [MFrac n' d'] as k eqn:Hk. destruct U as [k m Hm HQ|k b l' Hm Hf U|k b l' Hm Hf U|k b l' Hm Hf U
      |k x y Hm U|k x y Hm U|k x y Hm U|k x y Hm U|k c j m Hm Hc U]; subst k; destruct Hm as [Hm|[]]; try discriminate Hm.
      - subst m. eapply oc_here; [left; reflexivity|exact HQ].
      - injection Hm as <- <-. eapply oc_numerator; [left; reflexivity|exact (A r U)].
      - injection Hm as <- <-. eapply oc_denominator; [left; reflexivity|exact (B r U)].
    Qed.
    Lemma root_tame n d n' d' : tame n' n -> tame d' d -> tame [MRoot n' d'] [MRoot n d].
    Proof.
      intros A B r U. unfold used_by in *. remember [MRoot n' d'] as k eqn:Hk. destruct U as [k m Hm HQ|k b l' Hm Hf U|k b l' Hm Hf U|k b l' Hm Hf U
      |k x y Hm U|k x y Hm U|k x y Hm U|k x y Hm U|k c j m Hm Hc U]; subst k; destruct Hm as [Hm|[]]; try discriminate Hm.
      - subst m. eapply oc_here; [left; reflexivity|exact HQ].
      - injection Hm as <- <-. eapply oc_degree; [left; reflexivity|exact (A r U)].
      - injection Hm as <- <-. eapply oc_radicand; [left; reflexivity|exact (B r U)].
    Qed.
    Lemma matrix_tame c k c' : (forall m', In m' c' -> exists m, In m c /\ tame m' m) -> tame [MMatrix c' k] [MMatrix c k].
    Proof.
      intros A r U. unfold used_by in *. remember [MMatrix c' k] as k0 eqn:Hk. destruct U as [k0 m Hm HQ|k0 b l' Hm Hf U|k0 b l' Hm Hf U|k0 b l' Hm Hf U
      |k0 x y Hm U|k0 x y Hm U|k0 x y Hm U|k0 x y Hm U|k0 c0 j m Hm Hc U]; subst k0; destruct Hm as [Hm|[]]; try discriminate Hm.
      - subst m. eapply oc_here; [left; reflexivity|exact HQ].
      - injection Hm as <- <-. destruct (A m Hc) as (m0 & H0 & T0). eapply oc_cell; [left; reflexivity|exact H0|exact (T0 r U)].
    Qed.
    Lemma lists_tame s : forall c r, boxit_lists rec s c = Ok r -> forall m', In m' (snd r) -> exists m, In m c /\ tame m' m.
    Proof.
      induction c as [|l c IH]; intros r H m' Hm; cbn [boxit_lists] in H.
      - injection H as <-. destruct Hm.
      - apply bind_Ok in H as (x & HX & H). apply bind_Ok in H as (y & HY & H). injection H as <-. cbn [snd] in Hm.
        unfold boxit_list in HX. apply bind_Ok in HX as ((o, l') & HR & HX). injection HX as <-.
        destruct Hm as [<-|Hm]; [exists l; split; [left; reflexivity|exact (Trec s l o l' HR)]|].
        destruct (IH y HY m' Hm) as (m & Hc & T). exists m. split; [right; exact Hc|exact T].
    Qed.

    (** the loop: what the nodes passed come from *)
    Definition from (l : list (mnode N)) (st : pstate N) : Prop :=
      (forall i, In i (p_done st) -> exists n, In n l /\ tame [it_orig i] [n] /\
        (forall y, it_cur i = Some (MBoundary y) -> n = MBoundary y)) /\
      (forall n, In n (p_rest st) -> In n l).
    Lemma from_next l st i r e s k : p_rest st = e :: r -> from l st -> tame [it_orig i] [e] ->
      (forall y, it_cur i = Some (MBoundary y) -> e = MBoundary y) -> from l (mkP (p_done st ++ [i]) r s k).
    Proof.
      intros Hr [A B] T HB. split; cbn [p_done p_rest].
      - intros j Hj. apply in_app_or in Hj. destruct Hj as [Hj|[<-|[]]]; [exact (A j Hj)|].
        exists e. split; [apply B; rewrite Hr; left; reflexivity|]. auto.
      - intros n Hn. apply B. rewrite Hr. right. exact Hn.
    Qed.
    Lemma update_in {A} (f : A -> A) : forall k l x, In x (update k f l) -> In x l \/ exists y, In y l /\ x = f y.
    Proof.
      induction k as [|k IH]; intros [|y l] x H; cbn [update] in H; try destruct H as [<-|H]; try (destruct H; fail).
      - right. exists y. split; [left; reflexivity|reflexivity].
      - left. right. exact H.
      - left. left. reflexivity.
      - destruct (IH l x H) as [H'|(z & Hz & ->)]; [left; right; exact H'|right; exists z; split; [right; exact Hz|reflexivity]].
    Qed.
    Lemma from_rule6 l st a : from l st -> from l (rule6 st a) /\ p_rest (rule6 st a) = p_rest st /\ p_style (rule6 st a) = p_style st.
    Proof.
      intros F. unfold rule6. destruct (_ || _)%Z; [|auto]. destruct (p_recent st) as [k|]; [|auto].
      destruct (recent_type st) as [t|]; [|auto]. destruct (t =? Bin)%Z; [|auto]. split; [|split; reflexivity].
      destruct F as [A B]. split; cbn [p_done p_rest]; [|exact B]. intros i Hi.
      apply update_in in Hi. destruct Hi as [Hi|(j & Hj & ->)]; [exact (A i Hi)|].
      destruct (A j Hj) as (n & Hn & T & HB). exists n. split; [exact Hn|]. cbn [it_orig it_cur]. split.
      - intros r U. apply T, (retype_tame (it_orig j) r U).
      - intros y Hy. apply HB. destruct (it_cur j) as [[]|]; cbn [option_map retype] in *; try discriminate Hy; exact Hy.
    Qed.
    Lemma from_step l st st' : from l st -> step E rec st = Ok st' -> from l st'.
    Proof.
      intros F. unfold step. destruct (p_rest st) as [|e r] eqn:Hr; [intros H; injection H as <-; exact F|].
      assert (P1 : from l (advance st e e r)).
      { unfold advance. eapply from_next; [exact Hr|exact F|apply tame_refl|]. cbn [it_cur]. intros y Hy. injection Hy as ->. reflexivity. }
      destruct e as [a|b|n d|n d|c k|s|o g|n]; intros H.
      - destruct (from_rule6 l st a F) as (F' & Hr' & Hs'). apply bind_Ok in H as (a' & HA & H). injection H as <-.
        apply process_tame in HA. unfold advance_atom. eapply from_next; [rewrite Hr', Hr; reflexivity|exact F'| |].
        + cbn [it_orig]. apply atame_tame, HA.
        + cbn [it_cur]. intros y Hy. discriminate Hy.
      - injection H as <-. exact P1.
      - apply bind_Ok in H as ((x, o) & HA & H). injection H as <-. unfold advance. cbn [fst snd].
        eapply from_next; [exact Hr|exact F| |cbn [it_cur]; intros y Hy; discriminate Hy]. cbn [it_orig].
        unfold rule15, boxit_list in HA. apply bind_Ok in HA as (rx & HX & HA). apply bind_Ok in HA as (rz & HZ & HA).
        apply bind_Ok in HX as ((ox, lx) & RX & HX). injection HX as <-. apply bind_Ok in HZ as ((oz, lz) & RZ & HZ). injection HZ as <-.
        cbv zeta in HA. destruct (neqb _ _); [|discriminate HA]. injection HA as _ <-. cbn [snd].
        apply frac_tame; eapply Trec; eassumption.
      - apply bind_Ok in H as ((x, o) & HA & H). injection H as <-. unfold advance_atom. cbn [fst snd].
        eapply from_next; [exact Hr|exact F| |cbn [it_cur]; intros y Hy; discriminate Hy]. cbn [it_orig].
        unfold processRoot, boxit_list in HA. apply bind_Ok in HA as (rx & HX & HA). destruct (radical _ _ _) as [y b].
        apply bind_Ok in HA as (rz & HZ & HA).
        apply bind_Ok in HX as ((ox, lx) & RX & HX). injection HX as <-. apply bind_Ok in HZ as ((oz, lz) & RZ & HZ). injection HZ as <-.
        apply bind_Ok in HA as (a' & _ & HA). injection HA as _ <-. cbn [snd].
        apply root_tame; eapply Trec; eassumption.
      - apply bind_Ok in H as ((x, o) & HA & H). injection H as <-. unfold advance_atom. cbn [fst snd].
        eapply from_next; [exact Hr|exact F| |cbn [it_cur]; intros y Hy; discriminate Hy]. cbn [it_orig].
        unfold processMatrix in HA. apply bind_Ok in HA as (rr & HX & HA). destruct (Nat.eqb k 0); [discriminate HA|].
        apply bind_Ok in HA as (a' & _ & HA). injection HA as _ <-. apply matrix_tame. exact (lists_tame _ _ _ HX).
      - injection H as <-. eapply from_next; [exact Hr|exact F|apply tame_refl|]. cbn [it_cur]. intros y Hy. discriminate Hy.
      - injection H as <-. unfold rule2. destruct o.
        + exact P1.
        + unfold advance. eapply from_next; [exact Hr|exact F| |]; cbn [it_orig it_cur]; [|intros y Hy; discriminate Hy].
          intros q U. unfold used_by in *. remember [MGlue OrMskip (scale_glue E (p_style st) g)] as k eqn:Hk.
          destruct U as [k m Hm HQ|k b l' Hm Hf U|k b l' Hm Hf U|k b l' Hm Hf U
            |k x y Hm U|k x y Hm U|k x y Hm U|k x y Hm U|k c j m Hm Hc U]; subst k; destruct Hm as [Hm|[]]; try discriminate Hm.
          subst m. eapply oc_here; [left; reflexivity|]. exact HQ.
        + destruct r as [|n r']; [exact P1|]. destruct (isGlueOrKern n && _) eqn:HG; [|exact P1].
          refine (from_next l (advance st _ _ (n :: r')) (mkItem n None) r' n _ _ eq_refl P1 (tame_refl _) _).
          cbn [it_cur]. intros y Hy. discriminate Hy.
      - destruct n; injection H as <-; first [exact P1|exact F].
    Qed.
    Lemma from_loop l : forall n st st', from l st -> loop E rec n st = Ok st' -> from l st'.
    Proof.
      induction n as [|n IH]; intros st st' F H; cbn [loop] in H; destruct (p_rest st) eqn:Hr; try discriminate H;
        try (injection H as <-; exact F).
      apply bind_Ok in H as (st1 & H1 & H). exact (IH st1 st' (from_step l st st1 F H1) H).
    Qed.

    (** * the calls *)
    Definition fused (f : option (mfield N)) (r : request) : Prop := exists l, f = Some (FList l) /\ used_by l r.
    Lemma boxit_used s f r : In r (boxit_asks qrec s f) -> fused f r.
    Proof. destruct f as [[y|n|l|]|]; cbn [boxit_asks]; intros H; try (destruct H; fail). exists l. split; [reflexivity|exact (Urec _ _ _ H)]. Qed.
    Lemma fused_tame f' f r : ftame f' f -> fused f' r -> fused f r.
    Proof. intros T (l' & H & U). destruct (T l' H) as (l & Hl & T'). exists l. split; [exact Hl|exact (T' r U)]. Qed.
    Lemma after_in {A} (x : result A) f (r : request) : In r (after x f) -> exists y, x = Ok y /\ In r (f y).
    Proof. destruct x; cbn [after]; [intros H; eauto|intros []|intros []|intros []|intros []]. Qed.
    Lemma nuc_used (a : natom N) r : fused (a_nuc a) r -> used_by [MAtom a] r.
    Proof. intros (l & H & U). eapply oc_nucleus; [left; reflexivity|exact H|exact U]. Qed.
    Lemma sub_used (a : natom N) r : fused (a_sub a) r -> used_by [MAtom a] r.
    Proof. intros (l & H & U). eapply oc_subscript; [left; reflexivity|exact H|exact U]. Qed.
    Lemma sup_used (a : natom N) r : fused (a_sup a) r -> used_by [MAtom a] r.
    Proof. intros (l & H & U). eapply oc_superscript; [left; reflexivity|exact H|exact U]. Qed.
    Lemma here_used (n : mnode N) r : node_uses (fst r) (fst (snd r)) n = true -> used_by [n] r.
    Proof. intros H. eapply oc_here; [left; reflexivity|exact H]. Qed.
    Lemma atom_here (a : natom N) r : atom_uses (fst r) (fst (snd r)) a = true -> used_by [MAtom a] r.
    Proof. intros H. apply here_used. unfold node_uses. rewrite H. reflexivity. Qed.
    Ltac cases H := cbn [In] in H; repeat (destruct H as [H|H]); try (destruct H; fail).

    Lemma attach_used s c (a : natom N) r : In r (attach_asks E rec qrec s c (a_sub a) (a_sup a)) -> used_by [MAtom a] r.
    Proof.
      unfold attach_asks. cbv zeta. intros H.
      pose proof (atom_here a r) as K. pose proof (sub_used a r) as KB. pose proof (sup_used a r) as KP.
      unfold atom_uses in K. cbv zeta in K.
      destruct (a_sub a) as [fb|] eqn:Hb, (a_sup a) as [fp|] eqn:Hp; cbn [given orb andb negb] in K; [ | | |destruct H].
      - apply in_app_or in H. destruct H as [H|[<-|H]]; [destruct c; cases H; subst r; apply K; reflexivity|apply K; reflexivity|].
        apply in_app_or in H. destruct H as [H|H]; [apply KP, (boxit_used _ _ _ H)|].
        apply after_in in H. destruct H as (x & HX & H). apply after_in in H. destruct H as (y & _ & H).
        destruct (boxit_tame _ _ _ HX) as [TX _].
        apply in_app_or in H. destruct H as [H|H].
        { cases H; subst r; apply K; [|reflexivity]. cbn [of_sigma fst snd].
          destruct (style_eqb s D); [reflexivity|]. destruct (style_eqb s (cramp s)); reflexivity. }
        apply in_app_or in H. destruct H as [H|H].
        { apply KP. destruct (own_box (Some fp)); [destruct H|]. exact (fused_tame _ _ r TX (boxit_used _ _ _ H)). }
        apply after_in in H. destruct H as (q & _ & H). apply after_in in H. destruct H as (z & _ & H).
        cases H; subst r; apply K; reflexivity.
      - apply in_app_or in H. destruct H as [H|[<-|H]]; [destruct c; cases H; subst r; apply K; reflexivity|apply K; reflexivity|].
        apply in_app_or in H. destruct H as [H|H]; [apply KB, (boxit_used _ _ _ H)|].
        apply after_in in H. destruct H as (x & HX & H). apply after_in in H. destruct H as (y & _ & H).
        cases H; subst r; apply K; reflexivity.
      - apply in_app_or in H. destruct H as [H|[<-|H]]; [destruct c; cases H; subst r; apply K; reflexivity|apply K; reflexivity|].
        apply in_app_or in H. destruct H as [H|H]; [apply KP, (boxit_used _ _ _ H)|].
        apply after_in in H. destruct H as (x & HX & H). apply after_in in H. destruct H as (y & _ & H).
        apply in_app_or in H. destruct H as [H|H]; [|destruct H].
        cases H; subst r; apply K; [|reflexivity]. cbn [of_sigma fst snd].
        destruct (style_eqb s D); [reflexivity|]. destruct (style_eqb s (cramp s)); reflexivity.
    Qed.
    Lemma rule17_used s (a : natom N) r : In r (rule17_asks E rec qrec s a) -> used_by [MAtom a] r.
    Proof.
      unfold rule17_asks. intros H. apply in_app_or in H. destruct H as [H|H]; [apply nuc_used, (boxit_used _ _ _ H)|].
      apply after_in in H. destruct H as (x & _ & H). exact (attach_used _ _ _ _ H).
    Qed.
    Lemma op_used s (a : natom N) r : (a_ty a =? Op)%Z = true -> In r (rule13_asks E rec qrec s a) -> used_by [MAtom a] r.
    Proof.
      intros HT H. unfold rule13_asks in H. cbv zeta in H.
      pose proof (atom_here a r) as K. unfold atom_uses in K. cbv zeta in K. rewrite HT in K.
      apply in_app_or in H. destruct H as [H|H].
      { destruct (match a_nuc a with Some (FSym _) => _ | _ => _ end); [|destruct H].
        cases H. subst r. apply K. rewrite orb_true_r. reflexivity. }
      pose proof (nuc_used a r) as KN.
      destruct (a_nuc a) as [f|] eqn:Hn; [|destruct H].
      set (large := match f with FSym _ => style_gtb s T | _ => false end) in H.
      set (f' := match f with FSym y => if large then FBox (hnode (hbox [e_largeop E y])) else f | _ => f end) in H.
      assert (Q1 : fused (Some f') r -> used_by [MAtom a] r).
      { intros Q1. apply KN. destruct f; try exact Q1. subst f'. destruct large; destruct Q1 as (l & Hl & _); discriminate Hl. }
      match type of H with In _ (if ?b then _ else _) => destruct b eqn:HL end.
      - apply in_app_or in H. destruct H as [H|H]; [apply Q1, (boxit_used _ _ _ H)|].
        apply after_in in H. destruct H as (x & _ & H). exact (attach_used _ _ _ _ H).
      - assert (HL' : match a_lim a with NoLimits => false | _ => true end = true) by (destruct (a_lim a); [discriminate HL|reflexivity|reflexivity]).
        rewrite HL' in K. clear HL HL'. cbn [andb] in K.
        apply in_app_or in H. destruct H as [H|H]; [apply sup_used, (boxit_used _ _ _ H)|].
        apply after_in in H. destruct H as (x & _ & H).
        apply in_app_or in H. destruct H as [H|H]; [apply Q1, (boxit_used _ _ _ H)|].
        apply after_in in H. destruct H as (y & _ & H).
        apply in_app_or in H. destruct H as [H|H]; [apply sub_used, (boxit_used _ _ _ H)|].
        apply after_in in H. destruct H as (z & _ & H).
        apply in_app_or in H. destruct H as [H|H].
        + destruct (a_sup a) as [fp|]; [|destruct H]. cases H; subst r; apply K; cbn [of_xi fst snd given]; rewrite ?orb_true_r; reflexivity.
        + destruct (a_sub a) as [fb|]; [|destruct H]. cases H; subst r; apply K; cbn [of_xi fst snd given]; rewrite ?orb_true_r; reflexivity.
    Qed.
    Lemma radical_used s (n : mnode N) r :
      node_uses xHeight 2 n = true -> node_uses defaultRuleThickness 3 n = true ->
      In r (radical_asks s) -> used_by [n] r.
    Proof.
      intros K1 K2 H. apply here_used. unfold radical_asks in H.
      destruct H as [<-|H]; [exact K2|]. apply in_app_or in H. destruct H as [H|H].
      - destruct (style_gtb s T); cases H; subst r; exact K1.
      - cases H; subst r; exact K2.
    Qed.
    Lemma atom_used s (a : natom N) r : In r (atom_asks E rec qrec s a) -> used_by [MAtom a] r.
    Proof.
      unfold atom_asks. cbv zeta. intros H.
      pose proof (atom_here a r) as K. unfold atom_uses in K. cbv zeta in K.
      destruct (a_ty a =? Vcent)%Z eqn:T1.
      { unfold rule8_asks in H. apply in_app_or in H. destruct H as [H|H]; [apply nuc_used, (boxit_used _ _ _ H)|].
        apply after_in in H. destruct H as (x & _ & [<-|H]); [|exact (attach_used _ _ _ _ H)]. apply K. reflexivity. }
      destruct ((a_ty a =? Over) || (a_ty a =? Under))%Z eqn:T2.
      { unfold bar_asks in H. apply in_app_or in H. destruct H as [H|H]; [apply nuc_used, (boxit_used _ _ _ H)|].
        apply after_in in H. destruct H as (x & _ & [<-|H]); [|exact (attach_used _ _ _ _ H)]. apply K.
        cbn [of_xi fst snd]. apply orb_true_iff in T2. destruct T2 as [-> | ->]; rewrite ?orb_true_r; reflexivity. }
      destruct (a_ty a =? Rad)%Z eqn:T3.
      { unfold rule11_asks in H. apply in_app_or in H. destruct H as [H|H]; [apply nuc_used, (boxit_used _ _ _ H)|].
        apply after_in in H. destruct H as (x & _ & H). destruct (radical _ _ _) as [y b].
        apply in_app_or in H. destruct H as [H|H]; [|exact (attach_used _ _ _ _ H)].
        apply (radical_used s (MAtom a) r); [| |exact H]; unfold node_uses, atom_uses; cbv zeta; rewrite T3, !orb_true_r; reflexivity. }
      destruct (a_ty a =? Acc)%Z eqn:T4.
      { unfold rule12_asks in H. apply in_app_or in H. destruct H as [H|H]; [apply nuc_used, (boxit_used _ _ _ H)|].
        apply after_in in H. destruct H as (x & _ & [<-|H]); [apply K; cbn [of_sigma fst snd]; rewrite ?orb_true_r; reflexivity|].
        assert (Q : In r (match a_acc a with
               | None => []
               | Some y => after (typeset E s y) (fun _ => attach_asks E rec qrec s false (a_sub a) (a_sup a)) end) -> used_by [MAtom a] r).
        { intros H'. destruct (a_acc a); [|destruct H']. apply after_in in H'. destruct H' as (y & _ & H'). exact (attach_used _ _ _ _ H'). }
        destruct (a_nuc a) as [[]|]; try (apply Q, H). exact (rule17_used _ _ _ H). }
      destruct (a_ty a =? Op)%Z eqn:T5; [exact (op_used s a r T5 H)|].
      match type of H with In _ (if ?b then _ else _) => destruct b end; [exact (rule17_used _ _ _ H)|destruct H].
    Qed.
    Lemma lists_used s : forall c r, In r (lists_asks rec qrec s c) -> exists m, In m c /\ used_by m r.
    Proof.
      induction c as [|l c IH]; intros r H; [destruct H|]. cbn [lists_asks] in H. apply in_app_or in H. destruct H as [H|H].
      - exists l. split; [left; reflexivity|exact (Urec _ _ _ H)].
      - apply after_in in H. destruct H as (x & _ & H). destruct (IH r H) as (m & Hm & U). exists m. split; [right; exact Hm|exact U].
    Qed.
    Lemma step_used st r : In r (step_asks E rec qrec st) -> used_by (p_rest st) r.
    Proof.
      unfold step_asks. destruct (p_rest st) as [|e l]; [intros []|]. intros H.
      assert (G : used_by [e] r -> used_by (e :: l) r) by (intros U; exact (occurs_one _ (e :: l) e (or_introl eq_refl) U)).
      apply G. clear G. destruct e as [a|b|n d|n d|c k|z|o g|n]; try (destruct H; fail).
      - exact (atom_used _ _ _ H).
      - unfold rule15_asks in H. destruct H as [<-|H]; [apply here_used; reflexivity|].
        apply in_app_or in H. destruct H as [H|H]; [eapply oc_numerator; [left; reflexivity|exact (Urec _ _ _ H)]|].
        apply after_in in H. destruct H as (x & _ & H).
        apply in_app_or in H. destruct H as [H|H]; [eapply oc_denominator; [left; reflexivity|exact (Urec _ _ _ H)]|].
        apply after_in in H. destruct H as (y & _ & H).
        apply in_app_or in H. destruct H as [H|H]; [destruct (style_gtb _ _)|]; cases H; subst r; apply here_used; reflexivity.
      - unfold root_asks in H. apply in_app_or in H. destruct H as [H|H]; [eapply oc_radicand; [left; reflexivity|exact (Urec _ _ _ H)]|].
        apply after_in in H. destruct H as (x & _ & H).
        apply in_app_or in H. destruct H as [H|H]; [|eapply oc_degree; [left; reflexivity|exact (Urec _ _ _ H)]].
        apply (radical_used _ (MRoot n d) r eq_refl eq_refl H).
      - unfold matrix_asks in H. destruct H as [<-|H]; [apply here_used; reflexivity|].
        apply in_app_or in H. destruct H as [H|H].
        { destruct (lists_used _ _ _ H) as (m & Hm & U). eapply oc_cell; [left; reflexivity|exact Hm|exact U]. }
        apply after_in in H. destruct H as (x & _ & H). destruct (Nat.eqb k 0); cases H. subst r. apply here_used. reflexivity.
      - destruct o; cases H. subst r. apply here_used. reflexivity.
    Qed.
    Lemma loop_used l : forall n st r, from l st -> In r (loop_asks E rec qrec n st) -> used_by l r.
    Proof.
      induction n as [|n IH]; intros st r F H; cbn [loop_asks] in H; destruct (p_rest st) as [|e t] eqn:Hr; try (destruct H; fail).
      apply in_app_or in H. destruct H as [H|H].
      - apply step_used in H. apply occurs_some in H. destruct H as (m & Hm & U). exact (occurs_one _ l m (proj2 F m Hm) U).
      - apply after_in in H. destruct H as (st1 & H1 & H). exact (IH st1 r (from_step l st st1 F H1) H).
    Qed.
  End R.

  Lemma emit_quad s : forall l recent r, In r (emit_asks E s recent l) -> r = of_sigma s get_quad.
  Proof.
    induction l as [|[a|b|n d|n d|c k|z|o g|n] l IH]; intros recent r H; cbn [emit_asks] in H; try (destruct H; fail); try exact (IH _ _ H).
    destruct recent as [t|]; [|exact (IH _ _ H)]. apply in_app_or in H. destruct H as [H|H].
    - unfold space_asks in H. destruct (insertSpace E s t (a_ty a)) as [[|]| | | |]; cbn [In] in H; try (destruct H; fail).
      destruct H as [H|[]]. symmetry. exact H.
    - apply after_in in H. destruct H as (x & _ & H). exact (IH _ _ H).
  Qed.

  Theorem typeset_tame : forall fuel p s l o l', mlist2hlist E fuel p s l = Ok (o, l') -> tame l' l.
  Proof.
    induction fuel as [|fuel IH]; intros p s l o l' H; (destruct l as [|e l]; [injection H as <- <-; apply tame_refl|]);
      cbn [mlist2hlist] in H; [discriminate H|].
    apply bind_Ok in H as (st & HL & H). apply bind_Ok in H as (cur & _ & H). apply bind_Ok in H as (out & _ & H).
    injection H as _ <-. apply tame_lists. intros n' Hn. apply in_map_iff in Hn. destruct Hn as (i & <- & Hi).
    assert (F : from (e :: l) (mkP [] (e :: l) s None)) by (split; [intros i' []|auto]).
    destruct (proj1 (from_loop _ (IH default_penalties) (e :: l) _ _ _ F HL) i Hi) as (n & Hn & T & _). eauto.
  Qed.
  Theorem typeset_used : forall fuel s l r, In r (typeset_asks E fuel s l) -> used_by l r.
  Proof.
    induction fuel as [|fuel IH]; intros s l r H; (destruct l as [|e l]; [destruct H|]); cbn [typeset_asks] in H; [destruct H|].
    assert (F : from (e :: l) (mkP [] (e :: l) s None)) by (split; [intros i' []|auto]).
    apply in_app_or in H. destruct H as [H|H].
    - exact (loop_used _ _ (typeset_tame fuel default_penalties) IH (e :: l) _ _ r F H).
    - apply after_in in H. destruct H as (st & HL & H).
      pose proof (from_loop _ (typeset_tame fuel default_penalties) (e :: l) _ _ _ F HL) as [FD _].
      apply in_app_or in H. destruct H as [H|H].
      + unfold boundary_asks in H. destruct (currents (p_done st)) as [|[a|y|n d|n d|c k|z|o g|n] t] eqn:HC; try (destruct H; fail).
        destruct (last _ _); try (destruct H; fail). destruct H as [<-|[]].
        assert (HY : In (MBoundary y) (currents (p_done st))) by (rewrite HC; left; reflexivity).
        unfold currents in HY. apply in_flat_map in HY. destruct HY as (i & Hi & HY).
        destruct (FD i Hi) as (n & Hn & _ & HB). destruct (it_cur i) as [m|]; [|destruct HY]. destruct HY as [->|[]].
        rewrite (HB y eq_refl) in Hn. eapply oc_here; [exact Hn|reflexivity].
      + apply after_in in H. destruct H as (cur & _ & H). apply emit_quad in H. subst r.
        eapply oc_here; [left; reflexivity|]. cbn [of_sigma fst snd]. unfold node_uses. apply orb_true_r.
  Qed.
End Why.

(** * a call for nothing *)
Section Unneeded.
  Context {N : Num}.
  Lemma large_op_asks (E : engine N) fuel s y a : style_gtb s T = true -> a_ty a = Op -> a_nuc a = Some (FSym y) ->
    In (of_sigma s axisHeight) (typeset_asks E (Datatypes.S (Datatypes.S fuel)) s [MAtom a]).
  Proof.
    intros Hs Ht Hn. cbn [typeset_asks loop_asks p_rest]. apply in_or_app. left. apply in_or_app. left.
    cbn [step_asks p_rest p_style]. unfold atom_asks. cbv zeta. rewrite Ht. cbn [Z.eqb Pos.eqb Op Vcent Over Under Rad Acc orb].
    unfold rule13_asks. cbv zeta. rewrite Hn, Hs. left. reflexivity.
  Qed.
  Lemma large_op_rule13 (E : engine N) P rec rec' s y ac lim :
    let a := mkAtom Op (Some (FSym y)) None None ac lim in
    rule13 (with_params E P) rec' s a = rule13 E rec s a.
  Proof.
    cbv zeta. unfold rule13. cbn [a_nuc a_lim]. destruct (style_gtb s T).
    - destruct (family_ok (s_fam y)) eqn:F; [|reflexivity]. cbn [bind]. unfold changeNucleus. cbn [a_sup a_nuc a_sub a_lim a_ty a_acc].
      destruct lim; cbn [negb]; [reflexivity|reflexivity|reflexivity].
    - cbn [bind a_sup a_nuc a_sub a_lim a_ty a_acc].
      destruct lim; cbn [negb]; unfold rule17, boxit, typeset; cbn [a_nuc a_sup a_sub]; (destruct (family_ok (s_fam y)); reflexivity).
  Qed.
  Lemma large_op_same (E : engine N) P fuel p s y a : a_ty a = Op -> a_nuc a = Some (FSym y) ->
    a_sub a = None -> a_sup a = None ->
    mlist2hlist (with_params E P) (Datatypes.S (Datatypes.S fuel)) p s [MAtom a]
    = mlist2hlist E (Datatypes.S (Datatypes.S fuel)) p s [MAtom a].
  Proof.
    intros Ht Hn Hb Hp. destruct a as [ty nuc sb sp ac lim]. cbn [a_ty a_nuc a_sub a_sup] in Ht, Hn, Hb, Hp. subst ty nuc sb sp.
    pose proof (fun rec rec' => large_op_rule13 E P rec rec' s y ac lim) as R. cbv zeta in R.
    cbn [mlist2hlist loop p_rest step p_style].
    unfold process_atom, rule6. cbn [p_style a_ty Z.eqb Pos.eqb Op Bin Rel Open Close Punct Inner Vcent Over Under Rad Acc orb].
    match goal with |- context [rule13 E ?rc s _] => rewrite (R rc) end. destruct (rule13 E _ s _) as [a'| | | |]; try reflexivity. destruct fuel; reflexivity.
  Qed.
End Unneeded.
