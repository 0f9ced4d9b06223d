(** Formulas without scripts, typeset a second time. *)
From Coq Require Import List ZArith QArith Bool Lia Arith.
From Verif.Base Require Import Result Num.
From Verif.Model Require Import Glue Box MathList MathTypeset.
From Verif.Spec Require Import MathSpec TypesetSpec.
From Verif.Proofs Require Import TypesetEmit TypesetTypes TypesetBoxes.
Import ListNotations.
Local Open Scope nat_scope.

Section Again.
  Context {N : Num}.
  Variable E : engine N.

  Definition bare (a : natom N) : Prop := a_sub a = None /\ a_sup a = None /\ (a_ty a = Op -> a_lim a = NoLimits).
  Lemma rule17_bare rec s a a' : a_sub a = None -> a_sup a = None -> rule17 E rec s a = Ok a' -> exists b, a' = changeNucleus b a.
  Proof.
    intros H1 H2 H. unfold rule17 in H. apply bind_Ok in H. destruct H as (r & _ & H).
    unfold attachSubSup in H. cbn [a_sub a_sup changeNucleus] in H. rewrite H1, H2 in H. injection H as <-. eauto.
  Qed.
  Lemma rule17_boxed rec s a b : a_nuc a = Some (FBox b) -> a_sub a = None -> a_sup a = None -> rule17 E rec s a = Ok a.
  Proof.
    intros H0 H1 H2. unfold rule17. rewrite H0. cbn [boxit bind fst]. unfold attachSubSup, changeNucleus.
    cbn [a_sub a_sup]. rewrite H1, H2, <- H0. destruct a; cbn in *; subst; reflexivity.
  Qed.
  Lemma in_context rec s first recent a : (first = true -> recent = None) ->
    process_atom E rec s first recent a = process_atom E rec s true None a.
  Proof.
    intros H. unfold process_atom. destruct (a_ty a =? Bin)%Z; [|reflexivity].
    unfold rule5. cbn [andb]. destruct first; [rewrite (H eq_refl); reflexivity|reflexivity].
  Qed.
  (** what an atom without scripts becomes *)
  Lemma process_bare rec s a a' : bare a -> process_atom E rec s true None a = Ok a' ->
    bare a' /\ exists b, a_nuc a' = Some (FBox b).
  Proof.
    intros (H1 & H2 & H3) H.
    assert (K16 : forall b a0, a_sub a0 = None -> a_sup a0 = None -> rule16 E rec s (changeNucleus b a0) = Ok a' ->
              bare a' /\ exists b, a_nuc a' = Some (FBox b)).
    { intros b a0 G1 G2 G. apply rule17_bare in G; [|exact G1|exact G2]. destruct G as [c ->].
      split; [|eexists; reflexivity]. split; [exact G1|]. split; [exact G2|]. discriminate. }
    assert (K17 : rule17 E rec s a = Ok a' -> bare a' /\ exists b, a_nuc a' = Some (FBox b)).
    { intros G. apply rule17_bare in G; [|exact H1|exact H2]. destruct G as [c ->].
      split; [|eexists; reflexivity]. split; [exact H1|]. split; [exact H2|]. exact H3. }
    unfold process_atom in H.
    destruct (a_ty a =? Bin)%Z; [apply K17; exact H|].
    destruct (_ || _ || _)%Z; [apply K17; exact H|].
    destruct (_ || _)%Z; [apply K17; exact H|].
    destruct (a_ty a =? Vcent)%Z.
    { unfold rule8 in H. apply bind_Ok in H. destruct H as (r & _ & H). exact (K16 _ a H1 H2 H). }
    destruct (a_ty a =? Over)%Z.
    { unfold rule9 in H. apply bind_Ok in H. destruct H as (r & _ & H). exact (K16 _ a H1 H2 H). }
    destruct (a_ty a =? Under)%Z.
    { unfold rule10 in H. apply bind_Ok in H. destruct H as (r & _ & H). apply bind_Ok in H. destruct H as (b & _ & H).
      exact (K16 _ a H1 H2 H). }
    destruct (a_ty a =? Rad)%Z.
    { unfold rule11 in H. apply bind_Ok in H. destruct H as (r & _ & H). destruct (radical E s (fst r)) as [y b].
      exact (K16 _ a H1 H2 H). }
    destruct (a_ty a =? Acc)%Z.
    { unfold rule12 in H. apply bind_Ok in H. destruct H as (r & _ & H). cbv zeta in H.
      apply bind_Ok in H. destruct H as (p3 & Hp & H).
      assert (Hb : a_sub (fst (fst p3)) = None /\ a_sup (fst (fst p3)) = None).
      { destruct (a_nuc a) as [[q|q|q|]|]; try (injection Hp as <-; auto).
        apply bind_Ok in Hp. destruct Hp as (a1 & _ & Hp). destruct (a_nuc a1) as [[z|z|z|]|]; try discriminate.
        injection Hp as <-. split; reflexivity. }
      destruct p3 as [[a1 x1] d1]. cbn [fst] in Hb. destruct Hb as [B1 B2].
      destruct (a_acc a1); [|discriminate]. apply bind_Ok in H. destruct H as (y & _ & H). exact (K16 _ a1 B1 B2 H). }
    destruct (Z.eqb_spec (a_ty a) Op) as [Eo|].
    { unfold rule13 in H. rewrite (H3 Eo) in H. cbv zeta in H. apply bind_Ok in H. destruct H as ([a1 d1] & Hp & H).
      cbn [negb] in H.
      assert (Ha : a_sub a1 = None /\ a_sup a1 = None /\ a_ty a1 = a_ty a /\ a_lim a1 = a_lim a).
      { destruct (a_nuc a) as [[q|q|q|]|]; try discriminate; try (injection Hp as <- _; auto).
        destruct (style_gtb s T); [|injection Hp as <- _; auto]. destruct (family_ok _); [|discriminate].
        injection Hp as <- _. auto. }
      destruct Ha as (A1 & A2 & A3 & A4). apply rule17_bare in H; [|exact A1|exact A2]. destruct H as [c ->].
      split; [|eexists; reflexivity]. split; [exact A1|]. split; [exact A2|]. cbn. intros _. rewrite A4. auto. }
    destruct (a_ty a =? Ord)%Z; [apply K17; exact H|discriminate].
  Qed.
  (** such an atom is left as it is *)
  Lemma process_again rec s a b : bare a -> a_nuc a = Some (FBox b) -> (0 <= a_ty a <= 7)%Z ->
    process_atom E rec s true None a = Ok a.
  Proof.
    intros (H1 & H2 & H3) Hn Ht. pose proof (rule17_boxed rec s a b Hn H1 H2) as K.
    assert (C : (a_ty a = 0 \/ a_ty a = 1 \/ a_ty a = 2 \/ a_ty a = 3 \/ a_ty a = 4 \/ a_ty a = 5 \/ a_ty a = 6 \/ a_ty a = 7)%Z) by lia.
    unfold process_atom, rule5. cbn [andb].
    repeat (destruct C as [C|C]; [rewrite C; cbn; try exact K|]); [|rewrite C; exact K].
    unfold rule13. rewrite Hn, (H3 C). cbn [bind negb]. exact K.
  Qed.

  (** * The loop *)
  Lemma recent_settled (st : pstate N) (t : Z) : recent_in st -> next_class (p_rest st) = Some t ->
    forall r s (a2 : natom N), (closing (a_ty a2) = true -> closing t = true) ->
    rule6 (mkP (settle st) r s (p_recent st)) a2 = mkP (N := N) (settle st) r s (p_recent st).
  Proof.
    intros Hi Hn r s a2 Hc. unfold rule6. rewrite <- closing_spec. destruct (closing (a_ty a2)) eqn:Q; [|reflexivity].
    specialize (Hc eq_refl). unfold recent_type, recent_atom. cbn [p_recent p_done p_rest p_style].
    destruct (p_recent st) as [k|] eqn:Ek; [|reflexivity].
    assert (X : match nth_error (settle st) k with Some i => atom_of i | None => None end = None \/
      exists b, match nth_error (settle st) k with Some i => atom_of i | None => None end = Some b /\ a_ty b <> Bin).
    { unfold settle, will, recent_type, recent_atom. rewrite Ek, Hn, Hc. unfold recent_in in Hi. rewrite Ek in Hi.
      destruct (nth_error (p_done st) k) as [i|] eqn:Qi; [|apply nth_error_None in Qi; lia].
      destruct (atom_of i) as [b|] eqn:Qb; cbn [option_map].
      - right. rewrite andb_true_r. destruct (Z.eqb_spec (a_ty b) Bin) as [e|e].
        + exists (changeType Ord b). split; [|discriminate].
          assert (U : forall l k, nth_error l k = Some i -> nth_error (update k (retype_item (N := N)) l) k = Some (retype_item i)).
          { clear. induction l as [|x l IH]; intros [|k]; cbn; try discriminate; [intros [= ->]; reflexivity|apply IH]. }
          rewrite (U _ _ Qi). unfold atom_of, retype_item in *. cbn [it_cur]. destruct (it_cur i) as [n|]; [|discriminate].
          destruct n; try discriminate. injection Qb as ->. reflexivity.
        + rewrite Qi. exists b. auto.
      - left. rewrite Qi. exact Qb. }
    destruct X as [->|(b & -> & Hb')]; [reflexivity|]. cbn [option_map].
    destruct (Z.eqb_spec (a_ty b) Bin); [congruence|reflexivity].
  Qed.
  Lemma settle_nil st : p_rest st = [] -> settle (N := N) st = p_done st.
  Proof.
    intros H. unfold settle, will. rewrite H. cbn [next_class]. destruct (p_recent st); [|reflexivity].
    destruct (recent_type st); reflexivity.
  Qed.

  Definition twin (st : pstate N) (S' : list (MathTypeset.item N)) : pstate N :=
    mkP (settle st) (map it_orig S') (p_style st) (p_recent st).
  Definition kinds (l : list (mnode N)) : list bool := map (@isGlueOrKern N) l.
  Section Loop.
    Variable rec : style -> list (mnode N) -> result (list (node N) * list (mnode N)).
    Hypothesis again : forall s l out l', Forall scriptless l -> rec s l = Ok (out, l') -> rec s l' = Ok (out, l').
    Hypothesis stays : forall s l out l', Forall scriptless l -> rec s l = Ok (out, l') -> Forall scriptless l'.

    Definition good (st : pstate N) : Prop :=
      Forall scriptless (p_rest st) /\ recent_in st /\ Forall boxed (currents (p_done st)).

    Lemma frac_again s n d a o : Forall scriptless n -> Forall scriptless d -> rule15 E rec s n d = Ok (a, o) ->
      exists n' d', o = MFrac n' d' /\ rule15 E rec s n' d' = Ok (a, o) /\ scriptless o.
    Proof.
      intros Hn Hd H. unfold rule15, boxit_list in *. apply bind_Ok in H. destruct H as (rx & H1 & H).
      apply bind_Ok in H1. destruct H1 as ([o1 l1] & R1 & [= <-]).
      apply bind_Ok in H. destruct H as (rz & H2 & H). apply bind_Ok in H2. destruct H2 as ([o2 l2] & R2 & [= <-]).
      cbv zeta in H. cbn [fst snd] in H. destruct (neqb _ _) eqn:Q; [|discriminate]. injection H as <- <-.
      exists l1, l2. split; [reflexivity|]. split; [|constructor; [exact (stays _ _ _ _ Hn R1)|exact (stays _ _ _ _ Hd R2)]].
      rewrite (again _ _ _ _ Hn R1), (again _ _ _ _ Hd R2). cbn [bind fst snd]. cbv zeta. cbn [fst snd] in *. rewrite Q. reflexivity.
    Qed.
    Lemma root_again s n d a o : Forall scriptless n -> Forall scriptless d -> processRoot E rec s n d = Ok (a, o) ->
      exists n' d', o = MRoot n' d' /\ processRoot E rec s n' d' = Ok (a, o) /\ scriptless o.
    Proof.
      intros Hn Hd H. unfold processRoot, boxit_list in *. apply bind_Ok in H. destruct H as (rx & H1 & H).
      apply bind_Ok in H1. destruct H1 as ([o1 l1] & R1 & [= <-]). cbn [fst snd] in H.
      destruct (radical E s (hnode (hbox o1))) as [y b] eqn:Qr.
      apply bind_Ok in H. destruct H as (rz & H2 & H). apply bind_Ok in H2. destruct H2 as ([o2 l2] & R2 & [= <-]).
      cbv zeta in H. cbn [fst snd] in H. apply bind_Ok in H. destruct H as (a1 & Ha & [= <- <-]).
      exists l2, l1. split; [reflexivity|]. split; [|constructor; [exact (stays _ _ _ _ Hn R2)|exact (stays _ _ _ _ Hd R1)]].
      rewrite (again _ _ _ _ Hd R1). cbn [bind fst snd]. rewrite Qr. rewrite (again _ _ _ _ Hn R2). cbn [bind fst snd].
      cbv zeta. unfold rule16 in *. unfold rule17 in *. cbn [a_nuc changeType create boxit bind fst] in *.
      unfold attachSubSup in *. cbn [a_sub a_sup changeNucleus changeType create bind] in *. injection Ha as <-. reflexivity.
    Qed.
    Lemma lists_again s c r : Forall (Forall scriptless) c -> boxit_lists rec s c = Ok r ->
      boxit_lists rec s (snd r) = Ok r /\ Forall (Forall scriptless) (snd r).
    Proof.
      revert r. induction c as [|l c IH]; intros r H0 H; cbn [boxit_lists] in H; [injection H as <-; split; [reflexivity|constructor]|].
      inversion H0 as [|? ? G1 G2]; subst. apply bind_Ok in H. destruct H as (x & Hx & H). apply bind_Ok in H. destruct H as (y & Hy & [= <-]).
      unfold boxit_list in Hx. apply bind_Ok in Hx. destruct Hx as ([o1 l1] & R1 & [= <-]).
      destruct (IH _ G2 Hy) as [I1 I2]. cbn [fst snd boxit_lists]. unfold boxit_list. rewrite (again _ _ _ _ G1 R1). cbn [bind fst snd].
      rewrite I1. cbn [bind]. split; [reflexivity|]. constructor; [exact (stays _ _ _ _ G1 R1)|exact I2].
    Qed.
    Lemma matrix_again s c k a o : Forall (Forall scriptless) c -> processMatrix E rec s c k = Ok (a, o) ->
      exists c', o = MMatrix c' k /\ processMatrix E rec s c' k = Ok (a, o) /\ scriptless o.
    Proof.
      intros Hc H. unfold processMatrix in *. apply bind_Ok in H. destruct H as (r & Hr & H).
      destruct (lists_again _ _ _ Hc Hr) as [L1 L2]. destruct (Nat.eqb k 0) eqn:Qk; [discriminate|].
      apply bind_Ok in H. destruct H as (a1 & Ha & [= <- <-]).
      exists (snd r). split; [reflexivity|]. split; [|constructor; exact L2]. rewrite L1. cbn [bind]. rewrite Ha. reflexivity.
    Qed.

    (** the second run keeps pace with the first *)
    Definition follows (k : nat) (st st' : pstate N) : Prop :=
      exists S', p_done st' = settle st ++ S' /\ kinds (map it_orig S') = kinds (p_rest st) /\
        Forall scriptless (map it_orig S') /\
        loop E rec k (twin st S') = Ok (mkP (p_done st') [] (p_style st') (p_recent st')).

    Lemma follows_step k st st1 st' es r x : p_rest st = es ++ r ->
      settle st1 = settle st ++ x -> p_rest st1 = r -> es <> [] -> follows k st1 st' ->
      kinds (map it_orig x) = kinds es -> Forall scriptless (map it_orig x) ->
      (forall r', kinds r' = kinds r ->
         step E rec (mkP (settle st) (map it_orig x ++ r') (p_style st) (p_recent st)) =
         Ok (mkP (settle st1) r' (p_style st1) (p_recent st1))) ->
      follows (Datatypes.S k) st st'.
    Proof.
      intros Hr Hset Hr1 Hne (S' & F1 & F2 & F3 & F4) Hk Hs Hstep. exists (x ++ S').
      split; [rewrite F1, Hset, <- app_assoc; reflexivity|].
      rewrite Hr1 in F2.
      split; [rewrite Hr; unfold kinds in *; rewrite !map_app, F2, Hk; reflexivity|].
      split; [rewrite map_app; apply Forall_app; auto|].
      unfold twin. rewrite map_app.
      destruct (map it_orig x ++ map it_orig S') as [|e q] eqn:Q.
      { exfalso. apply app_eq_nil in Q. destruct Q as [Q _]. rewrite Q in Hk. destruct es; [congruence|discriminate]. }
      rewrite (loop_next E rec (Datatypes.S k) k (mkP (settle st) (e :: q) (p_style st) (p_recent st)) e q eq_refl eq_refl). rewrite <- Q.
      rewrite (Hstep _ F2). cbn [bind]. exact F4.
    Qed.
    Lemma follows_pass k st e r i st' s' : p_rest st = e :: r -> recent_in st ->
      next_class (e :: r) = next_class r ->
      follows k (mkP (p_done st ++ [i]) r s' (p_recent st)) st' ->
      scriptless (it_orig i) -> isGlueOrKern (it_orig i) = isGlueOrKern e ->
      (forall r', kinds r' = kinds r ->
         step E rec (mkP (settle st) (it_orig i :: r') (p_style st) (p_recent st)) =
         Ok (mkP (settle st ++ [i]) r' s' (p_recent st))) ->
      follows (Datatypes.S k) st st'.
    Proof.
      intros Hr Hi Hn Hf Hs Hk Hstep.
      assert (Hp : settle (mkP (p_done st ++ [i]) r s' (p_recent st)) = settle st ++ [i]).
      { apply settle_pass; [exact Hi|]. rewrite Hr. exact Hn. }
      refine (follows_step k st _ st' [e] r [i] Hr Hp eq_refl _ Hf _ _ _); [discriminate| | |].
      - cbn. rewrite Hk. reflexivity.
      - cbn. auto.
      - intros r' Hk'. rewrite Hp. exact (Hstep r' Hk').
    Qed.
    (** a root or a matrix: an Ord atom that is not changed afterwards *)
    Lemma follows_ord k st e r o a st' : p_rest st = e :: r ->
      next_class (e :: r) = Some 0%Z -> a_ty a = 0%Z ->
      follows k (mkP (p_done st ++ [mkItem o (Some (MAtom a))]) r (p_style st) (Some (length (p_done st)))) st' ->
      scriptless o -> isGlueOrKern o = isGlueOrKern e ->
      (forall r' d, step E rec (mkP d (o :: r') (p_style st) (p_recent st)) =
         Ok (mkP (d ++ [mkItem o (Some (MAtom a))]) r' (p_style st) (Some (length d)))) ->
      follows (Datatypes.S k) st st'.
    Proof.
      intros Hr Hn Ht Hf Hs Hk Hstep.
      assert (Hq : settle st = p_done st). { apply (settle_not_closing st 0%Z); [rewrite Hr; exact Hn|reflexivity]. }
      assert (Hp : settle (mkP (p_done st ++ [mkItem o (Some (MAtom a))]) r (p_style st) (Some (length (p_done st)))) =
                   settle st ++ [mkItem o (Some (MAtom a))]).
      { rewrite settle_atom, Ht, Hq. cbv zeta. destruct (next_class r); reflexivity. }
      refine (follows_step k st _ st' [e] r [mkItem o (Some (MAtom a))] Hr Hp eq_refl _ Hf _ _ _); [discriminate| | |].
      - cbn. rewrite Hk. reflexivity.
      - cbn. auto.
      - intros r' Hk'. rewrite Hp. cbn [p_style p_recent map it_orig app]. rewrite Hstep, Hq. reflexivity.
    Qed.
    Lemma closing_plain t : closing (plain_class t) = true -> closing t = true.
    Proof. unfold plain_class. destruct (7 <? t)%Z; [discriminate|auto]. Qed.
    Lemma follows_atom k st a a' r st' : p_rest st = MAtom a :: r -> recent_in st ->
      bare a -> process_atom E rec (p_style st) true None a = Ok a' ->
      follows k (mkP (settle st ++ [mkItem (MAtom a') (Some (MAtom a'))]) r (p_style st) (Some (length (settle st)))) st' ->
      follows (Datatypes.S k) st st'.
    Proof.
      intros Hr Hi Hb Ha Hf.
      destruct (process_bare rec _ _ _ Hb Ha) as [(B1 & B2 & B3) [b Hn]].
      destruct (process_atom_type E rec (p_style st) true None a (fun _ => eq_refl) a' Ha) as [[Ht _] Hrange].
      pose proof (settle_atom (settle st) (MAtom a') a' r (p_style st)) as Hp. cbv zeta in Hp.
      set (i := mkItem (MAtom a') (Some (MAtom a'))) in *.
      assert (exists a2, (a2 = a' \/ a2 = changeType Ord a') /\
        settle (mkP (settle st ++ [i]) r (p_style st) (Some (length (settle st)))) = settle st ++ [mkItem (MAtom a2) (Some (MAtom a2))]).
      { rewrite Hp. destruct (next_class r) as [u|]; [destruct ((a_ty a' =? Bin)%Z && closing u)|].
        - exists (changeType Ord a'). auto.
        - exists a'. auto.
        - exists a'. auto. }
      destruct H as (a2 & Hor & Hp2).
      assert (P2 : process_atom E rec (p_style st) true None a2 = Ok a2).
      { apply process_again with (b := b).
        - destruct Hor as [->| ->]; (split; [exact B1|split; [exact B2|]]); [exact B3|discriminate].
        - destruct Hor as [->| ->]; exact Hn.
        - destruct Hor as [->| ->]; [rewrite Ht; exact (plain_ok _ Hrange)|change (0 <= 0 <= 7)%Z; lia]. }
      refine (follows_step k st _ st' [MAtom a] r [mkItem (MAtom a2) (Some (MAtom a2))] Hr Hp2 eq_refl _ Hf _ _ _);
        [discriminate|reflexivity| |].
      - constructor; [|constructor]. destruct Hor as [->| ->]; constructor; try assumption. discriminate.
      - intros r' _. rewrite Hp2. cbn [map it_orig app]. unfold step. cbn [p_rest].
        assert (R6 : rule6 (mkP (settle st) (MAtom a2 :: r') (p_style st) (p_recent st)) a2 =
                     mkP (settle st) (MAtom a2 :: r') (p_style st) (p_recent st)).
        { apply (recent_settled st (a_ty a) Hi); [rewrite Hr; reflexivity|].
          destruct Hor as [->| ->]; [rewrite Ht; apply closing_plain|discriminate]. }
        rewrite R6. cbn [p_style]. rewrite in_context by apply at_begin_recent. rewrite P2. reflexivity.
    Qed.

    Lemma keeps_pace : forall k st st', Forall scriptless (p_rest st) -> recent_in st ->
      loop E rec k st = Ok st' -> follows k st st'.
    Proof.
      induction k as [|k IH]; intros st st' Hs Hi H.
      { cbn [loop] in H. destruct (p_rest st) eqn:Hr; [|discriminate]. injection H as <-. exists [].
        rewrite (settle_nil _ Hr), app_nil_r. unfold twin. cbn. rewrite Hr, (settle_nil _ Hr). auto. }
      destruct (p_rest st) as [|e r] eqn:Hr.
      { cbn [loop] in H. rewrite Hr in H. injection H as <-. exists [].
        rewrite (settle_nil _ Hr), app_nil_r. unfold twin. cbn. rewrite Hr, (settle_nil _ Hr). auto. }
      rewrite (loop_next E rec _ k st e r eq_refl Hr) in H. apply bind_Ok in H. destruct H as (st1 & H1 & H).
      unfold step in H1. rewrite Hr in H1. inversion Hs as [|? ? Ge Gr]; subst.
      assert (PASS : forall o s', (o = Some e \/ o = None) ->
        st1 = mkP (p_done st ++ [mkItem e o]) r s' (p_recent st) -> next_class (e :: r) = next_class r ->
        (forall r', kinds r' = kinds r -> step E rec (mkP (settle st) (e :: r') (p_style st) (p_recent st)) =
         Ok (mkP (settle st ++ [mkItem e o]) r' s' (p_recent st))) -> follows (Datatypes.S k) st st').
      { intros o s' _ -> Hn Hstep. apply (follows_pass k st e r (mkItem e o) st' s' Hr Hi Hn); [|exact Ge|reflexivity|exact Hstep].
        apply IH; [exact Gr|apply recent_in_app; exact Hi|exact H]. }
      destruct e as [a|y|n d|n d|c cols|s|o g|x].
      - rewrite rule6_style, in_context in H1 by apply at_begin_recent.
        apply bind_Ok in H1. destruct H1 as (a' & Ha & [= <-]). inversion Ge; subst.
        apply (follows_atom k st a a' r st' Hr Hi); [split; [assumption|split; assumption]|exact Ha|].
        unfold advance_atom in H. rewrite (rule6_settle st a r Hr), rule6_style in H. apply IH; [exact Gr| |exact H].
        unfold recent_in. cbn. rewrite app_length. cbn. lia.
      - injection H1 as <-. eapply PASS; [left; reflexivity|reflexivity|reflexivity|reflexivity].
      - apply bind_Ok in H1. destruct H1 as ([a o] & Ha & [= <-]). inversion Ge as [ |? ? Gn Gd| | | | | | ]; subst.
        destruct (frac_again _ _ _ _ _ Gn Gd Ha) as (n' & d' & -> & Ha' & Ho).
        apply (follows_pass k st (MFrac n d) r (mkItem (MFrac n' d') (Some (MAtom a))) st' (p_style st) Hr Hi eq_refl);
          [|exact Ho|reflexivity|].
        + apply IH; [exact Gr|apply recent_in_app; exact Hi|exact H].
        + intros r' _. unfold step. cbn [p_rest it_orig p_style]. rewrite Ha'. reflexivity.
      - apply bind_Ok in H1. destruct H1 as ([a o] & Ha & [= <-]). inversion Ge as [ | |? ? Gn Gd| | | | | ]; subst.
        destruct (root_type E rec _ _ _ _ Ha) as [Ht _]. cbn [fst] in Ht.
        destruct (root_again _ _ _ _ _ Gn Gd Ha) as (n' & d' & -> & Ha' & Ho).
        apply (follows_ord k st (MRoot n d) r (MRoot n' d') a st' Hr eq_refl Ht); [|exact Ho|reflexivity|].
        + apply IH; [exact Gr| |exact H]. unfold recent_in. cbn. rewrite app_length. cbn. lia.
        + intros r' dd. unfold step. cbn [p_rest it_orig p_style]. rewrite Ha'. reflexivity.
      - apply bind_Ok in H1. destruct H1 as ([a o] & Ha & [= <-]). inversion Ge as [ | | |? ? Gc| | | | ]; subst.
        destruct (matrix_type E rec _ _ _ _ Ha) as [Ht _]. cbn [fst] in Ht.
        destruct (matrix_again _ _ _ _ _ Gc Ha) as (c' & -> & Ha' & Ho).
        apply (follows_ord k st (MMatrix c cols) r (MMatrix c' cols) a st' Hr eq_refl Ht); [|exact Ho|reflexivity|].
        + apply IH; [exact Gr| |exact H]. unfold recent_in. cbn. rewrite app_length. cbn. lia.
        + intros r' dd. unfold step. cbn [p_rest it_orig p_style]. rewrite Ha'. reflexivity.
      - injection H1 as <-. eapply PASS; [right; reflexivity|reflexivity|reflexivity|reflexivity].
      - injection H1 as E1. unfold rule2 in E1. inversion Ge; subst. destruct o; [|congruence|].
        + eapply PASS; [left; reflexivity|reflexivity|reflexivity|reflexivity].
        + destruct r as [|n r'].
          { eapply PASS; [left; reflexivity|reflexivity|reflexivity|].
            intros [|? ?] Hk; [reflexivity|discriminate]. }
          destruct (isGlueOrKern n && style_leb (p_style st) MathList.S) eqn:Q.
          * inversion Gr as [|? ? Gn Gr']; subst. unfold advance in H. cbn [p_done] in H. rewrite <- app_assoc in H.
            assert (Hp : settle (mkP (p_done st ++ [mkItem (MGlue OrNonscript g) (Some (MGlue OrNonscript g)); mkItem n None]) r' (p_style st) (p_recent st))
              = settle st ++ [mkItem (MGlue OrNonscript g) (Some (MGlue OrNonscript g)); mkItem n None]).
            { apply settle_pass; [exact Hi|]. rewrite Hr. cbn. apply andb_true_iff in Q. destruct Q as [Q _].
              destruct n; try discriminate Q; reflexivity. }
            refine (follows_step k st _ st' [MGlue OrNonscript g; n] r' _ Hr Hp eq_refl _ _ _ _ _);
              [discriminate| |reflexivity|cbn; repeat constructor; [congruence|exact Gn]|].
            -- apply IH; [exact Gr'|apply recent_in_app; exact Hi|exact H].
            -- intros q _. rewrite Hp. unfold step, rule2. cbn [p_rest map it_orig app p_style p_recent]. rewrite Q. cbn.
               rewrite <- app_assoc. reflexivity.
          * eapply PASS; [left; reflexivity|reflexivity|reflexivity|].
            intros [|m q] Hk; [discriminate|]. unfold step, rule2. cbn [p_rest p_style p_recent].
            injection Hk as Hm _. rewrite Hm, Q. reflexivity.
      - destruct x; try (injection H1 as <-; eapply PASS; [left; reflexivity|reflexivity|reflexivity|reflexivity]).
        all: exfalso; injection H1 as <-; clear -H Hr; revert H.
        all: induction k as [|k IHk]; cbn [loop]; rewrite Hr; [discriminate|]; unfold step; rewrite Hr; cbn [bind]; exact IHk.
    Qed.
  End Loop.

  Theorem typeset_again : forall n p s l out l', Forall scriptless l -> mlist2hlist E n p s l = Ok (out, l') ->
    Forall scriptless l' /\ mlist2hlist E n p s l' = Ok (out, l').
  Proof.
    induction n as [|n IH]; intros p s l out l' Hs H.
    { destruct l; [|discriminate]. cbn in H. injection H as <- <-. auto. }
    destruct l as [|e r]; [cbn in H; injection H as <- <-; auto|].
    change (mlist2hlist E (Datatypes.S n) p s (e :: r)) with
      (do st <- loop E (mlist2hlist E n default_penalties) n (mkP [] (e :: r) s None);
       do cur <- processBoundary E (p_style st) (currents (p_done st)); do out <- emit E p s None cur;
       Ok (out, map (@it_orig N) (p_done st))) in H.
    apply bind_Ok in H. destruct H as (st' & Hl & H).
    apply bind_Ok in H. destruct H as (cur & Hc & H). apply bind_Ok in H. destruct H as (o & Ho & [= <- <-]).
    destruct (keeps_pace (mlist2hlist E n default_penalties)
      (fun s l out l' G1 G2 => proj2 (IH _ _ _ _ _ G1 G2)) (fun s l out l' G1 G2 => proj1 (IH _ _ _ _ _ G1 G2))
      n (mkP [] (e :: r) s None) st' Hs Logic.I Hl) as (S' & F1 & F2 & F3 & F4).
    cbn [settle p_recent p_done app] in F1. unfold settle in F1. cbn in F1. subst S'. split; [exact F3|].
    unfold twin, settle in F4. cbn [p_recent p_done p_style] in F4.
    destruct (map it_orig (p_done st')) as [|e' r'] eqn:Q; [discriminate|].
    change (mlist2hlist E (Datatypes.S n) p s (e' :: r')) with
      (do st <- loop E (mlist2hlist E n default_penalties) n (mkP [] (e' :: r') s None);
       do cur <- processBoundary E (p_style st) (currents (p_done st)); do out <- emit E p s None cur;
       Ok (out, map (@it_orig N) (p_done st))).
    rewrite F4. cbn [bind p_done p_style]. rewrite Hc. cbn [bind]. rewrite Ho. cbn [bind]. rewrite Q. reflexivity.
  Qed.
End Again.
