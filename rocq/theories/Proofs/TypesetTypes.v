(** The classes of the atoms after [preprocess] and the layout of the result. *)
From Coq Require Import List ZArith Bool Arith Lia.
From Verif.Base Require Import Result Num.
From Verif.Model Require Import Glue Box MathList MathTypeset.
From Verif.Spec Require Import MathSpec TypesetSpec.
From Verif.Proofs Require Import TypesetEmit.
Import ListNotations.

Definition holds {A} (r : result A) (Q : A -> Prop) : Prop := forall a, r = Ok a -> Q a.
Lemma holds_bind {A B} (r : result A) (f : A -> result B) P Q :
  holds r P -> (forall a, P a -> holds (f a) Q) -> holds (bind r f) Q.
Proof. intros H1 H2 b H. apply bind_Ok in H. destruct H as (a & Ha & Hb). exact (H2 a (H1 a Ha) b Hb). Qed.
Lemma holds_any {A B} (r : result A) (f : A -> result B) Q :
  (forall a, holds (f a) Q) -> holds (bind r f) Q.
Proof. intros H. apply holds_bind with (P := fun _ => True); [intros ? ?; exact I|auto]. Qed.
Lemma holds_ok {A} (a : A) (Q : A -> Prop) : Q a -> holds (Ok a) Q.
Proof. intros H b [= <-]. exact H. Qed.

Section Types.
  Context {N : Num}.
  Variable E : engine N.
  Variable rec : style -> list (mnode N) -> result (list (node N) * list (mnode N)).

  (** class [t], with a box as nucleus *)
  Definition done_atom (t : Z) (a : natom N) : Prop := a_ty a = t /\ exists n, a_nuc a = Some (FBox n).

  Lemma attach_type s nuc a : (exists n, a_nuc a = Some (FBox n)) ->
    holds (attachSubSup E rec s nuc a) (done_atom (a_ty a)).
  Proof.
    intros Hn. unfold attachSubSup.
    destruct (if isCharacterBox nuc then (n0, n0) else _) as [u v].
    destruct (a_sub a) as [sb|], (a_sup a) as [sp|];
      repeat first
        [ apply holds_any; intros ?
        | match goal with |- holds (let (_, _) := ?e in _) _ => destruct e end
        | apply holds_ok ].
    all: split; [reflexivity|]; first [exact Hn | eexists; reflexivity].
  Qed.
  Lemma rule17_type s a : holds (rule17 E rec s a) (done_atom (a_ty a)).
  Proof.
    unfold rule17. apply holds_any. intros r.
    exact (attach_type s (fst r) (changeNucleus (fst r) a) (ex_intro _ _ eq_refl)).
  Qed.
  Lemma rule16_type s a : holds (rule16 E rec s a) (done_atom Ord).
  Proof. unfold rule16. exact (rule17_type s (changeType Ord a)). Qed.
  Lemma rule8_type s a : holds (rule8 E rec s a) (done_atom Ord).
  Proof.
    unfold rule8. apply holds_any. intros r. cbv zeta.
    match goal with |- holds (rule17 _ _ _ (changeType Ord ?x)) _ => exact (rule17_type s (changeType Ord x)) end.
  Qed.
  Lemma rule9_type s a : holds (rule9 E rec s a) (done_atom Ord).
  Proof. unfold rule9. apply holds_any. intros r. apply rule16_type. Qed.
  Lemma rule10_type s a : holds (rule10 E rec s a) (done_atom Ord).
  Proof. unfold rule10. apply holds_any. intros r. apply holds_any. intros b. apply rule16_type. Qed.
  Lemma rule11_type s a : holds (rule11 E rec s a) (done_atom Ord).
  Proof. unfold rule11. apply holds_any. intros r. destruct (radical E s (fst r)). apply rule16_type. Qed.
  Lemma rule12_type s a : holds (rule12 E rec s a) (done_atom Ord).
  Proof.
    unfold rule12. apply holds_any. intros r. apply holds_any. intros [[a' x] delta].
    destruct (a_acc a'); [|intros ? [=]]. apply holds_any. intros y. apply rule16_type.
  Qed.
  Lemma rule13_type s a : holds (rule13 E rec s a) (done_atom (a_ty a)).
  Proof.
    unfold rule13.
    eapply holds_bind with (P := fun p => a_ty (fst p) = a_ty a).
    { destruct (a_nuc a) as [[y|n|l|]|]; try (apply holds_ok; reflexivity); try (intros ? [=]; fail).
      destruct (style_gtb s T); [|apply holds_ok; reflexivity].
      destruct (family_ok _); [apply holds_ok; reflexivity|intros ? [=]]. }
    intros [a' delta] H. cbn [fst] in H. rewrite <- H.
    match goal with |- holds (if ?c then _ else _) _ => destruct c end; [apply rule17_type|].
    apply holds_any; intros rx. apply holds_any; intros ry. apply holds_any; intros rz.
    destruct (widen _ (fst rx)) as [x xn]. destruct (widen _ (fst ry)) as [y yn].
    destruct (widen _ (fst rz)) as [z zn].
    apply holds_any; intros r. apply holds_any; intros q. apply holds_ok.
    split; [reflexivity|eexists; reflexivity].
  Qed.

  Lemma process_atom_type s first recent a : (first = true -> recent = None) ->
    holds (process_atom E rec s first recent a)
          (fun a' => done_atom (plain_class (a_ty a)) a' /\ (0 <= a_ty a <= 12)%Z).
  Proof.
    intros Hf. unfold process_atom, Bin, Rel, Close, Punct, Open, Inner, Vcent, Over, Under, Rad, Acc, Op, Ord.
    set (t := a_ty a).
    assert (K : forall r, (0 <= t <= 12)%Z -> holds r (done_atom (plain_class t)) ->
                holds r (fun a' => done_atom (plain_class t) a' /\ (0 <= t <= 12)%Z)).
    { intros r H1 H2 a' Ha. split; [exact (H2 a' Ha)|exact H1]. }
    assert (P17 : (t <= 7)%Z -> holds (rule17 E rec s a) (done_atom (plain_class t))).
    { intros Ht. unfold plain_class. destruct (Z.ltb_spec 7 t); [lia|]. apply rule17_type. }
    destruct (Z.eqb_spec t 2) as [e|]; [apply K; [lia|]|].
    { unfold rule5. destruct first; [rewrite (Hf eq_refl)|]; cbn [andb]; apply P17; lia. }
    destruct (Z.eqb_spec t 3); [apply K; [lia|apply P17; lia]|].
    destruct (Z.eqb_spec t 5); [apply K; [lia|apply P17; lia]|].
    destruct (Z.eqb_spec t 6); [apply K; [lia|apply P17; lia]|]. cbn [orb].
    destruct (Z.eqb_spec t 4); [apply K; [lia|apply P17; lia]|].
    destruct (Z.eqb_spec t 7); [apply K; [lia|apply P17; lia]|]. cbn [orb].
    assert (PO : forall u, u = t -> (7 < u)%Z -> plain_class t = 0%Z).
    { intros u -> Hu. unfold plain_class. destruct (Z.ltb_spec 7 t); [reflexivity|lia]. }
    destruct (Z.eqb_spec t 12) as [e|]; [apply K; [lia|rewrite (PO 12%Z (eq_sym e)); [apply rule8_type|lia]]|].
    destruct (Z.eqb_spec t 8) as [e|]; [apply K; [lia|rewrite (PO 8%Z (eq_sym e)); [apply rule9_type|lia]]|].
    destruct (Z.eqb_spec t 9) as [e|]; [apply K; [lia|rewrite (PO 9%Z (eq_sym e)); [apply rule10_type|lia]]|].
    destruct (Z.eqb_spec t 11) as [e|]; [apply K; [lia|rewrite (PO 11%Z (eq_sym e)); [apply rule11_type|lia]]|].
    destruct (Z.eqb_spec t 10) as [e|]; [apply K; [lia|rewrite (PO 10%Z (eq_sym e)); [apply rule12_type|lia]]|].
    destruct (Z.eqb_spec t 1) as [e|].
    { apply K; [lia|]. unfold plain_class. destruct (Z.ltb_spec 7 t); [lia|]. apply rule13_type. }
    destruct (Z.eqb_spec t 0); [apply K; [lia|apply P17; lia]|].
    intros ? [=].
  Qed.
  Lemma rule15_type s n d : holds (rule15 E rec s n d) (fun x => done_atom Inner (fst x)).
  Proof.
    unfold rule15. apply holds_any; intros rx. apply holds_any; intros rz. cbv zeta.
    destruct (neqb _ _); [|intros ? [=]]. apply holds_ok. split; [reflexivity|eexists; reflexivity].
  Qed.
  Lemma root_type s n d : holds (processRoot E rec s n d) (fun x => done_atom Ord (fst x)).
  Proof.
    unfold processRoot. apply holds_any; intros rx. destruct (radical E s _) as [y b].
    apply holds_any; intros ri. eapply holds_bind; [apply rule16_type|]. intros a Ha. apply holds_ok. exact Ha.
  Qed.
  Lemma matrix_type s c k : holds (processMatrix E rec s c k) (fun x => done_atom Ord (fst x)).
  Proof.
    unfold processMatrix. apply holds_any; intros r. destruct (k =? 0); [intros ? [=]|].
    eapply holds_bind; [apply rule8_type|]. intros a Ha. apply holds_ok. exact Ha.
  Qed.

  (** * The loop *)
  Definition to_slot (n : mnode N) : slot N :=
    match n with
    | MAtom a => SAtom (a_ty a)
    | MBoundary y => SBoundary y
    | MNode (NGlue _) => SNothing
    | MNode x => SNode x
    | _ => SNothing
    end.
  Definition slots (l : list (MathTypeset.item N)) : list (slot N) := map to_slot (currents l).
  Definition retype_item (i : MathTypeset.item N) : MathTypeset.item N :=
    mkItem (retype Ord (it_orig i)) (option_map (retype Ord) (it_cur i)).
  (** the items as they will be when the rest has been read *)
  Definition will (st : pstate N) : bool :=
    match recent_type st, next_class (p_rest st) with
    | Some t, Some u => (t =? Bin)%Z && closing u
    | _, _ => false
    end.
  Definition settle (st : pstate N) : list (MathTypeset.item N) :=
    match p_recent st with
    | Some k => if will st then update k retype_item (p_done st) else p_done st
    | None => p_done st
    end.
  Definition recent_in (st : pstate N) : Prop :=
    match p_recent st with Some k => k < length (p_done st) | None => True end.
  (** atoms in the list have boxes and classes of the table *)
  Definition boxed (n : mnode N) : Prop :=
    match n with
    | MAtom a => (exists x, a_nuc a = Some (FBox x)) /\ type_ok (a_ty a)
    | MNode NOther => False
    | _ => True
    end.

  Lemma slots_app a b : slots (a ++ b) = slots a ++ slots b.
  Proof. unfold slots, currents. rewrite flat_map_app, map_app. reflexivity. Qed.
  Lemma currents_app a b : currents (N := N) (a ++ b) = currents a ++ currents b.
  Proof. apply flat_map_app. Qed.

  Lemma closing_spec t : closing t = ((t =? Rel) || (t =? Close) || (t =? Punct))%Z.
  Proof.
    unfold Rel, Close, Punct.
    destruct (Z.eqb_spec t 3) as [->|]; [reflexivity|]. destruct (Z.eqb_spec t 5) as [->|]; [reflexivity|].
    destruct (Z.eqb_spec t 6) as [->|]; [reflexivity|]. cbn [orb].
    destruct t as [|p|p]; try reflexivity.
    do 3 (destruct p as [p|p|]; try reflexivity; try congruence).
  Qed.
  Lemma update_length {A} k (f : A -> A) l : length (update k f l) = length l.
  Proof. revert k; induction l as [|x l IH]; intros [|k]; cbn; auto. Qed.
  Lemma update_app {A} k (f : A -> A) l m : k < length l -> update k f (l ++ m) = update k f l ++ m.
  Proof. revert k; induction l as [|x l IH]; intros [|k] H; cbn in *; try lia; [reflexivity|]. rewrite IH; [reflexivity|lia]. Qed.
  Lemma update_end {A} (f : A -> A) l x : update (length l) f (l ++ [x]) = l ++ [f x].
  Proof. induction l as [|y l IH]; cbn; [reflexivity|]. rewrite IH. reflexivity. Qed.

  Lemma rule6_settle st a r : p_rest st = MAtom a :: r -> p_done (rule6 st a) = settle st.
  Proof.
    intros Hr. unfold rule6, settle, will. rewrite Hr. cbn [next_class]. rewrite <- closing_spec.
    destruct (closing (a_ty a)) eqn:Q.
    - destruct (p_recent st) as [k|]; [|destruct (recent_type st); reflexivity].
      destruct (recent_type st) as [t|]; [|reflexivity]. rewrite andb_true_r.
      destruct (t =? Bin)%Z; reflexivity.
    - destruct (p_recent st) as [k|]; [|reflexivity].
      destruct (recent_type st) as [t|]; [|reflexivity]. rewrite andb_false_r. reflexivity.
  Qed.
  Lemma rule6_style st a : p_style (N := N) (rule6 st a) = p_style st.
  Proof.
    unfold rule6. destruct (_ || _)%bool; [|reflexivity].
    destruct (p_recent st) as [k|]; [|reflexivity]. destruct (recent_type st); [|reflexivity].
    destruct (_ =? _)%Z; reflexivity.
  Qed.
  Lemma at_begin_recent st : at_begin (N := N) st = true -> recent_type st = None.
  Proof.
    unfold at_begin, recent_type, recent_atom. intros H. destruct (p_recent st) as [k|]; [|reflexivity].
    destruct (nth_error (p_done st) k) as [i|] eqn:Q; [|reflexivity].
    apply nth_error_In in Q. rewrite forallb_forall in H. specialize (H i Q).
    unfold atom_of. destruct (it_cur i); [discriminate|reflexivity].
  Qed.
  (** an item that is not the recent atom is put at the end *)
  Lemma recent_type_app st x r s : recent_in st ->
    recent_type (mkP (p_done st ++ x) r s (p_recent st)) = recent_type st.
  Proof.
    unfold recent_in, recent_type, recent_atom. cbn [p_recent p_done].
    destruct (p_recent st) as [k|]; [|reflexivity]. intros H. rewrite nth_error_app1; [reflexivity|exact H].
  Qed.
  Lemma settle_pass st x r s : recent_in st -> next_class (p_rest st) = next_class r ->
    settle (mkP (p_done st ++ x) r s (p_recent st)) = settle st ++ x.
  Proof.
    intros H1 H2. unfold settle, will. rewrite (recent_type_app st x r s H1), H2. cbn [p_recent p_done p_rest].
    unfold recent_in in H1. destruct (p_recent st) as [k|]; [|reflexivity].
    match goal with |- (if ?c then _ else _) = _ => destruct c end; [apply update_app; exact H1|reflexivity].
  Qed.
  Lemma recent_in_app st x r s : recent_in st -> recent_in (mkP (p_done st ++ x) r s (p_recent st)).
  Proof.
    unfold recent_in. cbn [p_recent p_done]. destruct (p_recent st) as [k|]; [|auto].
    rewrite app_length. lia.
  Qed.
  (** an atom put at the end *)
  Lemma settle_atom (d : list (MathTypeset.item N)) o a r s :
    settle (mkP (d ++ [mkItem o (Some (MAtom a))]) r s (Some (length d))) =
    d ++ [let i := mkItem o (Some (MAtom a)) in
          match next_class r with
          | Some u => if (a_ty a =? Bin)%Z && closing u then retype_item i else i
          | None => i
          end].
  Proof.
    unfold settle, will, recent_type, recent_atom. cbn [p_recent p_done p_rest].
    rewrite nth_error_app2, Nat.sub_diag by lia. cbn [nth_error atom_of it_cur option_map].
    destruct (next_class r) as [u|]; [|reflexivity].
    destruct (_ && _); [apply update_end|reflexivity].
  Qed.
  Lemma final_class_bin t r : (0 <= t <= 12)%Z ->
    final_class (N := N) t r =
    match next_class r with
    | Some u => if (plain_class t =? Bin)%Z && closing u then 0%Z else plain_class t
    | None => plain_class t
    end.
  Proof.
    intros Ht. unfold final_class.
    assert (C : (t = 0 \/ t = 1 \/ t = 2 \/ t = 3 \/ t = 4 \/ t = 5 \/ t = 6 \/ t = 7 \/ t = 8 \/ t = 9
                \/ t = 10 \/ t = 11 \/ t = 12)%Z) by lia.
    destruct (next_class r) as [u|].
    - repeat (destruct C as [->|C]; [try reflexivity; cbn; destruct (closing u); reflexivity|]).
      subst t. reflexivity.
    - repeat (destruct C as [->|C]; [reflexivity|]). subst t. reflexivity.
  Qed.
  Lemma settle_not_closing st u : next_class (p_rest st) = Some u -> closing u = false -> settle st = p_done st.
  Proof.
    intros H1 H2. unfold settle, will. rewrite H1, H2. destruct (p_recent st); [|reflexivity].
    destruct (recent_type st); [rewrite andb_false_r|]; reflexivity.
  Qed.

  Definition inv (target : list (slot N)) (st : pstate N) : Prop :=
    slots (settle st) ++ expected (p_style st) (p_rest st) = target /\ recent_in st /\
    Forall boxed (currents (p_done st)).

  Lemma boxed_retype l : Forall boxed (currents l) -> forall k, Forall boxed (currents (update k retype_item l)).
  Proof.
    unfold currents. induction l as [|i l IH]; intros H [|k]; cbn in *; try constructor.
    - apply Forall_app in H. destruct H as [H1 H2]. apply Forall_app. split; [|exact H2].
      destruct (it_cur i) as [n|]; [|constructor]. cbn [option_map]. inversion H1; subst. constructor; [|constructor].
      destruct n; cbn in *; try assumption. destruct H3 as [H3 _]. split; [exact H3|]. change (0 <= 0 <= 7)%Z. lia.
    - apply Forall_app in H. destruct H as [H1 H2]. apply Forall_app. split; [exact H1|]. apply IH. exact H2.
  Qed.
  Lemma boxed_settle st : Forall boxed (currents (p_done st)) -> Forall boxed (currents (settle st)).
  Proof.
    intros H. unfold settle. destruct (p_recent st); [|exact H]. destruct (will st); [|exact H].
    apply boxed_retype. exact H.
  Qed.
  Lemma settle_length st : length (settle st) = length (p_done st).
  Proof. unfold settle. destruct (p_recent st); [|reflexivity]. destruct (will st); [apply update_length|reflexivity]. Qed.

  Lemma inv_pass target st x r s :
    inv target st -> next_class (p_rest st) = next_class r -> Forall boxed (currents x) ->
    expected (p_style st) (p_rest st) = slots x ++ expected s r ->
    inv target (mkP (p_done st ++ x) r s (p_recent st)).
  Proof.
    intros (I1 & I2 & I3) Hn Hb He. unfold inv. rewrite (settle_pass st x r s I2 Hn). cbn [p_style p_rest p_done].
    split; [|split].
    - rewrite slots_app, <- app_assoc, <- He. exact I1.
    - apply recent_in_app. exact I2.
    - rewrite currents_app. apply Forall_app. auto.
  Qed.
  Lemma plain_ok t : (0 <= t <= 12)%Z -> type_ok (plain_class t).
  Proof. intros H. unfold plain_class, type_ok. destruct (Z.ltb_spec 7 t); lia. Qed.

  Lemma inv_atom target st t r o a :
    inv target st -> done_atom t a -> type_ok t ->
    expected (p_style st) (p_rest st) =
      SAtom (match next_class r with
             | Some u => if (t =? Bin)%Z && closing u then 0%Z else t
             | None => t
             end) :: expected (p_style st) r ->
    inv target (mkP (settle st ++ [mkItem o (Some (MAtom a))]) r (p_style st) (Some (length (settle st)))).
  Proof.
    intros (I1 & I2 & I3) [Ht Hn] Hok He. unfold inv. rewrite settle_atom. cbn [p_style p_rest p_done].
    split; [|split].
    - rewrite slots_app, <- app_assoc. rewrite <- I1. f_equal. rewrite He.
      match goal with |- _ ++ ?e = _ :: ?e => generalize e; intros rest end. cbv zeta. rewrite Ht.
      destruct (next_class r) as [u|]; [destruct (_ && _)|]; cbn; rewrite ?Ht; reflexivity.
    - unfold recent_in. cbn. rewrite app_length. cbn. lia.
    - rewrite currents_app. apply Forall_app. split; [apply boxed_settle; exact I3|].
      cbn. constructor; [|constructor]. cbn. rewrite Ht. auto.
  Qed.

  Lemma script_style_leb s : style_leb s MathList.S = script_style s.
  Proof. destruct s; reflexivity. Qed.

  Lemma step_inv target st : inv target st -> p_rest st <> [] -> holds (step E rec st) (inv target).
  Proof.
    intros Hi Hne. unfold step. destruct (p_rest st) as [|e r] eqn:Hr; [congruence|].
    destruct e as [a|y|n d|n d|c cols|s|o g|x].
    - set (st' := rule6 st a).
      eapply holds_bind.
      { apply process_atom_type. apply at_begin_recent. }
      intros a' [Ha Hrange]. apply holds_ok. unfold advance_atom, st'.
      rewrite (rule6_settle st a r Hr), rule6_style.
      apply (inv_atom target st (plain_class (a_ty a)) r (MAtom a') a' Hi Ha (plain_ok _ Hrange)).
      rewrite Hr. cbn [expected]. rewrite final_class_bin by exact Hrange. reflexivity.
    - apply holds_ok. apply inv_pass; [exact Hi|rewrite Hr; reflexivity|cbn; repeat constructor|rewrite Hr; reflexivity].
    - eapply holds_bind; [apply rule15_type|]. intros x [H1 [b Hb]]. apply holds_ok.
      apply inv_pass; [exact Hi|rewrite Hr; reflexivity| |].
      + cbn. constructor; [|constructor]. cbn. rewrite H1. split; [eauto|unfold type_ok, Inner; lia].
      + rewrite Hr. cbn. rewrite H1. reflexivity.
    - eapply holds_bind; [apply root_type|]. intros x Hx. apply holds_ok. unfold advance_atom.
      pose proof (settle_not_closing st 0%Z) as Hs. rewrite Hr in Hs. specialize (Hs eq_refl eq_refl). rewrite <- Hs.
      apply (inv_atom target st 0%Z r _ _ Hi Hx ltac:(unfold type_ok; lia)).
      rewrite Hr. cbn. destruct (next_class r); reflexivity.
    - eapply holds_bind; [apply matrix_type|]. intros x Hx. apply holds_ok. unfold advance_atom.
      pose proof (settle_not_closing st 0%Z) as Hs. rewrite Hr in Hs. specialize (Hs eq_refl eq_refl). rewrite <- Hs.
      apply (inv_atom target st 0%Z r _ _ Hi Hx ltac:(unfold type_ok; lia)).
      rewrite Hr. cbn. destruct (next_class r); reflexivity.
    - apply holds_ok. apply inv_pass; [exact Hi|rewrite Hr; reflexivity|cbn; repeat constructor|rewrite Hr; reflexivity].
    - apply holds_ok. unfold rule2. destruct o.
      + apply inv_pass; [exact Hi|rewrite Hr; reflexivity|cbn; repeat constructor|rewrite Hr; reflexivity].
      + apply inv_pass; [exact Hi|rewrite Hr; reflexivity|cbn; repeat constructor|rewrite Hr; reflexivity].
      + destruct r as [|n r'].
        * apply inv_pass; [exact Hi|rewrite Hr; reflexivity|cbn; repeat constructor|rewrite Hr; reflexivity].
        * rewrite script_style_leb. destruct (isGlueOrKern n && script_style (p_style st)) eqn:Q.
          -- unfold advance. cbn [p_done]. rewrite <- app_assoc.
             apply inv_pass; [exact Hi| |cbn; repeat constructor|].
             ++ rewrite Hr. cbn. apply andb_true_iff in Q. destruct Q as [Q _].
                destruct n; try discriminate Q; reflexivity.
             ++ rewrite Hr. cbn [expected]. change (glue_or_kern n) with (isGlueOrKern n). rewrite Q. reflexivity.
          -- apply inv_pass; [exact Hi|rewrite Hr; reflexivity|cbn; repeat constructor|].
             rewrite Hr. cbn [expected]. change (glue_or_kern n) with (isGlueOrKern n). rewrite Q. reflexivity.
    - destruct x; apply holds_ok;
        first [ exact Hi
              | apply inv_pass; [exact Hi|rewrite Hr; reflexivity|cbn; repeat constructor|rewrite Hr; reflexivity] ].
  Qed.
  Lemma loop_inv target : forall n st, inv target st ->
    holds (loop E rec n st) (fun st' => slots (p_done st') = target /\ Forall boxed (currents (p_done st'))).
  Proof.
    assert (D : forall st, inv target st -> p_rest st = [] ->
                slots (p_done st) = target /\ Forall boxed (currents (p_done st))).
    { intros st (I1 & I2 & I3) Hr. split; [|exact I3]. rewrite <- I1, Hr. cbn [expected]. rewrite app_nil_r.
      unfold settle, will. rewrite Hr. cbn. destruct (p_recent st); [|reflexivity].
      destruct (recent_type st); reflexivity. }
    induction n as [|n IH]; intros st Hi; cbn [loop]; destruct (p_rest st) eqn:Hr.
    - apply holds_ok. auto.
    - intros ? [=].
    - apply holds_ok. auto.
    - eapply holds_bind; [apply step_inv; [exact Hi|congruence]|]. exact IH.
  Qed.
End Types.

Section Layout.
  Context {N : Num}.
  Variable E : engine N.

  Lemma map_set_last {A B} (f : A -> B) x l : map f (set_last x l) = set_last (f x) (map f l).
  Proof. induction l as [|y [|z l] IH]; try reflexivity. cbn [set_last map] in *. rewrite IH. reflexivity. Qed.
  Lemma set_last_removelast {A} (x : A) l : l <> [] -> set_last x l = removelast l ++ [x].
  Proof.
    induction l as [|y [|z l] IH]; intros H; [congruence|reflexivity|].
    change (set_last x (y :: z :: l)) with (y :: set_last x (z :: l)). rewrite IH by congruence. reflexivity.
  Qed.
  Lemma boundary_slots s l : Forall boxed l ->
    holds (processBoundary E s l) (fun l' => map to_slot l' = delimited (map to_slot l) /\ Forall boxed l').
  Proof.
    intros Hb. unfold processBoundary. destruct l as [|e r]; [intros ? [=]|].
    destruct e as [a|y|n d|n d|c cols|s'|o g|x];
      try (apply holds_ok; split; [reflexivity|exact Hb]).
    - destruct (last (MBoundary y :: r) (MStyle s)) eqn:Q; try (intros ? [=]; fail). apply holds_ok.
      set (o := MAtom (create Open _)). set (c := MAtom (create Close _)).
      assert (Ho : boxed o) by (split; [eexists; reflexivity|change (0 <= 4 <= 7)%Z; lia]).
      assert (Hc : boxed c) by (split; [eexists; reflexivity|change (0 <= 5 <= 7)%Z; lia]).
      rewrite map_set_last. destruct r as [|e2 r].
      + split; [reflexivity|]. constructor; [exact Hc|constructor].
      + change (set_last (to_slot c) (map to_slot (o :: e2 :: r)))
          with (to_slot o :: set_last (to_slot c) (map to_slot (e2 :: r))).
        change (set_last c (o :: e2 :: r)) with (o :: set_last c (e2 :: r)).
        split.
        * rewrite set_last_removelast by (cbn; congruence). reflexivity.
        * constructor; [exact Ho|]. rewrite set_last_removelast by congruence.
          apply Forall_app. split; [|constructor; [exact Hc|constructor]].
          inversion Hb; subst. apply incl_Forall with (l1 := e2 :: r); [|assumption].
          clear. intros z Hz. revert Hz. generalize (e2 :: r). intros l. induction l as [|q [|q' l] IH]; cbn; [auto|tauto|].
          intros [->|Hz]; [auto|]. right. apply IH. exact Hz.
    - destruct x; apply holds_ok; split; try reflexivity; exact Hb.
  Qed.

  Definition boxes_of (l : list (mnode N)) : list (node N) :=
    flat_map (fun n => match n with MAtom a => [nucleus_of a] | _ => [] end) l.
  Lemma penalty_slots b p t (after : list (mnode N)) : Forall boxed after ->
    penalty_rule b p t after = slot_penalty b p t (map to_slot after).
  Proof.
    intros Hb. unfold penalty_rule, slot_penalty. destruct after as [|n r]; [rewrite andb_false_r; reflexivity|].
    cbn [negb map]. rewrite andb_true_r.
    assert (H1 : next_is_penalty (n :: r) = penalty_next (to_slot n :: map to_slot r)).
    { destruct n as [| | | | | | |x]; try reflexivity. destruct x; reflexivity. }
    assert (H2 : next_is_rel (n :: r) = rel_next (to_slot n :: map to_slot r)).
    { destruct n as [| | | | | | |x]; try reflexivity. destruct x; reflexivity. }
    rewrite H1, H2. reflexivity.
  Qed.
  Lemma pieces_render b p s : forall l before, Forall boxed l ->
    pieces E (penalty_rule b p) s before l =
    render E b p s (last_type before) (map to_slot l) (boxes_of l).
  Proof.
    induction l as [|n r IH]; intros before Hb; [reflexivity|]. inversion Hb; subst.
    cbn [pieces]. rewrite (IH (before ++ [n])) by assumption. rewrite last_type_snoc.
    destruct n as [a|y|x y|x y|x y|x|o g|x]; cbn [piece map to_slot render boxes_of flat_map app]; try reflexivity.
    - rewrite penalty_slots by assumption. rewrite <- !app_assoc. reflexivity.
    - destruct x; try reflexivity. contradiction.
  Qed.

  Theorem typeset_layout : forall n p s l out l', mlist2hlist E n p s l = Ok (out, l') ->
    exists boxes,
      length boxes = length (classes (delimited (expected s l))) /\
      out = render E Op p s None (delimited (expected s l)) boxes.
  Proof.
    intros n p s l out l' H. destruct l as [|e r].
    - exists []. destruct n; injection H as <- <-; split; reflexivity.
    - destruct n as [|n]; [discriminate|]. cbn [mlist2hlist] in H. set (l := e :: r) in *.
      apply bind_Ok in H. destruct H as (st & H1 & H).
      apply bind_Ok in H. destruct H as (cur & H2 & H).
      apply bind_Ok in H. destruct H as (o & H3 & [= -> _]).
      assert (Hi : inv (expected s l) (mkP [] l s None)).
      { split; [reflexivity|]. split; [exact I|constructor]. }
      destruct (loop_inv E _ _ _ _ Hi _ H1) as [L1 L2].
      destruct (boundary_slots _ _ L2 _ H2) as [B1 B2].
      unfold slots in L1. rewrite L1 in B1.
      assert (Ht : Forall type_ok (types cur)).
      { clear -B2. induction B2 as [|n l Hn _ IH]; [constructor|]. unfold types in *. cbn.
        apply Forall_app. split; [|exact IH]. destruct n; try constructor; [apply Hn|constructor]. }
      pose proof (emit_pieces E p s cur [] ltac:(constructor) Ht) as Hp.
      change (last_type []) with (@None Z) in Hp. rewrite Hp in H3. injection H3 as <-.
      exists (boxes_of cur). rewrite <- B1. split.
      + clear. induction cur as [|n l IH]; [reflexivity|]. unfold boxes_of, classes in *. cbn.
        rewrite !app_length, IH. destruct n as [| | | | | | |x]; try reflexivity. destruct x; reflexivity.
      + apply (pieces_render Op p s cur [] B2).
  Qed.
End Layout.
