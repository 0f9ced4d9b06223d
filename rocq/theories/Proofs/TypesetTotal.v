(** Typesetting terminates on math lists, and not on lists with boxes. *)
From Coq Require Import List ZArith Bool Arith Lia.
From Verif.Base Require Import Result Num.
From Verif.Model Require Import Glue Box MathList MathTypeset.
From Verif.Spec Require Import MathSpec TypesetSpec.
Import ListNotations.

Definition sat {A} (r : result A) (Q : A -> Prop) : Prop :=
  match r with Ok a => Q a | Fuel => False | _ => True end.
Lemma sat_bind {A B} (r : result A) (f : A -> result B) P Q :
  sat r P -> (forall a, P a -> sat (f a) Q) -> sat (bind r f) Q.
Proof. destruct r; cbn; auto. Qed.
Lemma sat_weak {A} (r : result A) (P Q : A -> Prop) : sat r P -> (forall a, P a -> Q a) -> sat r Q.
Proof. destruct r; cbn; auto. Qed.

Section Total.
  Context {N : Num}.
  Variable E : engine N.

  Notation fsz := (opt_nat (field_size (N := N))).
  Notation fok := (opt_bool (math_field (N := N))).
  Definition asz (a : natom N) : nat := fsz (a_nuc a) + fsz (a_sub a) + fsz (a_sup a).
  Definition aok (a : natom N) : Prop :=
    fok (a_nuc a) = true /\ fok (a_sub a) = true /\ fok (a_sup a) = true.
  Lemma size_atom a : node_size (MAtom a) = Datatypes.S (asz a).
  Proof. destruct a; reflexivity. Qed.
  Lemma ok_atom a : math_only (MAtom a) = true <-> aok a.
  Proof.
    destruct a as [t nu sb sp ac li]. unfold aok. cbn [math_only a_nuc a_sub a_sup].
    rewrite !andb_true_iff. tauto.
  Qed.

  Variable k : nat.
  Variable rec : style -> list (mnode N) -> result (list (node N) * list (mnode N)).
  Definition shrunk (l l' : list (mnode N)) : Prop := list_size l' <= list_size l /\ math_list l' = true.
  Hypothesis Hrec : forall s l, list_size l <= k -> math_list l = true ->
    sat (rec s l) (fun r => shrunk l (snd r)).

  Definition fshrunk (f f' : option (mfield N)) : Prop := fsz f' <= fsz f /\ fok f' = true.
  Lemma boxit_sat s f : fsz f <= Datatypes.S k -> fok f = true ->
    sat (boxit E rec s f) (fun r => fshrunk f (snd r)).
  Proof.
    intros Hs Ho. unfold fshrunk. destruct f as [[y|n|l|]|]; cbn [boxit].
    - unfold typeset. destruct (family_ok _); cbn; auto.
    - cbn. auto.
    - change (Datatypes.S (list_size l) <= Datatypes.S k) in Hs.
      apply sat_bind with (P := fun r => shrunk l (snd r)).
      + apply Hrec; [lia|exact Ho].
      + intros r [H1 H2]. cbn [sat snd]. split; [|exact H2].
        change (Datatypes.S (list_size (snd r)) <= Datatypes.S (list_size l)). lia.
    - exact I.
    - cbn. auto.
  Qed.
  Lemma add_space_sat x sp : sat (add_space (N := N) sp x) (fun _ => True).
  Proof. unfold add_space, enlarge. destruct (isCharacterBox x); [exact I|]. destruct x; exact I. Qed.
  Lemma shift_hbox_sat x sp : sat (shift_hbox (N := N) x sp) (fun _ => True).
  Proof. unfold shift_hbox. destruct x; try exact I. destruct k0; exact I. Qed.
  Lemma shift_list_sat x sp : sat (shift_list (N := N) x sp) (fun _ => True).
  Proof. unfold shift_list. destruct x; exact I. Qed.

  Definition ashrunk (a a' : natom N) : Prop := asz a' <= asz a /\ aok a'.
  Lemma own_fok f : fok f = true -> forall (b : bool) (x : node N), fok (if b then Some (FBox x) else f) = true.
  Proof. intros H [] x; [reflexivity|exact H]. Qed.
  Lemma own_fsz f (b : bool) (x : node N) : fsz (if b then Some (FBox x) else f) <= fsz f.
  Proof. destruct b; cbn; lia. Qed.

  Lemma attach_sat s nuc a : asz a <= Datatypes.S k -> aok a -> a_nuc a = Some (FBox nuc) ->
    sat (attachSubSup E rec s nuc a) (ashrunk a).
  Proof.
    intros Hs Ho Hn. destruct a as [t nu sb sp ac li]. unfold asz, aok in *. cbn [a_nuc a_sub a_sup] in *.
    subst nu. destruct Ho as (_ & Hsb & Hsp). cbn [opt_nat field_size] in Hs.
    unfold attachSubSup. cbn [a_sub a_sup].
    destruct (if isCharacterBox nuc then (n0, n0) else _) as [u v].
    destruct sb as [sb|], sp as [sp|].
    - eapply sat_bind; [apply boxit_sat; [cbn [opt_nat] in *; lia|exact Hsp]|].
      intros r [Hr1 Hr2]. eapply sat_bind; [apply add_space_sat|]. intros x _.
      eapply sat_bind with (P := fun q => fsz (snd q) <= fsz (Some sp) /\ fok (snd q) = true).
      { destruct (own_box _); [cbn [sat snd opt_nat field_size]; split; [lia|reflexivity]|].
        eapply sat_weak; [apply boxit_sat; [cbn [opt_nat] in *; lia|exact Hr2]|].
        intros q [Hq1 Hq2]. split; [lia|exact Hq2]. }
      intros q [Hq1 Hq2]. eapply sat_bind; [apply add_space_sat|]. intros y _.
      match goal with |- sat (let (_, _) := ?e in _) _ => destruct e as [u' v'] end.
      eapply sat_bind; [apply shift_list_sat|]. intros x' _.
      cbn [sat]. unfold ashrunk, asz, aok. cbn [changeNucleus setSubSup a_nuc a_sub a_sup].
      pose proof (own_fsz (snd q) (own_box (Some sp)) x').
      pose proof (own_fok (snd q) Hq2 (own_box (Some sp)) x').
      split; [|repeat split; auto]. change (fsz (Some (FBox (hnode (N:=N) (hbox [nuc; vnode _]))))) with 0. cbn [opt_nat field_size] in *. lia.
    - eapply sat_bind; [apply boxit_sat; [cbn [opt_nat] in *; lia|exact Hsb]|].
      intros r [Hr1 Hr2]. eapply sat_bind; [apply add_space_sat|]. intros x _.
      eapply sat_bind; [apply shift_hbox_sat|]. intros x' _.
      cbn [sat]. unfold ashrunk, asz, aok. cbn [changeNucleus setSubSup a_nuc a_sub a_sup].
      pose proof (own_fsz (snd r) (own_box (Some sb)) x').
      pose proof (own_fok (snd r) Hr2 (own_box (Some sb)) x').
      split; [|repeat split; auto]. cbn [opt_nat field_size] in *. lia.
    - eapply sat_bind; [apply boxit_sat; [cbn [opt_nat] in *; lia|exact Hsp]|].
      intros r [Hr1 Hr2]. eapply sat_bind; [apply add_space_sat|]. intros x _.
      eapply sat_bind; [apply shift_hbox_sat|]. intros x' _.
      cbn [sat]. unfold ashrunk, asz, aok. cbn [changeNucleus setSubSup a_nuc a_sub a_sup].
      pose proof (own_fsz (snd r) (own_box (Some sp)) x').
      pose proof (own_fok (snd r) Hr2 (own_box (Some sp)) x').
      split; [|repeat split; auto]. cbn [opt_nat field_size] in *. lia.
    - cbn. unfold ashrunk, asz, aok. cbn. auto.
  Qed.

  Lemma good_nuc t n (a : natom N) : asz a <= Datatypes.S k -> aok a ->
    asz (changeType t (changeNucleus n a)) <= asz a /\ aok (changeType t (changeNucleus n a)).
  Proof. unfold asz, aok. cbn. intros H (?&?&?). repeat split; auto. lia. Qed.

  Lemma rule17_sat s a : asz a <= Datatypes.S k -> aok a -> sat (rule17 E rec s a) (ashrunk a).
  Proof.
    intros Hs Ho. unfold rule17. pose proof Ho as (Hn & ?).
    eapply sat_bind; [apply boxit_sat; [unfold asz in Hs; lia|exact Hn]|].
    intros r _. destruct (good_nuc (a_ty a) (fst r) a Hs Ho) as [H1 H2].
    assert (Eq : changeType (a_ty a) (changeNucleus (fst r) a) = changeNucleus (fst r) a) by reflexivity.
    rewrite Eq in *.
    eapply sat_weak; [apply attach_sat; [lia|exact H2|reflexivity]|].
    intros a' [H3 H4]. split; [lia|exact H4].
  Qed.
  Lemma rule17_retype s t n a : asz a <= Datatypes.S k -> aok a ->
    sat (rule17 E rec s (changeType t (changeNucleus n a))) (ashrunk a).
  Proof.
    intros Hs Ho. destruct (good_nuc t n a Hs Ho) as [H1 H2].
    eapply sat_weak; [apply rule17_sat; [lia|exact H2]|]. intros a' [H3 H4]. split; [lia|exact H4].
  Qed.
  Lemma rule16_sat s n a : asz a <= Datatypes.S k -> aok a ->
    sat (rule16 E rec s (changeNucleus n a)) (ashrunk a).
  Proof. intros Hs Ho. unfold rule16. apply rule17_retype; assumption. Qed.
  Lemma rule16_sat' s a : asz a <= Datatypes.S k -> aok a -> sat (rule16 E rec s a) (ashrunk a).
  Proof. intros Hs Ho. unfold rule16. exact (rule17_sat s (changeType Ord a) Hs Ho). Qed.
  Lemma nuc_le (a : natom N) : fsz (a_nuc a) <= asz a.
  Proof. unfold asz. lia. Qed.
  Lemma sub_le (a : natom N) : fsz (a_sub a) <= asz a.
  Proof. unfold asz. lia. Qed.
  Lemma sup_le (a : natom N) : fsz (a_sup a) <= asz a.
  Proof. unfold asz. lia. Qed.

  Lemma rule8_sat s a : asz a <= Datatypes.S k -> aok a -> sat (rule8 E rec s a) (ashrunk a).
  Proof.
    intros Hs Ho. unfold rule8. pose proof (nuc_le a). pose proof Ho as (Hn & ?).
    eapply sat_bind; [apply boxit_sat; [lia|exact Hn]|]. intros r _. apply rule17_retype; assumption.
  Qed.
  Lemma rule9_sat s a : asz a <= Datatypes.S k -> aok a -> sat (rule9 E rec s a) (ashrunk a).
  Proof.
    intros Hs Ho. unfold rule9. pose proof (nuc_le a). pose proof Ho as (Hn & ?).
    eapply sat_bind; [apply boxit_sat; [lia|exact Hn]|]. intros r _. apply rule16_sat; assumption.
  Qed.
  Lemma rule10_sat s a : asz a <= Datatypes.S k -> aok a -> sat (rule10 E rec s a) (ashrunk a).
  Proof.
    intros Hs Ho. unfold rule10. pose proof (nuc_le a). pose proof Ho as (Hn & ?).
    eapply sat_bind; [apply boxit_sat; [lia|exact Hn]|]. intros r _.
    eapply sat_bind with (P := fun _ => True).
    { unfold vtop, make_vtop. destruct (b_list _); exact I. }
    intros b _. apply rule16_sat; assumption.
  Qed.
  Lemma rule11_sat s a : asz a <= Datatypes.S k -> aok a -> sat (rule11 E rec s a) (ashrunk a).
  Proof.
    intros Hs Ho. unfold rule11. pose proof (nuc_le a). pose proof Ho as (Hn & ?).
    eapply sat_bind; [apply boxit_sat; [lia|exact Hn]|]. intros r _.
    destruct (radical E s (fst r)). apply rule16_sat; assumption.
  Qed.
  Lemma rule12_sat s a : asz a <= Datatypes.S k -> aok a -> sat (rule12 E rec s a) (ashrunk a).
  Proof.
    intros Hs Ho. unfold rule12. pose proof (nuc_le a). pose proof Ho as (Hn & ?).
    eapply sat_bind; [apply boxit_sat; [lia|exact Hn]|]. intros r _.
    eapply sat_bind with (P := fun p => ashrunk a (fst (fst p))).
    { destruct (a_nuc a) as [[y|n|l|]|] eqn:Q; try (cbn; split; [lia|exact Ho]).
      eapply sat_bind; [apply rule17_sat; assumption|]. intros a' [H1 H2].
      destruct (a_nuc a') as [[y'|n|l|]|] eqn:Q'; try exact I.
      cbn. unfold ashrunk, asz, aok in *. destruct H2 as (?&?&?). cbn. repeat split; try assumption. lia. }
    intros [[a' x] delta] [H1 H2]. cbn [fst] in H1, H2.
    destruct (a_acc a'); [|exact I].
    eapply sat_bind with (P := fun _ => True).
    { unfold typeset. destruct (family_ok _); exact I. }
    intros y _. eapply sat_weak; [apply rule16_sat; [lia|exact H2]|].
    intros a'' [H3 H4]. split; [lia|exact H4].
  Qed.
  Lemma rule13_sat s a : asz a <= Datatypes.S k -> aok a -> sat (rule13 E rec s a) (ashrunk a).
  Proof.
    intros Hs Ho. unfold rule13.
    eapply sat_bind with (P := fun p => ashrunk a (fst p)).
    { destruct (a_nuc a) as [[y|n|l|]|] eqn:Q; try exact I; try (cbn; split; [lia|exact Ho]).
      destruct (style_gtb s T); [|cbn; split; [lia|exact Ho]].
      destruct (family_ok _); [|exact I]. cbn.
      apply (good_nuc (a_ty a) (hnode (hbox [e_largeop E y])) a Hs Ho). }
    intros [a' delta] [H1 H2]. cbn [fst] in H1, H2.
    match goal with |- sat (if ?c then _ else _) _ => destruct c end.
    { eapply sat_weak; [apply rule17_sat; [lia|exact H2]|]. intros a'' [H3 H4]. split; [lia|exact H4]. }
    pose proof (nuc_le a'). pose proof (sub_le a'). pose proof (sup_le a').
    destruct H2 as (Hn & Hsb & Hsp).
    eapply sat_bind; [apply boxit_sat; [lia|exact Hsp]|]. intros rx [Hx1 Hx2].
    eapply sat_bind; [apply boxit_sat; [lia|exact Hn]|]. intros ry [Hy1 Hy2].
    eapply sat_bind; [apply boxit_sat; [lia|exact Hsb]|]. intros rz [Hz1 Hz2].
    destruct (widen _ (fst rx)) as [x xn]. destruct (widen _ (fst ry)) as [y yn].
    destruct (widen _ (fst rz)) as [z zn].
    eapply sat_bind with (P := fun r => fsz (snd r) <= fsz (a_sup a') /\ fok (snd r) = true).
    { destruct (a_sup a') as [sp|]; [|cbn; split; [lia|reflexivity]].
      eapply sat_bind; [apply shift_list_sat|]. intros x' _. cbn [sat snd].
      split; [etransitivity; [apply own_fsz|exact Hx1]|apply own_fok; exact Hx2]. }
    intros r [Hr1 Hr2].
    eapply sat_bind with (P := fun q => fsz (snd q) <= fsz (a_sub a') /\ fok (snd q) = true).
    { destruct (a_sub a') as [sb|]; [|cbn; split; [lia|reflexivity]].
      eapply sat_bind; [apply shift_list_sat|]. intros z' _. cbn [sat snd].
      split; [etransitivity; [apply own_fsz|exact Hz1]|apply own_fok; exact Hz2]. }
    intros q [Hq1 Hq2]. cbn [sat]. unfold ashrunk, asz, aok in *.
    cbn [changeNucleus setSubSup a_nuc a_sub a_sup opt_nat field_size opt_bool math_field] in *.
    repeat split; auto. lia.
  Qed.

  Lemma process_atom_sat s first recent a : asz a <= Datatypes.S k -> aok a ->
    sat (process_atom E rec s first recent a) (ashrunk a).
  Proof.
    intros Hs Ho. unfold process_atom, rule5.
    repeat match goal with |- sat (if ?c then _ else _) _ => destruct c end;
      auto using rule17_sat, rule8_sat, rule9_sat, rule10_sat, rule11_sat, rule12_sat, rule13_sat;
      try exact I.
    exact (rule17_sat s (changeType Ord a) Hs Ho).
  Qed.

  Definition nshrunk (n n' : mnode N) : Prop := node_size n' <= node_size n /\ math_only n' = true.
  Lemma boxit_list_sat s l : list_size l <= k -> math_list l = true ->
    sat (boxit_list rec s l) (fun r => shrunk l (snd r)).
  Proof.
    intros Hs Ho. unfold boxit_list. eapply sat_bind; [apply Hrec; assumption|]. intros r H. exact H.
  Qed.
  Lemma rule15_sat s n d : node_size (MFrac n d) <= Datatypes.S k -> math_only (MFrac n d) = true ->
    sat (rule15 E rec s n d) (fun x => nshrunk (MFrac n d) (snd x)).
  Proof.
    intros Hs Ho. change (Datatypes.S (list_size n + list_size d) <= Datatypes.S k) in Hs.
    apply andb_true_iff in Ho. destruct Ho as [O1 O2]. unfold rule15.
    eapply sat_bind; [apply boxit_list_sat; [lia|exact O1]|]. intros rx [Hx1 Hx2].
    eapply sat_bind; [apply boxit_list_sat; [lia|exact O2]|]. intros rz [Hz1 Hz2].
    destruct (neqb _ _); [|exact I]. cbn [sat snd]. split.
    - change (Datatypes.S (list_size (snd rx) + list_size (snd rz)) <= Datatypes.S (list_size n + list_size d)). lia.
    - change (math_list (snd rx) && math_list (snd rz) = true). rewrite Hx2, Hz2. reflexivity.
  Qed.
  Lemma create_good t (n : node N) : asz (create t n) <= Datatypes.S k /\ aok (create t n).
  Proof. unfold asz, aok. cbn. repeat split; lia. Qed.
  Lemma processRoot_sat s n d : node_size (MRoot n d) <= Datatypes.S k -> math_only (MRoot n d) = true ->
    sat (processRoot E rec s n d) (fun x => nshrunk (MRoot n d) (snd x)).
  Proof.
    intros Hs Ho. change (Datatypes.S (list_size n + list_size d) <= Datatypes.S k) in Hs.
    apply andb_true_iff in Ho. destruct Ho as [O1 O2]. unfold processRoot.
    eapply sat_bind; [apply boxit_list_sat; [lia|exact O2]|]. intros rx [Hx1 Hx2].
    destruct (radical E s (hnode (fst rx))) as [y b].
    eapply sat_bind; [apply boxit_list_sat; [lia|exact O1]|]. intros ri [Hi1 Hi2].
    match goal with |- context [create Rad ?x] => destruct (create_good Rad x) as [C1 C2] end.
    eapply sat_bind; [apply rule16_sat'; [exact C1|exact C2]|]. intros a _.
    cbn [sat snd]. split.
    - change (Datatypes.S (list_size (snd ri) + list_size (snd rx)) <= Datatypes.S (list_size n + list_size d)). lia.
    - change (math_list (snd ri) && math_list (snd rx) = true). rewrite Hx2, Hi2. reflexivity.
  Qed.
  Notation csz := (fun c : list (list (mnode N)) => list_sum (map list_size c)).
  Lemma boxit_lists_sat s c : list_sum (map list_size c) <= k -> forallb math_list c = true ->
    sat (boxit_lists rec s c) (fun r => csz (snd r) <= csz c /\ forallb math_list (snd r) = true).
  Proof.
    induction c as [|l r IH]; intros Hs Ho; cbn [boxit_lists]; [cbn; auto|].
    change (list_size l + list_sum (map list_size r) <= k) in Hs.
    apply andb_true_iff in Ho. destruct Ho as [O1 O2].
    eapply sat_bind; [apply boxit_list_sat; [lia|exact O1]|]. intros x [Hx1 Hx2].
    eapply sat_bind; [apply IH; [lia|exact O2]|]. intros y [Hy1 Hy2]. cbn [sat snd]. split.
    - change (list_size (snd x) + list_sum (map list_size (snd y)) <= list_size l + list_sum (map list_size r)). lia.
    - cbn [forallb]. rewrite Hx2, Hy2. reflexivity.
  Qed.
  Lemma processMatrix_sat s c cols : node_size (MMatrix c cols) <= Datatypes.S k -> math_only (MMatrix c cols) = true ->
    sat (processMatrix E rec s c cols) (fun x => nshrunk (MMatrix c cols) (snd x)).
  Proof.
    intros Hs Ho. change (Datatypes.S (list_sum (map list_size c)) <= Datatypes.S k) in Hs.
    change (forallb math_list c = true) in Ho. unfold processMatrix.
    eapply sat_bind; [apply boxit_lists_sat; [lia|exact Ho]|]. intros r [Hr1 Hr2].
    destruct (cols =? 0); [exact I|].
    match goal with |- context [create Vcent ?x] => destruct (create_good Vcent x) as [C1 C2] end.
    eapply sat_bind; [apply rule8_sat; [exact C1|exact C2]|]. intros a _.
    cbn [sat snd]. split; [|exact Hr2].
    change (Datatypes.S (list_sum (map list_size (snd r))) <= Datatypes.S (list_sum (map list_size c))). lia.
  Qed.

  (** * The loop *)
  Definition dsz (st : pstate N) : nat := list_size (map it_orig (p_done st)) + list_size (p_rest st).
  Definition dok (st : pstate N) : Prop :=
    math_list (map it_orig (p_done st)) = true /\ math_list (p_rest st) = true /\ list_size (p_rest st) <= Datatypes.S k.

  Lemma list_size_cons n (l : list (mnode N)) : list_size (n :: l) = node_size n + list_size l.
  Proof. reflexivity. Qed.
  Lemma math_list_cons n (l : list (mnode N)) : math_list (n :: l) = math_only n && math_list l.
  Proof. reflexivity. Qed.
  Lemma size_nil : list_size (N := N) [] = 0.
  Proof. reflexivity. Qed.
  Lemma list_size_app (a b : list (mnode N)) : list_size (a ++ b) = list_size a + list_size b.
  Proof. unfold list_size. rewrite map_app, list_sum_app. reflexivity. Qed.
  Lemma math_list_app (a b : list (mnode N)) : math_list (a ++ b) = math_list a && math_list b.
  Proof. unfold math_list. apply forallb_app. Qed.

  Definition progress (st st' : pstate N) : Prop :=
    dsz st' <= dsz st /\ dok st' /\ length (p_rest st') < length (p_rest st).

  Lemma retype_size t n : node_size (retype t n) = node_size (N := N) n.
  Proof. destruct n; try reflexivity. cbn [retype]. rewrite !size_atom. reflexivity. Qed.
  Lemma retype_ok t n : math_only (retype t n) = math_only (N := N) n.
  Proof. destruct n; try reflexivity. cbn [retype]. destruct a; reflexivity. Qed.
  Lemma update_orig t j (l : list (MathTypeset.item N)) :
    let f i := mkItem (retype t (it_orig i)) (option_map (retype t) (it_cur i)) in
    list_size (map it_orig (update j f l)) = list_size (map it_orig l) /\
    math_list (map it_orig (update j f l)) = math_list (map it_orig l).
  Proof.
    intros f. revert j; induction l as [|i l IH]; intros [|j]; try (split; reflexivity).
    - cbn [update map]. rewrite !list_size_cons, !math_list_cons. unfold f. cbn [it_orig].
      rewrite retype_size, retype_ok. split; reflexivity.
    - cbn [update map]. rewrite !list_size_cons, !math_list_cons. destruct (IH j) as [-> ->]. split; reflexivity.
  Qed.
  Lemma rule6_keeps st a : dsz (rule6 st a) = dsz st /\ p_rest (rule6 st a) = p_rest st /\
    math_list (map it_orig (p_done (rule6 st a))) = math_list (map it_orig (p_done st)).
  Proof.
    unfold rule6. destruct (_ || _)%bool; [|auto].
    destruct (p_recent st) as [j|]; [|auto]. destruct (recent_type st) as [t|]; [|auto].
    destruct (t =? Bin)%Z; [|auto]. unfold dsz. cbn [p_done p_rest].
    destruct (update_orig Ord j (p_done st)) as [-> ->]. auto.
  Qed.

  Lemma advance_progress st o c r e : p_rest st = e :: r -> nshrunk e o -> dok st ->
    progress st (advance st o c r) /\ progress st (advance_atom st o c r).
  Proof.
    intros Hr [H1 H2] (D1 & D2 & D3). rewrite Hr, ?math_list_cons, ?list_size_cons in *.
    apply andb_true_iff in D2. destruct D2 as [D2 D4].
    assert (forall st', map it_orig (p_done st') = map it_orig (p_done st) ++ [o] -> p_rest st' = r -> progress st st').
    { intros st' Q1 Q2. unfold progress, dsz, dok. rewrite Q1, Q2, Hr. rewrite list_size_app, math_list_app, D1.
      rewrite !list_size_cons, math_list_cons, H2, size_nil. cbn [length math_list forallb andb].
      repeat split; try exact D4; lia. }
    split; apply H; try reflexivity; cbn; rewrite map_app; reflexivity.
  Qed.
  Lemma skip_progress st e r s q : p_rest st = e :: r -> dok st ->
    progress st (mkP (p_done st ++ [mkItem e None]) r s q).
  Proof.
    intros Hr (D1 & D2 & D3). rewrite Hr, ?math_list_cons, ?list_size_cons in *.
    apply andb_true_iff in D2. destruct D2 as [D2 D4].
    unfold progress, dsz, dok. cbn [p_done p_rest]. rewrite map_app, Hr. cbn [map it_orig].
    rewrite list_size_app, math_list_app, D1. 
    rewrite !list_size_cons, math_list_cons, D2, size_nil. cbn [length math_list forallb andb]. repeat split; try exact D4; lia.
  Qed.
  Lemma progress_trans a b c : progress a b -> progress b c -> progress a c.
  Proof. unfold progress. intuition lia. Qed.

  Lemma step_sat st : p_rest st <> [] -> dok st -> sat (step E rec st) (progress st).
  Proof.
    intros Hne Hd. unfold step. destruct (p_rest st) as [|e r] eqn:Hr; [congruence|].
    pose proof Hd as (D1 & D2 & D3). rewrite Hr in D2, D3. unfold math_list in D2. cbn [forallb] in D2.
    apply andb_true_iff in D2. destruct D2 as [D2 D4].
    assert (Hsize : node_size e <= Datatypes.S k).
    { rewrite list_size_cons in D3. lia. }
    assert (Hself : nshrunk e e) by (split; [lia|exact D2]).
    destruct e as [a|y|n d|n d|c cols|s|o g|x].
    - pose proof (rule6_keeps st a) as (R1 & R2 & R3).
      assert (Hd' : dok (rule6 st a)).
      { unfold dok. rewrite R2, R3. exact Hd. }
      rewrite size_atom in Hsize.
      eapply sat_bind; [apply process_atom_sat; [lia|apply ok_atom; exact D2]|].
      intros a' [A1 A2]. cbn [sat].
      destruct (advance_progress (rule6 st a) (MAtom a') (MAtom a') r (MAtom a)) as [_ P].
      { rewrite R2. exact Hr. }
      { split; [rewrite !size_atom; lia|apply ok_atom; exact A2]. }
      { exact Hd'. }
      unfold progress in *. rewrite R1, R2 in P. exact P.
    - destruct (advance_progress st (MBoundary y) (MBoundary y) r _ Hr Hself Hd) as [P _]. exact P.
    - eapply sat_bind; [apply rule15_sat; assumption|]. intros x Hx.
      destruct (advance_progress st (snd x) (MAtom (fst x)) r _ Hr Hx Hd) as [P _]. exact P.
    - eapply sat_bind; [apply processRoot_sat; assumption|]. intros x Hx.
      destruct (advance_progress st (snd x) (MAtom (fst x)) r _ Hr Hx Hd) as [_ P]. exact P.
    - eapply sat_bind; [apply processMatrix_sat; assumption|]. intros x Hx.
      destruct (advance_progress st (snd x) (MAtom (fst x)) r _ Hr Hx Hd) as [_ P]. exact P.
    - exact (skip_progress st _ r s (p_recent st) Hr Hd).
    - cbn [sat]. unfold rule2. destruct o.
      + apply (advance_progress st _ _ r _ Hr Hself Hd).
      + apply (advance_progress st _ _ r _ Hr); [split; [cbn; lia|reflexivity]|exact Hd].
      + destruct (advance_progress st (MGlue OrNonscript g) (MGlue OrNonscript g) r _ Hr Hself Hd) as [P _].
        destruct r as [|n r']; [exact P|]. destruct (_ && _); [|exact P].
        eapply progress_trans; [exact P|].
        assert (Hr' : p_rest (advance st (MGlue OrNonscript g) (MGlue OrNonscript g) (n :: r')) = n :: r') by reflexivity.
        destruct P as (_ & Pd & _). apply (skip_progress _ _ _ (p_style st) (p_recent st) Hr' Pd).
    - destruct x; try discriminate D2; apply (advance_progress st _ _ r _ Hr Hself Hd).
  Qed.

  Lemma loop_sat : forall n st, length (p_rest st) <= n -> dok st ->
    sat (loop E rec n st) (fun st' => dsz st' <= dsz st /\ math_list (map it_orig (p_done st')) = true /\ p_rest st' = []).
  Proof.
    induction n as [|n IH]; intros st Hl Hd.
    - unfold loop. destruct (p_rest st) eqn:Hr; [|cbn in Hl; lia]. cbn. destruct Hd as (?&?&?). auto.
    - cbn [loop]. destruct (p_rest st) as [|e r] eqn:Hr.
      + cbn. destruct Hd as (?&?&?). auto.
      + eapply sat_bind; [apply step_sat; [congruence|exact Hd]|].
        intros st' (P1 & P2 & P3). rewrite Hr in P3. cbn in P3, Hl.
        eapply sat_weak; [apply IH; [lia|exact P2]|]. cbn. intros st'' (Q1 & Q2 & Q3). split; [lia|auto].
  Qed.
End Total.

Section Main.
  Context {N : Num}.
  Variable E : engine N.

  Lemma length_le_size (l : list (mnode N)) : length l <= list_size l.
  Proof.
    induction l as [|n l IH]; [cbn; lia|]. rewrite list_size_cons. cbn [length].
    assert (1 <= node_size n) by (destruct n; cbn [node_size]; lia). lia.
  Qed.

  Lemma emit_sat p s : forall l recent, sat (emit E p s recent l) (fun _ => True).
  Proof.
    induction l as [|n l IH]; intros recent; [exact I|].
    assert (Hsp : forall t u, sat (insertSpace E s t u) (fun _ => True)).
    { intros t u. unfold insertSpace, look2.
      repeat match goal with
             | |- context [if ?c then _ else _] => destruct c; cbn; try exact I
             | |- context [match nth_error ?a ?b with _ => _ end] => destruct (nth_error a b); cbn; try exact I
             end. }
    destruct n; cbn [emit]; try (eapply sat_bind; [apply IH|intros; exact I]).
    eapply sat_bind with (P := fun _ => True); [destruct recent; [apply Hsp|exact I]|]. intros sp _.
    eapply sat_bind; [apply IH|intros; exact I].
  Qed.

  Lemma mlist2hlist_sat : forall n p s l, list_size l < n -> math_list l = true ->
    sat (mlist2hlist E n p s l) (fun r => list_size (snd r) <= list_size l /\ math_list (snd r) = true).
  Proof.
    induction n as [|n IH]; intros p s l Hs Ho; [lia|].
    destruct l as [|e l]; [cbn; auto|]. cbn [mlist2hlist].
    set (l' := e :: l) in *.
    assert (Hk : exists k, n = Datatypes.S k).
    { destruct n; [|eauto]. exfalso. pose proof (length_le_size l'). unfold l' in *. cbn [length] in *. lia. }
    destruct Hk as [k ->].
    eapply sat_bind.
    - apply loop_sat with (k := k).
      + intros s' l0 H1 H2. apply IH; [lia|exact H2].
      + cbn [p_rest]. pose proof (length_le_size l'). lia.
      + unfold dok. cbn [p_done p_rest map]. split; [reflexivity|]. split; [exact Ho|lia].
    - intros st (S1 & S2 & S3).
      eapply sat_bind with (P := fun _ => True).
      { unfold processBoundary. destruct (currents (p_done st)) as [|c cs]; [exact I|].
        destruct c; try exact I. destruct (last _ _); exact I. }
      intros cur _. eapply sat_bind; [apply emit_sat|]. intros out _. cbn [sat snd].
      split; [|exact S2]. unfold dsz in S1. cbn [p_done p_rest map] in S1. rewrite size_nil in S1. lia.
  Qed.

  Theorem typeset_terminates : forall n p s l, list_size l < n -> math_list l = true ->
    mlist2hlist E n p s l <> Fuel.
  Proof.
    intros n p s l H1 H2 H3. pose proof (mlist2hlist_sat n p s l H1 H2) as H. rewrite H3 in H. exact H.
  Qed.

  (** the nodes on which the loop does not move *)
  Definition stays (n : mnode N) : Prop :=
    match n with
    | MNode (NPenalty _) | MNode (NRule _) | MNode (NKern _) | MNode (NGlue _) => False
    | MNode _ => True
    | _ => False
    end.
  Lemma step_stays rec st e r : p_rest st = e :: r -> stays e -> step E rec st = Ok st.
  Proof.
    intros Hr Hs. unfold step. rewrite Hr. destruct e; try contradiction. destruct n; try contradiction; reflexivity.
  Qed.
  Lemma step_suffix rec st st' : step E rec st = Ok st' ->
    p_rest st' = p_rest st \/ (exists a, p_rest st = a :: p_rest st') \/
    (exists a b, p_rest st = a :: b :: p_rest st' /\ isGlueOrKern b = true).
  Proof.
    unfold step. destruct (p_rest st) as [|e r] eqn:Hr; [intros [= <-]; auto|].
    destruct e as [a|y|n d|n d|c cols|s|o g|x]; intros H.
    - apply bind_Ok in H. destruct H as (a' & _ & [= <-]). cbn. eauto.
    - injection H as <-. cbn; eauto.
    - apply bind_Ok in H. destruct H as (a' & _ & [= <-]). cbn. eauto.
    - apply bind_Ok in H. destruct H as (a' & _ & [= <-]). cbn. eauto.
    - apply bind_Ok in H. destruct H as (a' & _ & [= <-]). cbn. eauto.
    - injection H as <-. cbn; eauto.
    - injection H as <-. unfold rule2. destruct o; cbn; eauto.
      destruct r as [|b r']; cbn; eauto. destruct (isGlueOrKern b) eqn:Q; rewrite ?andb_false_r; cbn; eauto.
      match goal with |- context [if ?c then _ else _] => destruct c end; cbn; eauto 6.
    - destruct x; injection H as <-; cbn; eauto; rewrite ?Hr; auto.
  Qed.
  Lemma loop_stuck rec : forall n st, Exists stays (p_rest st) -> forall st', loop E rec n st <> Ok st'.
  Proof.
    induction n as [|n IH]; intros st Hx st' H.
    - unfold loop in H. destruct (p_rest st); [inversion Hx|discriminate].
    - cbn [loop] in H. destruct (p_rest st) as [|e r] eqn:Hr; [inversion Hx|].
      apply bind_Ok in H. destruct H as (st1 & H1 & H2).
      revert H2. apply IH. rewrite <- Hr in Hx.
      inversion Hx as [e' r' He Eq|e' r' He Eq]; rewrite Hr in Eq; injection Eq as -> ->.
      + rewrite (step_stays rec st e r Hr He) in H1. injection H1 as <-. exact Hx.
      + destruct (step_suffix rec st st1 H1) as [Q|[(a & Q)|(a & b & Q & Q')]]; rewrite Hr in Q.
        * rewrite Q. constructor 2. exact He.
        * injection Q as _ <-. exact He.
        * injection Q as _ ->. inversion He; subst; [|assumption].
          destruct b; try contradiction; try discriminate. destruct n0; try contradiction; discriminate.
  Qed.
  Theorem typeset_stuck : forall l p s, Exists stays l -> forall n r, mlist2hlist E n p s l <> Ok r.
  Proof.
    intros l p s Hx n r H. destruct n as [|n].
    - destruct l; [inversion Hx|discriminate H].
    - destruct l as [|e l]; [inversion Hx|]. cbn [mlist2hlist] in H.
      apply bind_Ok in H. destruct H as (st & H & _). revert H. apply loop_stuck. exact Hx.
  Qed.
  (** a list that starts with such a node: the loop runs for ever *)
  Theorem typeset_diverges : forall e l p s, stays e -> forall n, mlist2hlist E n p s (e :: l) = Fuel.
  Proof.
    intros e l p s He n. destruct n as [|n]; [reflexivity|]. cbn [mlist2hlist].
    assert (H : forall rec n st r, p_rest st = e :: r -> loop E rec n st = Fuel).
    { intros rec m. induction m as [|m IH]; intros st r Hr; cbn [loop]; rewrite Hr; [reflexivity|].
      rewrite (step_stays rec st e r Hr He). cbn [bind]. apply (IH st r Hr). }
    rewrite (H _ n (mkP [] (e :: l) s None) l eq_refl). reflexivity.
  Qed.
End Main.
