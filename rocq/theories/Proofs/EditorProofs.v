(** Editor sessions, raised boxes, default category codes. *)
From Coq Require Import List Ascii ZArith Bool Arith QArith Qcanon Lia.
From Verif.Base Require Import Result Num.
From Verif.Model Require Import Token Lexer Glue Box Layout.
From Verif.Spec Require Import BoxSpec EditorSpec.
From Verif.Proofs Require Import BoxProofs.
Import ListNotations.

Section Sessions.
  Context {N : Num}.
  Implicit Types (b : lbox N) (es : list (edit N)).

  Lemma hlist_fold es : forall b d, b_list (fst (fold_left hedit es (b, d))) = hlist_after (b_list b) es.
  Proof.
    induction es as [|e es IH]; intros b d; [reflexivity|]. cbn [fold_left].
    unfold hedit at 2. destruct e as [l| |w]; rewrite IH; try reflexivity.
    unfold hbox_rebox_to. destruct (setGlue b _ w _ _) as [b' f] eqn:E. unfold setGlue in E.
    repeat match type of E with (if ?c then _ else _) = _ => destruct c end; injection E as <- <-; reflexivity.
  Qed.
  Lemma only_lists_fold es : Forall only_lists es -> forall b d,
    fold_left hedit es (b, d) = (set_list b (hlist_after (b_list b) es), d).
  Proof.
    induction 1 as [|e es He F IH]; intros b d; [destruct b; reflexivity|].
    destruct e as [l| |]; try easy. cbn [fold_left hedit]. rewrite IH. reflexivity.
  Qed.
  Lemma only_lists_done es : Forall only_lists es -> forall b d, snd (fold_left hedit es (b, d)) = d.
  Proof. intros F b d. now rewrite only_lists_fold. Qed.

  Lemma setGlue_size b b2 x w sh st : snd (setGlue b x w sh st) = snd (setGlue b2 x w sh st).
  Proof.
    unfold setGlue. repeat match goal with |- context [if ?c then _ else _] => destruct c end; reflexivity.
  Qed.
  Lemma rebox_to_metrics b w : b_metrics (fst (hbox_rebox_to b w)) = b_metrics (hbox_to (b_list b) w).
  Proof.
    unfold hbox_to, hbox_rebox_to. cbn [b_list listbox_new].
    pose proof (setGlue_size b (listbox_new (b_list b)) (i_width (hbox_info (b_list b))) w
      (i_shrink (hbox_info (b_list b))) (i_stretch (hbox_info (b_list b)))) as H.
    destruct (setGlue b _ w _ _) as [b' f], (setGlue (listbox_new _) _ w _ _) as [b2 f2]. cbn in *. now subst.
  Qed.

  Lemma session_natural b es : Forall only_lists es ->
    b_metrics (hbox_session b es) = b_metrics (hbox (hlist_after (b_list b) es)) /\
    b_list (hbox_session b es) = hlist_after (b_list b) es.
  Proof. intros F. unfold hbox_session. rewrite only_lists_fold by exact F. split; reflexivity. Qed.

  Lemma session_requested b es1 es2 : Forall only_lists es2 ->
    let l1 := hlist_after (b_list b) es1 in
    (b_metrics (hbox_session b (es1 ++ ERebox :: es2)) = b_metrics (hbox l1) /\
     b_list (hbox_session b (es1 ++ ERebox :: es2)) = hlist_after l1 es2) /\
    forall w, b_metrics (hbox_session b (es1 ++ EReboxTo w :: es2)) = b_metrics (hbox_to l1 w) /\
     b_list (hbox_session b (es1 ++ EReboxTo w :: es2)) = hlist_after l1 es2.
  Proof.
    intros F l1. unfold hbox_session. split; [|intros w]; rewrite fold_left_app; cbn [fold_left].
    - destruct (fold_left hedit es1 (b, false)) as [b1 d] eqn:E.
      assert (L : b_list b1 = l1) by (unfold l1; rewrite <- (hlist_fold es1 b false), E; reflexivity).
      cbn [hedit]. rewrite only_lists_fold by exact F. cbn. rewrite L. auto.
    - destruct (fold_left hedit es1 (b, false)) as [b1 d] eqn:E.
      assert (L : b_list b1 = l1) by (unfold l1; rewrite <- (hlist_fold es1 b false), E; reflexivity).
      cbn [hedit]. rewrite only_lists_fold by exact F. cbn [fst snd b_metrics set_list b_list].
      rewrite rebox_to_metrics, L. split; [reflexivity|]. rewrite <- L. f_equal.
      transitivity (b_list (fst (fold_left hedit [EReboxTo w] (b1, d)))); [reflexivity|].
      now rewrite hlist_fold.
  Qed.

  (** ** Vertical *)
  Lemma vrebox_to_metrics b h : b_metrics (fst (vbox_rebox_to b h)) = b_metrics (vbox_to (b_list b) h).
  Proof.
    unfold vbox_to, vbox_rebox_to. cbn [b_list listbox_new].
    pose proof (setGlue_size b (listbox_new (b_list b)) (i_height (vbox_info (b_list b))) h
      (i_shrink (vbox_info (b_list b))) (i_stretch (vbox_info (b_list b)))) as H.
    destruct (setGlue b _ h _ _) as [b' f], (setGlue (listbox_new _) _ h _ _) as [b2 f2]. cbn in *. now subst.
  Qed.
  Lemma vrebox_to_list b h : b_list (fst (vbox_rebox_to b h)) = b_list b.
  Proof.
    unfold vbox_rebox_to. destruct (setGlue b _ h _ _) as [b' f] eqn:E. unfold setGlue in E.
    repeat match type of E with (if ?c then _ else _) = _ => destruct c end; injection E as <- <-; reflexivity.
  Qed.
  Lemma make_vtop_fields (b1 b2 r : lbox N) : b_metrics b1 = b_metrics b2 -> b_list b1 = b_list b2 -> make_vtop b1 = Ok r ->
    exists r2, make_vtop b2 = Ok r2 /\ b_metrics r = b_metrics r2 /\ b_list r = b_list r2 /\ b_list r = b_list b1.
  Proof.
    unfold make_vtop. intros E1 E2. rewrite E2, E1. destruct (b_list b2) as [|n l] eqn:E; [discriminate|].
    intros [= <-]. eexists. split; [reflexivity|]. cbn. rewrite E2, E. auto.
  Qed.
  Lemma vedit_list (p p' : lbox N * bool) e : vedit p e = Ok p' ->
    b_list (fst p') = match e with VEList l => l | _ => b_list (fst p) end.
  Proof.
    destruct p as [b d]. destruct e as [l| |h| |h|h|]; cbn [vedit fst]; intros H.
    - injection H as <-. reflexivity.
    - injection H as <-. reflexivity.
    - injection H as <-. apply vrebox_to_list.
    - unfold vbox_rebox_vtop, make_vtop in H. cbn in H. destruct (b_list b) eqn:E; [discriminate|]. injection H as <-. exact E.
    - unfold vbox_rebox_vtop_to, make_vtop in H. rewrite vrebox_to_list in H.
      destruct (b_list b) eqn:E; [discriminate|]. injection H as <-. cbn. now rewrite vrebox_to_list.
    - injection H as <-. reflexivity.
    - injection H as <-. reflexivity.
  Qed.
  Lemma vlist_fold (es : list (vedit_op N)) : forall p p', foldM vedit es p = Ok p' ->
    b_list (fst p') = vlist_after (b_list (fst p)) es.
  Proof.
    induction es as [|e es IH]; intros p p' H; [injection H as <-; reflexivity|].
    cbn [foldM] in H. apply bind_Ok in H as (p1 & E & H). apply IH in H. rewrite H.
    apply vedit_list in E. cbn [vlist_after fold_left]. rewrite E. destruct e; reflexivity.
  Qed.
  Lemma no_request_fold (es : list (vedit_op N)) : Forall no_request es -> forall p, exists p',
    foldM vedit es p = Ok p' /\ snd p' = snd p.
  Proof.
    induction 1 as [|e es He F IH]; intros [b d]; [eexists; split; reflexivity|].
    destruct e; try easy; cbn [foldM vedit bind]; destruct (IH (set_list b l, d) ) as (p' & E & D) || destruct (IH (changeHeight b h, d)) as (p' & E & D); eauto.
  Qed.

  Lemma vsession_natural b (es : list (vedit_op N)) : Forall no_request es ->
    exists b', vbox_session b es = Ok b' /\
      b_metrics b' = b_metrics (vbox (vlist_after (b_list b) es)) /\
      b_list b' = vlist_after (b_list b) es.
  Proof.
    intros F. destruct (no_request_fold es F (b, false)) as ([b1 d] & E & D). cbn in D. subst d.
    unfold vbox_session. rewrite E. cbn [bind fst snd]. eexists. split; [reflexivity|].
    apply vlist_fold in E. cbn [fst] in E. rewrite <- E. split; reflexivity.
  Qed.

  Lemma vonly_fold (es : list (vedit_op N)) : Forall vonly_lists es -> forall b d,
    foldM vedit es (b, d) = Ok (set_list b (vlist_after (b_list b) es), d).
  Proof.
    induction 1 as [|e es He F IH]; intros b d; [destruct b; reflexivity|].
    destruct e as [l| | | | | |]; try easy. cbn [foldM vedit bind]. rewrite IH. reflexivity.
  Qed.

  Lemma vsession_requested b (es1 es2 : list (vedit_op N)) e b' b2 : Forall vonly_lists es2 ->
    requested e (vlist_after (b_list b) es1) = Ok b2 ->
    vbox_session b (es1 ++ e :: es2) = Ok b' ->
    b_metrics b' = b_metrics b2 /\ b_list b' = vlist_after (b_list b) (es1 ++ es2).
  Proof.
    intros F R H. unfold vbox_session in H. apply bind_Ok in H as (p & H & H'). injection H' as <-.
    rewrite foldM_app in H. apply bind_Ok in H as ([b1 d] & E1 & H).
    cbn [foldM] in H. apply bind_Ok in H as (p1 & E2 & H). destruct p1 as [b3 d3].
    rewrite (vonly_fold es2 F b3 d3) in H. injection H as <-.
    apply vlist_fold in E1. cbn [fst] in E1. rewrite <- E1 in R.
    assert (L3 := vedit_list _ _ _ E2). cbn [fst] in L3.
    assert (X : d3 = true /\ b_metrics b3 = b_metrics b2 /\ b_list b3 = b_list b1).
    { destruct e as [l| |h| |h|h|]; cbn [requested vedit] in R, E2; try discriminate.
      - injection R as <-. injection E2 as <- <-. auto.
      - injection R as <-. injection E2 as <- <-. split; [reflexivity|]. split; [apply vrebox_to_metrics|apply vrebox_to_list].
      - unfold vbox_rebox_vtop in E2. destruct (make_vtop (vbox_rebox b1)) as [r| | | |] eqn:Q; try discriminate.
        injection E2 as <- <-. destruct (make_vtop_fields (vbox_rebox b1) (vbox (b_list b1)) _ eq_refl eq_refl Q) as (r2 & A & B & C & D).
        unfold vtop in R. rewrite A in R. injection R as <-. auto.
      - unfold vbox_rebox_vtop_to in E2. destruct (make_vtop (fst (vbox_rebox_to b1 h))) as [r| | | |] eqn:Q; try discriminate.
        injection E2 as <- <-.
        assert (LL : b_list (fst (vbox_rebox_to b1 h)) = b_list (vbox_to (b_list b1) h)).
        { rewrite vrebox_to_list. unfold vbox_to. now rewrite vrebox_to_list. }
        destruct (make_vtop_fields _ (vbox_to (b_list b1) h) _ (vrebox_to_metrics b1 h) LL Q) as (r2 & A & B & C & D).
        unfold vtop_to in R. rewrite A in R. injection R as <-. split; [reflexivity|]. split; [exact B|].
        rewrite D. apply vrebox_to_list. }
    destruct X as (-> & Xm & Xl). cbn [fst snd b_metrics b_list set_list]. split; [exact Xm|].
    unfold vlist_after. rewrite fold_left_app. fold (vlist_after (b_list b) es1). rewrite <- E1, <- Xl. reflexivity.
  Qed.
End Sessions.

(** heights set by hand stay when the session is declared done *)
Lemma vsession_done (b : lbox QcNum) es : Forall no_rebox es -> In VEDone es ->
  exists b', vbox_session b es = Ok b' /\
    m_height (b_metrics b') = height_after (m_height (b_metrics b)) es /\
    (m_height (b_metrics b') + m_depth (b_metrics b') = m_height (b_metrics b) + m_depth (b_metrics b))%Qc /\
    m_width (b_metrics b') = m_width (b_metrics b) /\ b_list b' = vlist_after (b_list b) es.
Proof.
  intros F I.
  assert (G : forall es (b : lbox QcNum) d, Forall no_rebox es -> exists b' d',
    foldM vedit es (b, d) = Ok (b', d') /\ (d = true \/ In VEDone es -> d' = true) /\
    m_height (b_metrics b') = height_after (m_height (b_metrics b)) es /\
    (m_height (b_metrics b') + m_depth (b_metrics b') = m_height (b_metrics b) + m_depth (b_metrics b))%Qc /\
    m_width (b_metrics b') = m_width (b_metrics b)).
  { clear. induction es as [|e es IH]; intros b d F.
    - exists b, d. repeat split. intros [->|[]]. reflexivity.
    - apply Forall_cons_iff in F as [Fe F]. destruct e as [l| |h| |h|h|]; try easy; cbn [foldM vedit bind].
      + destruct (IH (set_list b l) d F) as (b' & d' & E & D & R). exists b', d'. split; [exact E|].
        split; [intros [X|[X|X]]; [auto|discriminate|auto]|exact R].
      + destruct (IH (changeHeight b h) d F) as (b' & d' & E & D & R1 & R2 & R3). exists b', d'. split; [exact E|].
        split; [intros [X|[X|X]]; [auto|discriminate|auto]|].
        destruct (changeHeight_lemma b h) as (C1 & C2 & C3). rewrite C1 in R1. rewrite C2 in R2. rewrite C3 in R3.
        split; [exact R1|]. split; [exact R2|exact R3].
      + destruct (IH b true F) as (b' & d' & E & D & R). exists b', d'. split; [exact E|].
        split; [auto|exact R]. }
  destruct (G es b false F) as (b' & d' & E & D & R1 & R2 & R3). rewrite (D (or_intror I)) in E.
  exists b'. unfold vbox_session. rewrite E. cbn [bind fst snd].
  split; [reflexivity|]. apply vlist_fold in E. auto.
Qed.

(** ** Raised and lowered boxes *)
Lemma raise_lemma (b : lbox QcNum) (a : Qc) pre post (x y : Qc) :
  let n := node_of Horizontal (raise b a) in
  item_height n = [m_height (b_metrics b) + a]%Qc /\ item_depth n = [m_depth (b_metrics b) - a]%Qc /\
  snd (hchild (N := QcNum) y x n) = (y - a)%Qc /\
  m_width (b_metrics (hbox (pre ++ n :: post))) = m_width (b_metrics (hbox (pre ++ node_of Horizontal b :: post))).
Proof.
  intros n.
  split; [change ([m_height (b_metrics b) - - a]%Qc = [m_height (b_metrics b) + a]%Qc); f_equal; ring|].
  split; [change ([m_depth (b_metrics b) + - a]%Qc = [m_depth (b_metrics b) - a]%Qc); f_equal|].
  split; [reflexivity|].
  change (i_width (hbox_info (pre ++ n :: post)) = i_width (hbox_info (pre ++ node_of Horizontal b :: post))).
  unfold hbox_info. rewrite !fold_left_app. cbn.
  match goal with |- i_width (fold_left _ _ ?a) = i_width (fold_left _ _ ?b) =>
    assert (E : i_width a = i_width b) by reflexivity; revert E; generalize a b end.
  induction post as [|m post IH]; intros p q E; [exact E|]. cbn. apply IH.
  destruct m; cbn; rewrite ?E; try reflexivity; exact E.
Qed.
Lemma lower_raise {N : Num} (b : lbox N) a : raise b a = lower b (nopp a).
Proof. reflexivity. Qed.

(** ** Category codes *)
Local Open Scope nat_scope.
Lemma all_bytes (P : ascii -> bool) :
  forallb P (map ascii_of_nat (seq 0 256)) = true -> forall c, P c = true.
Proof.
  intros H c. rewrite forallb_forall in H. apply H. rewrite <- (ascii_nat_embedding c). apply in_map.
  apply in_seq. split; [lia|]. apply nat_ascii_bounded.
Qed.
Lemma catcodes_special : Forall (fun p => DefaultCatCodes (fst p) = snd p) special.
Proof. repeat constructor. Qed.
Definition letterb (c : ascii) : bool :=
  ((65 <=? nat_of_ascii c) && (nat_of_ascii c <=? 90)) || ((97 <=? nat_of_ascii c) && (nat_of_ascii c <=? 122)).
Lemma letterb_spec c : letterb c = true <-> letter c.
Proof. unfold letterb, letter. rewrite orb_true_iff, !andb_true_iff, !Nat.leb_le. tauto. Qed.
Lemma catcodes_letter c : DefaultCatCodes c = Letter <-> letter c.
Proof.
  rewrite <- letterb_spec.
  pose proof (all_bytes (fun c => Bool.eqb (cat_eqb (DefaultCatCodes c) Letter) (letterb c)) ltac:(vm_compute; reflexivity) c) as H.
  cbn beta in H. apply eqb_prop in H. rewrite <- H. unfold cat_eqb.
  destruct (DefaultCatCodes c); cbn; split; congruence.
Qed.
Lemma catcodes_other c : (32 <= nat_of_ascii c)%nat -> nat_of_ascii c <> 127%nat -> ~ letter c ->
  ~ In c (map fst special) -> DefaultCatCodes c = Other.
Proof.
  intros H1 H2 H3 H4. rewrite <- letterb_spec in H3.
  pose proof (all_bytes (fun c => (nat_of_ascii c <? 32) || (nat_of_ascii c =? 127) || letterb c ||
    existsb (Ascii.eqb c) (map fst special) || cat_eqb (DefaultCatCodes c) Other) ltac:(vm_compute; reflexivity) c) as H.
  cbn beta in H. rewrite !orb_true_iff, Nat.ltb_lt, Nat.eqb_eq in H.
  destruct H as [[[[H|H]|H]|H]|H]; try lia; try contradiction.
  - exfalso. apply existsb_exists in H as (d & I & E). apply Ascii.eqb_eq in E. subst. contradiction.
  - unfold cat_eqb in H. destruct (DefaultCatCodes c); cbn in H; try discriminate. reflexivity.
Qed.
