From Coq Require Import List QArith Qcanon ZArith Bool Lia.
From Verif.Base Require Import Result Num.
From Verif.Model Require Import Glue Box Layout.
From Verif.Spec Require Import BoxSpec.
From Verif.Proofs Require Import BoxProofs.
Import ListNotations.

Section NodeInd.
  Context {N : Num}.
  Variable P : node N -> Prop.
  Hypothesis Hchar : forall c m, P (NChar c m).
  Hypothesis Hbox : forall m, P (NBox m).
  Hypothesis Hrule : forall m, P (NRule m).
  Hypothesis Hkern : forall x, P (NKern x).
  Hypothesis Hglue : forall g, P (NGlue g).
  Hypothesis Hpen : forall p, P (NPenalty p).
  Hypothesis Hother : P NOther.
  Hypothesis Hlist : forall k m s r o l, Forall P l -> P (NList k m s r o l).
  Fixpoint node_ind2 (n : node N) : P n :=
    match n with
    | NChar c m => Hchar c m
    | NBox m => Hbox m
    | NRule m => Hrule m
    | NKern x => Hkern x
    | NGlue g => Hglue g
    | NPenalty p => Hpen p
    | NOther => Hother
    | NList k m s r o l =>
        Hlist k m s r o l
          ((fix all (l : list (node N)) : Forall P l :=
              match l with [] => Forall_nil _ | c :: r => Forall_cons c (node_ind2 c) (all r) end) l)
    end.
End NodeInd.

Section AnyNum.
  Context {N : Num}.

  (** Position of the next item after [c], for a horizontal and a vertical list. *)
  Definition hnext (ratio : N) (ord : gorder) (x : N) (c : node N) : N :=
    match c with
    | NList _ m _ _ _ _ | NChar _ m | NBox m | NRule m => nadd x (m_width m)
    | NKern k => nadd x k
    | NGlue g => glue_advance ratio ord x g
    | NPenalty _ | NOther => x
    end.
  Definition vnext (ratio : N) (ord : gorder) (y : N) (c : node N) : N :=
    match c with
    | NList _ m _ _ _ _ | NChar _ m | NBox m | NRule m => nadd (nadd y (m_height m)) (m_depth m)
    | NKern k => nadd y k
    | NGlue g => glue_advance ratio ord y g
    | NPenalty _ | NOther => y
    end.
  Section Vis.
    Variable f : node N -> pos N -> list (node N * pos N).
    Fixpoint hvis (ratio : N) (ord : gorder) (y x : N) (l : list (node N)) : list (node N * pos N) :=
      match l with
      | [] => []
      | c :: r => f c (hchild y x c) ++ hvis ratio ord y (hnext ratio ord x c) r
      end.
    Fixpoint vvis (ratio : N) (ord : gorder) (x y : N) (l : list (node N)) : list (node N * pos N) :=
      match l with
      | [] => []
      | c :: r => f c (vchild x y c) ++ vvis ratio ord x (vnext ratio ord y c) r
      end.
  End Vis.

  Fixpoint vis (n : node N) (p : pos N) {struct n} : list (node N * pos N) :=
    match n with
    | NList Horizontal m s ratio ord l =>
        (n, p) ::
        (fix loop (l : list (node N)) (x : N) {struct l} :=
           match l with
           | [] => []
           | c :: r => vis c (hchild (snd p) x c) ++ loop r (hnext ratio ord x c)
           end) l (fst p)
    | NList Vertical m s ratio ord l =>
        (n, p) ::
        (fix loop (l : list (node N)) (y : N) {struct l} :=
           match l with
           | [] => []
           | c :: r => vis c (vchild (fst p) y c) ++ loop r (vnext ratio ord y c)
           end) l (nsub (snd p) (m_height m))
    | NChar _ _ | NBox _ | NRule _ => [(n, p)]
    | _ => []
    end.

  Lemma vis_h m s ratio ord l p :
    vis (NList Horizontal m s ratio ord l) p
    = (NList Horizontal m s ratio ord l, p) :: hvis vis ratio ord (snd p) (fst p) l.
  Proof.
    cbn [vis]. f_equal. generalize (fst p). induction l as [|c l IH]; intros x; [reflexivity|].
    cbn [hvis]. rewrite <- IH. reflexivity.
  Qed.

  Lemma vis_v m s ratio ord l p :
    vis (NList Vertical m s ratio ord l) p
    = (NList Vertical m s ratio ord l, p) :: vvis vis ratio ord (fst p) (nsub (snd p) (m_height m)) l.
  Proof.
    cbn [vis]. f_equal. generalize (nsub (snd p) (m_height m)).
    induction l as [|c l IH]; intros y; [reflexivity|].
    cbn [vvis]. rewrite <- IH. reflexivity.
  Qed.

  (** Full reading is a fold over the visits. *)
  Lemma read_full_vis {S} (r : S -> node N -> pos N -> S) n : forall s p,
    read_full r s n p = fold_left (fun s v => r s (fst v) (snd v)) (vis n p) s.
  Proof.
    induction n as [c m|m|m|x|g|q| |k m sh ratio ord l IH] using node_ind2; intros s p;
      try reflexivity.
    destruct k; [rewrite vis_h|rewrite vis_v]; cbn [fold_left fst snd]; cbn [read_full].
    - generalize (r s (NList Horizontal m sh ratio ord l) p). generalize (fst p).
      induction IH as [|c l Hc Hl IHl]; intros x s0; [reflexivity|].
      cbn [hvis]. rewrite fold_left_app, <- Hc.
      destruct c; cbn [hnext hchild]; rewrite <- IHl; try reflexivity.
    - generalize (r s (NList Vertical m sh ratio ord l) p). generalize (nsub (snd p) (m_height m)).
      induction IH as [|c l Hc Hl IHl]; intros y s0; [reflexivity|].
      cbn [vvis]. rewrite fold_left_app, <- Hc.
      destruct c; cbn [vnext vchild]; rewrite <- IHl; try reflexivity.
  Qed.

  Lemma layout_vis n p : layout n p = vis n p.
  Proof.
    unfold layout. rewrite read_full_vis.
    assert (G : forall (vs : list (node N * pos N)) s,
      fold_left (fun s v => recorder s (fst v) (snd v)) vs s = s ++ vs).
    { induction vs as [|v vs IH]; intros s; simpl; [rewrite app_nil_r; reflexivity|].
      rewrite IH. unfold recorder. rewrite <- app_assoc. destruct v; reflexivity. }
    apply (G _ []).
  Qed.

  Lemma run_until_app {S V} (r : S -> V -> S * bool) vs1 : forall vs2 s,
    run_until r s (vs1 ++ vs2) =
    match run_until r s vs1 with (s, true) => (s, true) | (s, false) => run_until r s vs2 end.
  Proof.
    induction vs1 as [|v vs1 IH]; intros vs2 s; simpl; [reflexivity|].
    destruct (r s v) as [s' []]; [reflexivity|]. apply IH.
  Qed.

  Lemma read_partial_vis {S} (r : S -> node N -> pos N -> S * bool) n : forall s p,
    read_partial r s n p = run_until (fun s v => r s (fst v) (snd v)) s (vis n p).
  Proof.
    induction n as [c m|m|m|x|g|q| |k m sh ratio ord l IH] using node_ind2; intros s p;
      try (simpl; destruct (r s _ p) as [s' []]; reflexivity); try reflexivity.
    destruct k; [rewrite vis_h|rewrite vis_v]; cbn [run_until fst snd]; cbn [read_partial].
    - destruct (r s (NList Horizontal m sh ratio ord l) p) as [s0 []]; [reflexivity|].
      revert s0. generalize (fst p).
      induction IH as [|c l Hc Hl IHl]; intros x s0; [reflexivity|].
      cbn [hvis]. rewrite run_until_app, <- Hc.
      destruct c; cbn [hnext hchild]; try (destruct (read_partial r s0 _ _) as [s1 []] eqn:E; [reflexivity|];
        rewrite <- IHl; reflexivity); cbn [read_partial]; rewrite <- IHl; reflexivity.
    - destruct (r s (NList Vertical m sh ratio ord l) p) as [s0 []]; [reflexivity|].
      revert s0. generalize (nsub (snd p) (m_height m)).
      induction IH as [|c l Hc Hl IHl]; intros y s0; [reflexivity|].
      cbn [vvis]. rewrite run_until_app, <- Hc.
      destruct c; cbn [vnext vchild]; try (destruct (read_partial r s0 _ _) as [s1 []] eqn:E; [reflexivity|];
        rewrite <- IHl; reflexivity); cbn [read_partial]; rewrite <- IHl; reflexivity.
  Qed.

  Lemma vis_boxes n : forall p, map fst (vis n p) = boxes n.
  Proof.
    induction n as [c m|m|m|x|g|q| |k m sh ratio ord l IH] using node_ind2; intros p; try reflexivity.
    destruct k; [rewrite vis_h|rewrite vis_v]; cbn [map fst boxes]; f_equal.
    - generalize (fst p). induction IH as [|c l Hc Hl IHl]; intros x; [reflexivity|].
      cbn [hvis flat_map]. rewrite map_app, Hc, IHl. reflexivity.
    - generalize (nsub (snd p) (m_height m)). induction IH as [|c l Hc Hl IHl]; intros y; [reflexivity|].
      cbn [vvis flat_map]. rewrite map_app, Hc, IHl. reflexivity.
  Qed.

  (** * C29 *)
  Lemma full_reader_lemma {S} (r : S -> node N -> pos N -> S) s n p :
    read_full r s n p = fold_left (fun s v => r s (fst v) (snd v)) (layout n p) s.
  Proof. rewrite layout_vis. apply read_full_vis. Qed.

  Lemma partial_reader_lemma {S} (r : S -> node N -> pos N -> S * bool) s n p :
    read_partial r s n p = run_until (fun s v => r s (fst v) (snd v)) s (layout n p).
  Proof. rewrite layout_vis. apply read_partial_vis. Qed.

  Lemma visits_boxes_lemma (n : node N) p : map fst (layout n p) = boxes n.
  Proof. rewrite layout_vis. apply vis_boxes. Qed.

  Lemma run_until_never {S V} (r : S -> V -> S * bool) vs : forall s,
    (forall s v, snd (r s v) = false) ->
    run_until r s vs = (fold_left (fun s v => fst (r s v)) vs s, false).
  Proof.
    induction vs as [|v vs IH]; intros s H; simpl; [reflexivity|].
    specialize (H s v) as Hv. destruct (r s v) as [s' b] eqn:E. simpl in Hv. subst b.
    rewrite IH by exact H. reflexivity.
  Qed.

  Lemma partial_prefix_lemma (stop : node N -> pos N -> bool) n p :
    let r := read_partial (stopper stop) [] n p in
    (snd r = false /\ fst r = layout n p /\ Forall (fun v => stop (fst v) (snd v) = false) (layout n p)) \/
    (snd r = true /\ exists a v b, layout n p = a ++ v :: b /\ fst r = a ++ [v] /\
       stop (fst v) (snd v) = true /\ Forall (fun v => stop (fst v) (snd v) = false) a).
  Proof.
    cbv zeta. rewrite partial_reader_lemma.
    assert (G : forall vs s0,
      let r := run_until (fun s v => stopper stop s (fst v) (snd v)) s0 vs in
      (snd r = false /\ fst r = s0 ++ vs /\ Forall (fun v => stop (fst v) (snd v) = false) vs) \/
      (snd r = true /\ exists a v b, vs = a ++ v :: b /\ fst r = s0 ++ a ++ [v] /\
       stop (fst v) (snd v) = true /\ Forall (fun v => stop (fst v) (snd v) = false) a)).
    { induction vs as [|[v1 v2] vs IH]; intros s0; cbv zeta.
      - left. simpl. rewrite app_nil_r. auto.
      - assert (R : run_until (fun s v => stopper stop s (fst v) (snd v)) s0 ((v1, v2) :: vs) =
                    if stop v1 v2 then (s0 ++ [(v1, v2)], true)
                    else run_until (fun s v => stopper stop s (fst v) (snd v)) (s0 ++ [(v1, v2)]) vs).
        { cbn [run_until fst snd]. unfold stopper at 1. destruct (stop v1 v2); reflexivity. }
        rewrite R. clear R. destruct (stop v1 v2) eqn:E.
        + right. split; [reflexivity|]. exists [], (v1, v2), vs. simpl. auto.
        + destruct (IH (s0 ++ [(v1, v2)])) as [(A & B & C)|(A & a & v & b & B & C & D & F)].
          * left. split; [exact A|]. split.
            { rewrite B, <- app_assoc. reflexivity. }
            constructor; assumption.
          * right. split; [exact A|]. exists ((v1, v2) :: a), v, b. rewrite B. split; [reflexivity|].
            rewrite <- B. split; [rewrite C, <- app_assoc; reflexivity|]. split; [exact D|]. constructor; assumption. }
    destruct (G (layout n p) []) as [H|H]; [left|right]; exact H.
  Qed.
End AnyNum.

(** * C28: exact arithmetic *)
Local Open Scope Qc_scope.

Lemma glue_advance_set (ratio : Qc) ord (x : Qc) (g : glue QcNum) :
  glue_advance (N := QcNum) ratio ord x g = x + set_glue_size ratio ord g.
Proof.
  unfold glue_advance, set_glue_size. cbn [nltb QcNum nadd nmul]. change (n0 (N := QcNum)) with 0.
  destruct (Qclt_le_dec ratio 0) as [L|L].
  - rewrite (proj2 (Qc_ltb_lt _ _) L). destruct (gorder_eqb _ _); cbn [num QcNum]; ring.
  - rewrite (proj2 (Qc_ltb_ge _ _) L). destruct (gorder_eqb _ _); cbn [num QcNum]; ring.
Qed.

Lemma hnext_set ratio ord (x : Qc) c :
  hnext (N := QcNum) ratio ord x c = x + qsum (set_width ratio ord c).
Proof.
  destruct c; cbn [hnext set_width item_width qsum fold_right nadd QcNum]; rewrite ?glue_advance_set;
    cbn [num QcNum]; ring.
Qed.

Lemma vnext_set ratio ord (x : Qc) c :
  vnext (N := QcNum) ratio ord x c = x + qsum (set_extent ratio ord c).
Proof.
  destruct c; cbn [vnext set_extent item_extent qsum fold_right nadd QcNum]; rewrite ?glue_advance_set;
    cbn [num QcNum]; ring.
Qed.

Lemma hvis_app {N : Num} f ratio ord y l1 : forall x l2,
  hvis (N := N) f ratio ord y x (l1 ++ l2) =
  hvis f ratio ord y x l1 ++ hvis f ratio ord y (fold_left (hnext ratio ord) l1 x) l2.
Proof.
  induction l1 as [|c l1 IH]; intros x l2; [reflexivity|].
  cbn [app hvis fold_left]. rewrite IH, app_assoc. reflexivity.
Qed.
Lemma vvis_app {N : Num} f ratio ord x l1 : forall y l2,
  vvis (N := N) f ratio ord x y (l1 ++ l2) =
  vvis f ratio ord x y l1 ++ vvis f ratio ord x (fold_left (vnext ratio ord) l1 y) l2.
Proof.
  induction l1 as [|c l1 IH]; intros y l2; [reflexivity|].
  cbn [app vvis fold_left]. rewrite IH, app_assoc. reflexivity.
Qed.

Lemma fold_hnext ratio ord l : forall x : Qc,
  fold_left (hnext (N := QcNum) ratio ord) l x = x + qsum (flat_map (set_width ratio ord) l).
Proof.
  induction l as [|c l IH]; intros x; cbn [fold_left flat_map]; [simpl; ring|].
  rewrite IH, hnext_set, qsum_app. cbn [num QcNum]. ring.
Qed.
Lemma fold_vnext ratio ord l : forall x : Qc,
  fold_left (vnext (N := QcNum) ratio ord) l x = x + qsum (flat_map (set_extent ratio ord) l).
Proof.
  induction l as [|c l IH]; intros x; cbn [fold_left flat_map]; [simpl; ring|].
  rewrite IH, vnext_set, qsum_app. cbn [num QcNum]. ring.
Qed.

Definition glue_items (o : gorder) (f : glue QcNum -> Qc) (ord : glue QcNum -> gorder) (l : list (node QcNum)) : Qc :=
  qsum (flat_map (fun n => match n with NGlue g => if gorder_eqb o (ord g) then [f g] else [] | _ => [] end) l).

Lemma set_width_sum ratio ord l :
  qsum (flat_map (set_width ratio ord) l) =
  qsum (flat_map item_width l) + ratio * (if Qclt_le_dec ratio 0 then shrink_total l ord else stretch_total l ord).
Proof.
  unfold shrink_total, stretch_total. rewrite !sum_qsum.
  induction l as [|c l IH].
  - simpl. destruct (Qclt_le_dec ratio 0); ring.
  - cbn [flat_map]. rewrite !qsum_app, IH.
    destruct c; cbn [set_width item_width stretch_of shrink_of];
      try (destruct (Qclt_le_dec ratio 0); cbn [app qsum fold_right num QcNum]; ring).
    unfold set_glue_size. destruct (Qclt_le_dec ratio 0).
    + destruct (gorder_eqb_spec ord (g_shrinkOrder g)) as [->|Hn].
      * destruct (gorder_eqb_spec (g_shrinkOrder g) (g_shrinkOrder g)); [|congruence].
        cbn [app]. cbn [qsum fold_right num QcNum]. ring.
      * destruct (gorder_eqb_spec (g_shrinkOrder g) ord); [congruence|].
        cbn [app qsum fold_right num QcNum]. ring.
    + destruct (gorder_eqb_spec ord (g_stretchOrder g)) as [->|Hn].
      * destruct (gorder_eqb_spec (g_stretchOrder g) (g_stretchOrder g)); [|congruence].
        cbn [app]. cbn [qsum fold_right num QcNum]. ring.
      * destruct (gorder_eqb_spec (g_stretchOrder g) ord); [congruence|].
        cbn [app qsum fold_right num QcNum]. ring.
Qed.

Lemma set_extent_sum ratio ord l :
  qsum (flat_map (set_extent ratio ord) l) =
  qsum (flat_map item_extent l) + ratio * (if Qclt_le_dec ratio 0 then shrink_total l ord else stretch_total l ord).
Proof.
  unfold shrink_total, stretch_total. rewrite !sum_qsum.
  induction l as [|c l IH].
  - simpl. destruct (Qclt_le_dec ratio 0); ring.
  - cbn [flat_map]. rewrite !qsum_app, IH.
    destruct c; cbn [set_extent item_extent stretch_of shrink_of];
      try (destruct (Qclt_le_dec ratio 0); cbn [app qsum fold_right num QcNum]; ring).
    unfold set_glue_size. destruct (Qclt_le_dec ratio 0).
    + destruct (gorder_eqb_spec ord (g_shrinkOrder g)) as [->|Hn].
      * destruct (gorder_eqb_spec (g_shrinkOrder g) (g_shrinkOrder g)); [|congruence].
        cbn [app]. cbn [qsum fold_right num QcNum]. ring.
      * destruct (gorder_eqb_spec (g_shrinkOrder g) ord); [congruence|].
        cbn [app qsum fold_right num QcNum]. ring.
    + destruct (gorder_eqb_spec ord (g_stretchOrder g)) as [->|Hn].
      * destruct (gorder_eqb_spec (g_stretchOrder g) (g_stretchOrder g)); [|congruence].
        cbn [app]. cbn [qsum fold_right num QcNum]. ring.
      * destruct (gorder_eqb_spec (g_stretchOrder g) ord); [congruence|].
        cbn [app qsum fold_right num QcNum]. ring.
Qed.

Lemma qsum_nonneg l : (forall x, In x l -> 0 <= x) -> 0 <= qsum l.
Proof.
  induction l as [|x l IH]; intros H; simpl; [apply Qcle_refl|].
  pose proof (H x (or_introl eq_refl)). pose proof (IH (fun y Hy => H y (or_intror Hy))).
  cbn [qsum fold_right] in *. qclra.
Qed.

Lemma totals_nonneg l o : glue_nonneg l -> 0 <= stretch_total l o /\ 0 <= shrink_total l o.
Proof.
  intros H. unfold stretch_total, shrink_total. rewrite !sum_qsum. split; apply qsum_nonneg.
  - intros x Hx. apply in_flat_map in Hx. destruct Hx as (n & Hn & Hx).
    destruct n; cbn [stretch_of] in Hx; try contradiction. destruct (gorder_eqb _ _); [|contradiction].
    destruct Hx as [<-|[]]. apply (H g Hn).
  - intros x Hx. apply in_flat_map in Hx. destruct Hx as (n & Hn & Hx).
    destruct n; cbn [shrink_of] in Hx; try contradiction. destruct (gorder_eqb _ _); [|contradiction].
    destruct Hx as [<-|[]]. apply (H g Hn).
Qed.

Lemma Qcdiv_sign (a b : Qc) : 0 < b -> (a < 0 -> a / b < 0) /\ (0 <= a -> 0 <= a / b).
Proof.
  intros Hb. assert (Hne : b <> 0) by (intros ->; exact (Qclt_not_le _ _ Hb (Qcle_refl _))).
  assert (E : a = a / b * b) by (field; exact Hne).
  set (q := a / b) in *. clearbody q. subst a. split; intros H.
  - destruct (Qclt_le_dec q 0) as [L|L]; [exact L|exfalso].
    assert (0 <= q * b). { replace 0 with (0 * b) by ring. apply Qcmult_le_compat_r; [exact L|apply Qclt_le_weak; exact Hb]. }
    exact (Qclt_not_le _ _ H H0).
  - destruct (Qclt_le_dec q 0) as [L|L]; [exfalso|exact L].
    assert (q * b < 0). { replace 0 with (0 * b) by ring. apply Qcmult_lt_compat_r; assumption. }
    exact (Qclt_not_le _ _ H0 H).
Qed.

Lemma neg_one_lt : (Q2Qc (inject_Z (-1))) < 0.
Proof. reflexivity. Qed.

(** Once the glue is set, the glue adjustment is exactly the size difference. *)
Lemma glue_set_adjust x w (l : list (node QcNum)) r o f v :
  glue_nonneg l ->
  glue_set x w (stretch_total l) (shrink_total l) r o f v ->
  x + r * (if Qclt_le_dec r 0 then shrink_total l o else stretch_total l o) = f.
Proof.
  intros Hn H.
  assert (POS : forall a : Qc, 0 <= a -> nonzero (N := QcNum) a = true -> 0 < a).
  { intros a Ha Hz. apply nonzero_neq in Hz. destruct (Qcle_lt_or_eq _ _ Ha) as [|E]; [assumption|congruence]. }
  destruct H as [E|o Hx [Ho _]|Hx Hno|o Hx [Ho _] Hc|Hx [Ho _] Hc|Hx Hno].
  - destruct (Qclt_le_dec 0 0); subst; ring.
  - pose proof (POS _ (proj1 (totals_nonneg l o Hn)) Ho) as Hp.
    assert (0 <= w - x) by qclra.
    pose proof (proj2 (Qcdiv_sign (w - x) _ Hp) H) as Hq.
    destruct (Qclt_le_dec _ 0) as [L|L]; [exfalso; exact (Qclt_not_le _ _ L Hq)|].
    rewrite Qcdiv_mul by (apply nonzero_neq; exact Ho). ring.
  - destruct (Qclt_le_dec 0 0); ring.
  - pose proof (POS _ (proj2 (totals_nonneg l o Hn)) Ho) as Hp.
    assert (w - x < 0) by qclra.
    pose proof (proj1 (Qcdiv_sign (w - x) _ Hp) H) as Hq.
    destruct (Qclt_le_dec _ 0) as [L|L]; [|exfalso; exact (Qclt_not_le _ _ Hq L)].
    rewrite Qcdiv_mul by (apply nonzero_neq; exact Ho). ring.
  - destruct (Qclt_le_dec _ 0) as [L|L]; [|exfalso; exact (Qclt_not_le _ _ neg_one_lt L)].
    change (Q2Qc (inject_Z (-1))) with (-(1)). ring.
  - destruct (Qclt_le_dec 0 0); ring.
Qed.

(** The children of an hbox: each starts where the items before it end. *)
Lemma hbox_positions_lemma m s ratio ord l1 c l2 (x y : Qc) :
  exists pre post,
    layout (N := QcNum) (NList Horizontal m s ratio ord (l1 ++ c :: l2)) (x, y) =
      pre ++ layout (N := QcNum) c (hchild (N := QcNum) y (x + qsum (flat_map (set_width ratio ord) l1)) c) ++ post /\
    map fst pre = NList Horizontal m s ratio ord (l1 ++ c :: l2) :: flat_map boxes l1 /\
    map fst post = flat_map boxes l2.
Proof.
  rewrite !layout_vis, vis_h, hvis_app. cbn [hvis fst snd]. rewrite fold_hnext.
  eexists (_ :: _), _. split; [simpl; f_equal; reflexivity|].
  assert (G : forall l x, map fst (hvis vis ratio ord y x l) = flat_map boxes l).
  { induction l as [|d l IH]; intros x0; [reflexivity|]. cbn [hvis flat_map]. rewrite map_app, vis_boxes, IH. reflexivity. }
  split; [cbn [map fst]; f_equal; apply G|apply G].
Qed.

Lemma vbox_positions_lemma m s ratio ord l1 c l2 (x y : Qc) :
  exists pre post,
    layout (N := QcNum) (NList Vertical m s ratio ord (l1 ++ c :: l2)) (x, y) =
      pre ++ layout (N := QcNum) c (vchild (N := QcNum) x (y - m_height m + qsum (flat_map (set_extent ratio ord) l1)) c) ++ post /\
    map fst pre = NList Vertical m s ratio ord (l1 ++ c :: l2) :: flat_map boxes l1 /\
    map fst post = flat_map boxes l2.
Proof.
  rewrite !layout_vis, vis_v, vvis_app. cbn [vvis fst snd]. rewrite fold_vnext.
  eexists (_ :: _), _. split; [simpl; f_equal; reflexivity|].
  assert (G : forall l y, map fst (vvis vis ratio ord x y l) = flat_map boxes l).
  { induction l as [|d l IH]; intros x0; [reflexivity|]. cbn [vvis flat_map]. rewrite map_app, vis_boxes, IH. reflexivity. }
  split; [cbn [map fst]; f_equal; apply G|apply G].
Qed.

Lemma hbox_to_fills_lemma (l : list (node QcNum)) (w : Qc) :
  glue_nonneg l ->
  let b := hbox_to l w in
  qsum (flat_map (set_width (b_ratio b) (b_order b)) l) = m_width (b_metrics b).
Proof.
  intros Hn. cbv zeta. rewrite set_width_sum.
  pose proof (hbox_to_glue_lemma l w) as H. cbv zeta in H.
  destruct (hbox_dims_lemma l) as (Ew & _). rewrite Ew, sum_qsum in H.
  exact (glue_set_adjust _ _ _ _ _ _ _ Hn H).
Qed.

Lemma hbox_fills_lemma (l : list (node QcNum)) :
  let b := hbox l in
  qsum (flat_map (set_width (b_ratio b) (b_order b)) l) = m_width (b_metrics b).
Proof.
  cbv zeta. rewrite set_width_sum.
  destruct (hbox_dims_lemma l) as (Ew & _ & _ & _ & _ & Er). rewrite Ew, sum_qsum, Er.
  change (n0 (N := QcNum)) with 0. cbn [num QcNum]. ring.
Qed.

Lemma vbox_to_fills_lemma (l : list (node QcNum)) (h : Qc) :
  glue_nonneg l ->
  let b := vbox_to l h in
  qsum (flat_map (set_extent (b_ratio b) (b_order b)) l) = m_height (b_metrics b) + m_depth (b_metrics b).
Proof.
  intros Hn. cbv zeta. rewrite set_extent_sum.
  destruct (vbox_to_glue_lemma l h) as (H & Hd & _ & _).
  destruct (vbox_dims_lemma l) as (Ev & _). rewrite sum_qsum in Ev.
  pose proof (glue_set_adjust _ _ _ _ _ _ _ Hn H) as Ha.
  rewrite <- Ha, Hd, <- Ev. ring.
Qed.

Lemma vbox_fills_lemma (l : list (node QcNum)) :
  let b := vbox l in
  qsum (flat_map (set_extent (b_ratio b) (b_order b)) l) = m_height (b_metrics b) + m_depth (b_metrics b).
Proof.
  cbv zeta. rewrite set_extent_sum.
  destruct (vbox_dims_lemma l) as (Ev & _). rewrite sum_qsum in Ev. rewrite Ev.
  change (b_ratio (vbox l)) with 0. ring.
Qed.
