(** Lines as built, and ordinary paragraphs, exact arithmetic. *)
From Coq Require Import List ZArith Bool QArith Qcanon Arith Lia Sorted.
From Verif.Base Require Import Result Num.
From Verif.Model Require Import Glue Box ListBuilders LineBreaks.
From Verif.Spec Require Import BoxSpec LineBreakSpec.
From Verif.Proofs Require Import BoxProofs LineBreakProofs LineBreakOpt LineBreakCreate LineBreakBound LineBreakQc.
Import ListNotations.

Ltac qcring := match goal with |- @eq _ ?a ?b => change (@eq Qc a b) end; cbn [num QcNum]; ring.

(** * Where the lines built begin *)
Section Begin.
  Context {N : Num}.
  Variable pw : pows N.
  Variable P : para N.
  Variable l : list (node N).
  Notation brk := (breaking l P pw).
  Hypothesis Hno : ~ In NOther l.

  Lemma kept_box i : (i < length l)%nat -> ~ discardable_at l i -> box_at l i.
  Proof.
    intros Hi. unfold discardable_at, box_at. destruct (nth_error l i) as [n|] eqn:E.
    - destruct n; try tauto. intros _. apply Hno. eapply nth_error_In. exact E.
    - apply nth_error_None in E. lia.
  Qed.

  Lemma box_kept i : box_at l i -> ~ discardable_at l i.
  Proof. unfold discardable_at, box_at. destruct (nth_error l i) as [[]|]; tauto. Qed.

  Lemma line_start_box n a e b : line_ok l P pw n (Some a) e b ->
    (exists i, (a <= i < b)%nat /\ ~ discardable_at l i) -> (e < b)%nat /\ box_at l e.
  Proof.
    intros (Hb & Ha & Hlg & _ & Hbar) (i & Hi & Hd).
    pose proof (legal_lt l b Hlg) as Hlt.
    assert (Hbi : box_at l i) by (apply kept_box; [lia|exact Hd]).
    destruct Hb as (H1 & H2 & H3).
    assert (Hei : (e <= i)%nat).
    { destruct (Nat.le_gt_cases e i) as [|L]; [assumption|]. exfalso. apply (H2 i); [lia|exact Hbi]. }
    split; [lia|]. destruct H3 as [H3|[H3|(H3 & H4)]]; [lia|exact H3|].
    exfalso. apply (Hbar e); [simpl; lia|lia|]. split; [apply forced_legal; exact H4|left; exact H4].
  Qed.

  Lemma first_kept a e it : line_begin l (Some a) e -> box_at l e ->
    (a <= it)%nat -> (forall i, (a <= i < it)%nat -> discardable_at l i) ->
    (it < length l)%nat -> ~ discardable_at l it -> it = e.
  Proof.
    intros (H1 & H2 & _) He Ha Hd Hlt Hnd.
    destruct (Nat.lt_trichotomy it e) as [L|[L|L]]; [|exact L|].
    - exfalso. apply (H2 it); [lia|]. apply kept_box; assumption.
    - exfalso. apply (box_kept e He). apply Hd. lia.
  Qed.

  (** The lines, from last to first. *)
  Definition lines_from (bs : list nat) (lines : list (list (node N))) : Prop :=
    forall i b its, nth_error (rev bs) i = Some b -> nth_error lines i = Some its ->
      exists f d e, brk (skipn (length bs - i) bs) f d /\
        line_ok l P pw i (last_break (skipn (length bs - i) bs)) e b /\ its = items l e b /\ (e <= b)%nat.

  Lemma cut_step it bs lines : cut l it bs lines -> forall i b its,
    nth_error bs i = Some b -> nth_error lines i = Some its ->
    (i = 0%nat /\ its = items l it b /\ (it <= b)%nat) \/
    (exists j a it', i = S j /\ nth_error bs j = Some a /\ its = items l it' b /\ (it' <= b)%nat /\ (a <= it')%nat /\
       (forall i, (a <= i < it')%nat -> discardable_at l i) /\ (it' < length l)%nat /\ ~ discardable_at l it').
  Proof.
    induction 1 as [it|it b0 Hle|it b0 it' bs rest H1 H2 H3 H4 H5 H6 Hc IH]; intros i b its Hb Hi.
    - destruct i; discriminate.
    - destruct i as [|[|i]]; try discriminate. simpl in *. inversion Hb; inversion Hi; subst. left. auto.
    - destruct i as [|i]; simpl in *.
      + inversion Hb; inversion Hi; subst. left. auto.
      + right. destruct (IH i b its Hb Hi) as [(-> & -> & Hle)|(j & a & it2 & -> & Ha & -> & Hr)].
        * exists 0%nat, b0, it'. repeat (split; [auto|]). exact H5.
        * exists (S j), a, it2. split; [reflexivity|]. split; [exact Ha|]. split; [reflexivity|]. exact Hr.
  Qed.

  Lemma nonempty_step bs : nonempty_lines l bs -> forall j a b,
    nth_error bs j = Some a -> nth_error bs (S j) = Some b ->
    exists i, (a <= i < b)%nat /\ ~ discardable_at l i.
  Proof.
    induction 1 as [|b0|a0 b0 bs Hx Hn IH]; intros j a b Ha Hb.
    - destruct j; discriminate.
    - destruct j; discriminate.
    - destruct j as [|j]; simpl in *; [inversion Ha; inversion Hb; subst; exact Hx|]. exact (IH j a b Ha Hb).
  Qed.

  Lemma breaking_suffix bs f d : brk bs f d -> forall k, exists f' d', brk (skipn k bs) f' d'.
  Proof.
    induction 1 as [|bs f d e b H IH Hok r d' Hd']; intros k.
    - rewrite skipn_nil. exists Tight, 0%Z. constructor.
    - destruct k as [|k]; [|exact (IH k)]. exists (fitness_of r), d'. cbn [skipn]. econstructor; eassumption.
  Qed.

  Lemma nth_rev (bs : list nat) i b : nth_error (rev bs) i = Some b ->
    exists pre, skipn (length bs - S i) bs = b :: pre /\ pre = skipn (length bs - i) bs /\ length pre = i.
  Proof.
    intros H.
    assert (Hi : (i < length bs)%nat) by (rewrite <- rev_length; apply nth_error_Some; congruence).
    exists (skipn (length bs - i) bs).
    assert (E : skipn (length bs - S i) bs = b :: skipn (length bs - i) bs).
    { clear Hno. revert i b H Hi. induction bs as [|x bs IH]; intros i b H Hi; [simpl in Hi; lia|].
      cbn [length] in *. cbn [rev] in H.
      destruct (Nat.eq_dec i (length bs)) as [->|Hne].
      - rewrite nth_error_app2, rev_length, Nat.sub_diag in H by (rewrite rev_length; lia).
        inversion H; subst. rewrite Nat.sub_diag. replace (S (length bs) - length bs)%nat with 1%nat by lia. reflexivity.
      - rewrite nth_error_app1 in H by (rewrite rev_length; lia).
        specialize (IH i b H ltac:(lia)).
        replace (S (length bs) - S i)%nat with (S (length bs - S i)) by lia.
        replace (S (length bs) - i)%nat with (S (length bs - i)) by lia. exact IH. }
    split; [exact E|]. split; [reflexivity|]. rewrite skipn_length. lia.
  Qed.

  Lemma lines_begin bs f d lines : brk bs f d -> cut l 0 (rev bs) lines -> nonempty_lines l (rev bs) ->
    lines_from bs lines.
  Proof.
    intros Hb Hc Hn i b its Hi Hits.
    destruct (nth_rev bs i b Hi) as (pre & E1 & E2 & E3).
    destruct (breaking_suffix bs f d Hb (length bs - S i)) as (f' & d' & Hb').
    rewrite E1 in Hb'. inversion Hb' as [|bs0 f0 d0 e b0 Hb0 Hok]; subst bs0 b0. rewrite E3 in Hok.
    exists f0, d0, e. rewrite <- E2. split; [exact Hb0|]. split; [exact Hok|].
    destruct (cut_step _ _ _ Hc i b its Hi Hits) as [(-> & -> & Hle)|(j & a & it' & -> & Ha & -> & Hle & G1 & G2 & G3 & G4)].
    - destruct pre; [|discriminate]. destruct Hok as (He & _). simpl in He. subst e. split; [reflexivity|exact Hle].
    - pose proof (nonempty_step _ Hn j a b Ha Hi) as Hx.
      destruct (nth_rev bs j a Ha) as (pre' & F1 & F2 & F3). rewrite E2, F1 in Hok. cbn [last_break] in Hok.
      destruct (line_start_box _ a e b Hok Hx) as (Heb & Hbox).
      destruct Hok as (He & _). rewrite (first_kept a e it' He Hbox G1 G2 G3 G4). split; [reflexivity|lia].
  Qed.
End Begin.

Lemma ratio_10000 (P : para QcNum) : (p_tolerance P <= int_max)%Z -> ~ ratio_ok P QcPows (nz (N := QcNum) 10000).
Proof.
  intros Ht (_ & H). cbn [QcPows pw_within] in H. unfold Qc_within in H.
  apply andb_true_iff in H. destruct H as [_ H].
  replace (Qc_leb (nz (N := QcNum) 10000) 0) with false in H by (vm_compute; reflexivity).
  cbn [orb] in H. apply Qc_leb_le in H. unfold Qcle in H. rewrite !this_mult, this_lit in H.
  assert (E : (this (nz (N := QcNum) 10000) == 10000)%Q) by reflexivity. rewrite E in H.
  rewrite this_lit in H. unfold Qle in H. cbn in H. unfold int_max in Ht. lia.
Qed.

Lemma diff_lt (W x len w : Qc) : (W - x = len - w)%Qc -> (w < len)%Qc -> (x < W)%Qc.
Proof. intros. qclra. Qed.
Lemma diff_gt (W x len w : Qc) : (W - x = len - w)%Qc -> (len < w)%Qc -> (W < x)%Qc.
Proof. intros. qclra. Qed.
Lemma diff_eq (W x len w : Qc) : (W - x = len - w)%Qc -> (len <= w)%Qc -> (w <= len)%Qc -> x = W.
Proof. intros. qclra. Qed.

Section Safe.
  Variable l : list (node QcNum).
  Variable P : para QcNum.

  (** * C42 *)
  Lemma finite_none (xs : list (node QcNum)) o : Forall finite_glue xs -> o <> Normal ->
    flat_map (stretch_of o) xs = [] /\ flat_map (shrink_of o) xs = [].
  Proof.
    intros H Ho. induction H as [|x xs Hx H IH]; [auto|]. destruct IH as (IH1 & IH2).
    cbn [flat_map]. rewrite IH1, IH2. destruct x; try (split; reflexivity).
    cbn [stretch_of shrink_of] in *. destruct Hx as (-> & ->). destruct o; [congruence| | |]; split; reflexivity.
  Qed.

  Lemma sk_sum (o : gorder) (f : gorder -> node QcNum -> list Qc) :
    sum (N := QcNum) (flat_map (f o) (skip_list P)) =
      (qsum (f o (NGlue (p_leftskip P))) + qsum (f o (NGlue (p_rightskip P))))%Qc.
  Proof.
    rewrite sum_qsum. unfold skip_list. cbn [flat_map]. rewrite !qsum_app. change (qsum []) with 0%Qc. qcring.
  Qed.

  Lemma hang_kerns n its (f : node QcNum -> list Qc) : p_parshape P = [] ->
    (forall x, f (NKern x) = []) ->
    qsum (flat_map f (line_list P n its)) =
      (qsum (f (NGlue (p_leftskip P))) + qsum (flat_map f its) + qsum (f (NGlue (p_rightskip P))))%Qc.
  Proof.
    intros Hp Hk. unfold line_list. rewrite Hp.
    assert (E : qsum (flat_map f (NGlue (p_leftskip P) :: its ++ [NGlue (p_rightskip P)])) =
      (qsum (f (NGlue (p_leftskip P))) + qsum (flat_map f its) + qsum (f (NGlue (p_rightskip P))))%Qc).
    { cbn [flat_map]. rewrite flat_map_app, !qsum_app. cbn [flat_map]. rewrite app_nil_r. qcring. }
    destruct (_ && _); [|exact E].
    rewrite !flat_map_app, !qsum_app, E.
    destruct (nltb n0 (p_hangindent P)), (nltb (p_hangindent P) n0); cbn [flat_map]; rewrite ?Hk; cbn [app];
      change (qsum []) with 0%Qc; qcring.
  Qed.

  Lemma hang_width n its : p_parshape P = [] ->
    (line_width P n - qsum (flat_map item_width (line_list P n its)) =
     linelength P n - (g_space (p_leftskip P) + qsum (flat_map item_width its) + g_space (p_rightskip P)))%Qc.
  Proof.
    intros Hp. unfold line_width, line_list. rewrite Hp.
    assert (E : qsum (flat_map (item_width (N := QcNum)) (NGlue (p_leftskip P) :: its ++ [NGlue (p_rightskip P)])) =
      (g_space (p_leftskip P) + qsum (flat_map item_width its) + g_space (p_rightskip P))%Qc).
    { cbn [flat_map item_width]. rewrite flat_map_app, !qsum_app. cbn [flat_map item_width app].
      change (qsum [g_space (p_leftskip P)]) with (g_space (p_leftskip P) + 0)%Qc.
      change (qsum [g_space (p_rightskip P)]) with (g_space (p_rightskip P) + 0)%Qc. qcring. }
    destruct (nonzero (p_hangindent P) && hangindentAppliesToLine P n) eqn:Eh; [|rewrite E; reflexivity].
    apply andb_true_iff in Eh. destruct Eh as [Eh _]. apply nonzero_neq in Eh.
    rewrite !flat_map_app, !qsum_app, E. unfold nabs. cbn [nltb QcNum].
    change (n0 (N := QcNum)) with 0%Qc.
    destruct (Qc_ltb 0 (p_hangindent P)) eqn:E1, (Qc_ltb (p_hangindent P) 0) eqn:E2; qc_bool.
    - exfalso. exact (Qclt_not_le _ _ E1 (Qclt_le_weak _ _ E2)).
    - cbn [flat_map item_width app nadd QcNum]. change (qsum [p_hangindent P]) with (p_hangindent P + 0)%Qc.
      change (qsum []) with 0%Qc. qcring.
    - cbn [flat_map item_width app nadd QcNum]. change (qsum []) with 0%Qc.
      change (qsum [nopp (p_hangindent P)]) with (nopp (p_hangindent P) + 0)%Qc. qcring.
    - exfalso. apply Eh. apply Qcle_antisym; assumption.
  Qed.

  Lemma ratio_match n e b : (e <= b)%nat -> p_parshape P = [] ->
    g_space (p_leftskip P) = 0%Qc -> g_space (p_rightskip P) = 0%Qc ->
    finite_glue (NGlue (p_leftskip P)) -> finite_glue (NGlue (p_rightskip P)) ->
    Forall finite_glue (items l e b) -> (p_tolerance P <= int_max)%Z ->
    ratio_ok P QcPows (line_ratio l P n e b) ->
    b_ratio (createLine P n (items l e b)) = line_ratio l P n e b /\
    b_order (createLine P n (items l e b)) = Normal.
  Proof.
    intros Heb Hp Hls Hrs Fl Fr Fi Ht Hok.
    set (its := items l e b) in *.
    unfold createLine. set (L := line_list P n its). set (W := line_width P n).
    pose proof (hbox_to_glue_lemma L W) as G. cbv zeta in G.
    destruct (hbox_dims_lemma L) as (Hw & _). rewrite Hw, sum_qsum in G.
    set (x := qsum (flat_map (item_width (N := QcNum)) L)) in *.
    assert (Hd : (W - x = linelength P n - qsum (flat_map (item_width (N := QcNum)) its))%Qc).
    { unfold W, x, L. rewrite hang_width by exact Hp. rewrite Hls, Hrs. qcring. }
    assert (Hst : forall o, stretch_total L o = (stretch_upto l b o + stretch_total (skip_list P) o - stretch_upto l e o)%Qc).
    { intros o. unfold stretch_total at 1. rewrite sum_qsum. unfold L. rewrite hang_kerns by (auto; reflexivity).
      rewrite (stretch_diff l o e b Heb). unfold stretch_total. rewrite sk_sum. fold its. qcring. }
    assert (Hsh : forall o, shrink_total L o = (shrink_upto l b o + shrink_total (skip_list P) o - shrink_upto l e o)%Qc).
    { intros o. unfold shrink_total at 1. rewrite sum_qsum. unfold L. rewrite hang_kerns by (auto; reflexivity).
      rewrite (shrink_diff l o e b Heb). unfold shrink_total. rewrite sk_sum. fold its. qcring. }
    assert (FL : Forall finite_glue L).
    { unfold L, line_list. rewrite Hp.
      assert (Forall finite_glue (NGlue (p_leftskip P) :: its ++ [NGlue (p_rightskip P)])).
      { constructor; [exact Fl|]. apply Forall_app. split; [exact Fi|]. constructor; [exact Fr|constructor]. }
      destruct (_ && _); [|exact H]. apply Forall_app. split; [destruct (nltb _ _); repeat constructor|].
      apply Forall_app. split; [exact H|]. destruct (nltb _ _); repeat constructor. }
    assert (Z1 : forall o, o <> Normal -> stretch_total L o = 0%Qc /\ shrink_total L o = 0%Qc).
    { intros o Ho. unfold stretch_total, shrink_total. destruct (finite_none L o FL Ho) as (-> & ->). auto. }
    assert (Hav1 : available (N := QcNum) (stretch_upto l) (stretch_total (skip_list P)) e b = Some (stretch_total L Normal)).
    { unfold available. cbn [nadd nsub QcNum]. rewrite <- !Hst.
      rewrite (proj1 (Z1 Fil ltac:(discriminate))), (proj1 (Z1 Fill ltac:(discriminate))). reflexivity. }
    assert (Hav2 : available (N := QcNum) (shrink_upto l) (shrink_total (skip_list P)) e b = Some (shrink_total L Normal)).
    { unfold available. cbn [nadd nsub QcNum]. rewrite <- !Hsh.
      rewrite (proj2 (Z1 Fil ltac:(discriminate))), (proj2 (Z1 Fill ltac:(discriminate))). reflexivity. }
    unfold line_ratio in *. cbn [nsub nltb QcNum] in *.
    assert (Ew : (width_upto l b - width_upto l e - g_space (p_leftskip P) - g_space (p_rightskip P) =
                  qsum (flat_map (item_width (N := QcNum)) its))%Qc).
    { rewrite Hls, Hrs, (width_diff l e b Heb). fold its. qcring. }
    change (num QcNum) with Qc in *.
    rewrite Ew in Hok |- *. clear Ew.
    match type of Hd with _ = (_ - ?w0)%Qc => set (w := w0) in * end.
    set (len := linelength P n) in *.
    change (fun o : gorder => stretch_total (skip_list P) o) with (stretch_total (skip_list P)) in *.
    rewrite Hav1, Hav2 in Hok |- *. unfold ratio_of in *. cbn [nltb nsub ndiv QcNum] in *. change (n0 (N := QcNum)) with 0%Qc in *.
    rewrite <- Hd in Hok |- *.
    assert (top_normal : forall f o, (forall o, o <> Normal -> f o = 0%Qc) -> top_order (N := QcNum) f o -> o = Normal).
    { intros f o Hz (Hnz & _). destruct o; [reflexivity| | |]; rewrite Hz in Hnz by discriminate; vm_compute in Hnz; discriminate. }
    revert G. generalize (snd (hbox_rebox_to (listbox_new L) W)), (m_width (b_metrics (hbox_to L W))).
    generalize (b_ratio (hbox_to L W)), (b_order (hbox_to L W)). intros rr oo ff vv G.
    clearbody x W w len.
    destruct (Qc_ltb w len) eqn:E1.
    - assert (Hx : (x < W)%Qc) by (qc_bool; exact (diff_lt _ _ _ _ Hd E1)).
      destruct (Qc_ltb 0 (stretch_total L Normal)) eqn:Eg; [|exfalso; exact (ratio_10000 P Ht Hok)].
      apply Qc_ltb_lt in Eg.
      destruct G as [Hn|o Ho Hto|Hlt Hng|o Ho Hto Hc|Ho Hto Hc|Ho Hng].
      + exfalso. clear - Hx Hn. qclra.
      + assert (o = Normal) by (apply (top_normal _ o (fun o Ho => proj1 (Z1 o Ho)) Hto)). subst o.
        split; reflexivity.
      + exfalso. specialize (Hng Normal). apply nonzero_eq in Hng. rewrite Hng in Eg. exact (Qclt_not_le _ _ Eg (Qcle_refl _)).
      + exfalso. clear - Hx Ho. qclra.
      + exfalso. clear - Hx Ho. qclra.
      + exfalso. clear - Hx Ho. qclra.
    - destruct (Qc_ltb len w) eqn:E2.
      + assert (Hx : (W < x)%Qc) by (qc_bool; exact (diff_gt _ _ _ _ Hd E2)).
        destruct (Qc_ltb 0 (shrink_total L Normal)) eqn:Eg; [|exfalso; exact (ratio_10000 P Ht Hok)].
        apply Qc_ltb_lt in Eg.
        destruct G as [Hn|o Ho Hto|Hlt Hng|o Ho Hto Hc|Ho Hto Hc|Ho Hng].
        * exfalso. clear - Hx Hn. qclra.
        * exfalso. clear - Hx Ho. qclra.
        * exfalso. clear - Hx Hlt. qclra.
        * assert (o = Normal) by (apply (top_normal _ o (fun o Ho => proj2 (Z1 o Ho)) Hto)). subst o.
          split; reflexivity.
        * exfalso. destruct Hok as (Hok & _). cbn [nleb QcNum] in Hok. apply Qc_leb_le in Hok.
          exact (Qclt_not_le _ _ Hc Hok).
        * exfalso. specialize (Hng Normal). apply nonzero_eq in Hng. rewrite Hng in Eg. exact (Qclt_not_le _ _ Eg (Qcle_refl _)).
      + assert (Hx : x = W) by (qc_bool; exact (diff_eq _ _ _ _ Hd E1 E2)).
        destruct G as [Hn|o Ho Hto|Hlt Hng|o Ho Hto Hc|Ho Hto Hc|Ho Hng].
        * split; reflexivity.
        * exfalso. clear - Hx Ho. qclra.
        * exfalso. clear - Hx Hlt. qclra.
        * exfalso. clear - Hx Ho. qclra.
        * exfalso. clear - Hx Ho. qclra.
        * exfalso. clear - Hx Ho. qclra.
  Qed.
End Safe.

(** * C43: ordinary paragraphs *)
Lemma nonempty_snoc {N : Num} (l : list (node N)) xs : forall a b, nonempty_lines l (xs ++ [a]) ->
  (exists i, (a <= i < b)%nat /\ ~ discardable_at l i) -> nonempty_lines l ((xs ++ [a]) ++ [b]).
Proof.
  induction xs as [|x xs IH]; intros a b H Hx.
  - cbn. constructor; [exact Hx|constructor].
  - destruct xs as [|y xs].
    + cbn in *. inversion H; subst. constructor; [assumption|]. constructor; [exact Hx|constructor].
    + cbn [app] in *. inversion H; subst. constructor; [assumption|]. exact (IH a b H4 Hx).
Qed.

Section Ordinary.
  Variable pre : list (node QcNum).
  Variable pf : glue QcNum.
  Variable P : para QcNum.
  Notation l := (pre ++ [NPenalty 10000; NGlue pf; NPenalty (-10000)]).
  Notation k := (length pre + 2)%nat.
  Hypothesis Hord : Forall ordinary pre.
  Hypothesis Hlen : forall n, (0 < linelength P n)%Qc.
  Hypothesis Hls : (0 <= g_space (p_leftskip P))%Qc.
  Hypothesis Hrs : (0 <= g_space (p_rightskip P))%Qc.
  Hypothesis Hlst : g_stretch (p_leftskip P) = 0%Qc.
  Hypothesis Hrst : g_stretch (p_rightskip P) = 0%Qc.
  Hypothesis Htol : (p_tolerance P <= int_max)%Z.

  Lemma l_length : length l = S k.
  Proof. rewrite app_length. cbn. lia. Qed.

  Lemma l_forced : forced_at l k.
  Proof.
    unfold forced_at. rewrite nth_error_app2 by lia.
    replace (length pre + 2 - length pre)%nat with 2%nat by lia. cbn. lia.
  Qed.

  Lemma l_no_other : ~ In NOther l.
  Proof.
    intros H. apply in_app_or in H. destruct H as [H|H].
    - rewrite Forall_forall in Hord. exact (Hord _ H).
    - cbn in H. intuition discriminate.
  Qed.

  Lemma ord_at i n : (i <= length pre)%nat -> nth_error l i = Some n -> ordinary n.
  Proof.
    intros Hi H. destruct (Nat.eq_dec i (length pre)) as [->|Hne].
    - rewrite nth_error_app2, Nat.sub_diag in H by lia. inversion H. exact I.
    - rewrite nth_error_app1 in H by lia. rewrite Forall_forall in Hord. apply Hord. eapply nth_error_In. exact H.
  Qed.

  Lemma ord_items b e : (e <= S (length pre))%nat -> Forall ordinary (items l b e).
  Proof.
    intros He. apply Forall_forall. intros n Hn. apply items_in in Hn. destruct Hn as (i & Hi & E).
    apply (ord_at i); [lia|exact E].
  Qed.

  Lemma ord_sums (xs : list (node QcNum)) : Forall ordinary xs ->
    (0 <= qsum (flat_map (item_width (N := QcNum)) xs))%Qc /\
    (0 <= qsum (flat_map (stretch_of (N := QcNum) Normal) xs))%Qc /\
    (forall o, o <> Normal -> flat_map (stretch_of (N := QcNum) o) xs = []).
  Proof.
    induction 1 as [|x xs Hx H (IH1 & IH2 & IH3)].
    - split; [apply Qcle_refl|]. split; [apply Qcle_refl|reflexivity].
    - cbn [flat_map]. rewrite !qsum_app. split; [|split].
      + destruct x; cbn [item_width ordinary] in *; cbn [qsum fold_right]; try qclra; tauto || (destruct Hx as (? & ? & ?); qclra).
      + destruct x; cbn [stretch_of ordinary] in *; cbn [qsum fold_right]; try qclra; try tauto.
        destruct Hx as (? & ? & ->). cbn [gorder_eqb qsum fold_right]. qclra.
      + intros o Ho. rewrite (IH3 o Ho). destruct x; try reflexivity. destruct Hx as (_ & _ & Hx).
        cbn [stretch_of]. rewrite Hx. destruct o; [congruence|reflexivity..].
  Qed.

  Lemma skip_zero o : stretch_total (skip_list P) o = 0%Qc.
  Proof.
    unfold stretch_total. rewrite sum_qsum. unfold skip_list. cbn [flat_map stretch_of].
    rewrite Hlst, Hrst. destruct (gorder_eqb _ o), (gorder_eqb _ o); cbn; reflexivity.
  Qed.

  Lemma empty_ratio n e b : (b <= e)%nat -> Forall ordinary (items l b e) ->
    line_ratio l P n e b = nz (N := QcNum) 10000.
  Proof.
    intros Hbe Ho. destruct (ord_sums _ Ho) as (H1 & H2 & H3).
    unfold line_ratio. cbn [nsub nltb QcNum].
    rewrite (width_diff l b e Hbe).
    set (wb := width_upto l b). set (W := qsum (flat_map (item_width (N := QcNum)) (items l b e))) in *.
    match goal with |- (if Qc_ltb ?w ?len then _ else _) = _ => assert (Hw : Qc_ltb w len = true) end.
    { apply Qc_ltb_lt. pose proof (Hlen n). clearbody wb W. qclra. }
    rewrite Hw. clear Hw.
    unfold available. cbn [nadd nsub QcNum]. rewrite !skip_zero.
    rewrite !(stretch_diff l _ b e Hbe). rewrite !H3 by discriminate. change (qsum []) with 0%Qc.
    assert (Z : forall x : Qc, (x + 0 - (x + 0))%Qc = 0%Qc) by (intros; ring). rewrite !Z.
    change (nonzero (N := QcNum) 0%Qc) with false. cbn [orb]. unfold ratio_of. cbn [nltb QcNum].
    set (sb := stretch_upto l b Normal). set (S := qsum (flat_map (stretch_of (N := QcNum) Normal) (items l b e))) in *.
    match goal with |- (if Qc_ltb ?w ?len then _ else _) = _ => assert (Hw : Qc_ltb w len = false) end.
    { apply Qc_ltb_ge. change (n0 (N := QcNum)) with 0%Qc. clearbody sb S. qclra. }
    rewrite Hw. reflexivity.
  Qed.

  Notation brk := (breaking l P QcPows).

  (** A line from [a] to [b] without material begins at the end of the list. *)
  Lemma empty_line n a e b : line_ok l P QcPows n (Some a) e b ->
    (forall i, (a <= i < b)%nat -> discardable_at l i) -> (b < k)%nat /\ e = k.
  Proof.
    intros (Hb & Ha & Hlg & Hr & Hbar) Hd. pose proof (legal_lt _ _ Hlg) as Hlt. rewrite l_length in Hlt.
    destruct Hb as (H1 & H2 & H3). simpl in Ha.
    assert (Hbe : (b <= e)%nat).
    { destruct (Nat.le_gt_cases b e) as [|L]; [assumption|exfalso].
      destruct H3 as [H3|[H3|(H3 & H4)]].
      - rewrite l_length in H3. lia.
      - apply (box_kept l e H3). apply Hd. lia.
      - apply (Hbar e); [simpl; lia|exact L|]. split; [apply forced_legal; exact H4|left; exact H4]. }
    assert (Hek : (e <= k)%nat).
    { destruct (Nat.le_gt_cases e k) as [|L]; [assumption|exfalso].
      destruct (H2 k ltac:(lia)) as (_ & [E|E]); [lia|]. exact (E l_forced). }
    assert (Hcase : Forall ordinary (items l b e) -> False).
    { intros Ho. rewrite (empty_ratio n e b Hbe Ho) in Hr. exact (ratio_10000 P Htol Hr). }
    destruct (Nat.eq_dec e k) as [->|Hne].
    - split; [|reflexivity]. destruct (Nat.eq_dec b k) as [->|]; [|lia]. exfalso. apply Hcase.
      unfold items. rewrite Nat.sub_diag. constructor.
    - exfalso. apply Hcase. apply ord_items. lia.
  Qed.

  Lemma disc_dec (a b : nat) :
    (exists i, (a <= i < b)%nat /\ ~ discardable_at l i) \/ (forall i, (a <= i < b)%nat -> discardable_at l i).
  Proof.
    induction b as [|b IH]; [right; intros; lia|].
    destruct IH as [(i & Hi & Hd)|IH]; [left; exists i; split; [lia|exact Hd]|].
    assert (D : discardable_at l b \/ ~ discardable_at l b).
    { unfold discardable_at. destruct (nth_error l b) as [[]|]; tauto. }
    destruct D as [D|D].
    - right. intros i Hi. destruct (Nat.eq_dec i b) as [->|]; [exact D|apply IH; lia].
    - destruct (Nat.le_gt_cases a b); [left; exists b; split; [lia|exact D]|right; intros; lia].
  Qed.

  Lemma ordinary_nonempty bs f d : brk bs f d ->
    match bs with [] => True | b :: _ => b = k \/ exists i, (b <= i < k)%nat /\ ~ discardable_at l i end ->
    nonempty_lines l (rev bs).
  Proof.
    induction 1 as [|bs f d e b H IH Hok r d' Hd']; intros Hc; [constructor|].
    destruct bs as [|a bs]; [cbn; constructor|].
    assert (Hx : exists i, (a <= i < b)%nat /\ ~ discardable_at l i).
    { destruct (disc_dec a b) as [Hx|Hx]; [exact Hx|exfalso].
      destruct (empty_line _ a e b Hok Hx) as (Hbk & He).
      destruct Hc as [Hc|(i & Hi & Hnd)]; [lia|].
      destruct Hok as ((H1 & H2 & _) & Ha & _). simpl in Ha.
      apply (H2 i); [lia|]. apply kept_box; [exact l_no_other| |exact Hnd]. rewrite l_length. lia. }
    assert (Hbk : (b <= k)%nat).
    { destruct Hok as (_ & _ & Hlg & _). pose proof (legal_lt _ _ Hlg) as Hlt. rewrite l_length in Hlt. lia. }
    cbn [rev]. apply nonempty_snoc; [|exact Hx].
    apply IH. right. destruct Hx as (i & Hi & Hnd). exists i. split; [lia|exact Hnd].
  Qed.

  Lemma ordinary_create : computeBreakpoints QcPows P l <> UB -> create QcPows P l <> UB.
  Proof.
    intros Hno Hub.
    assert (Hne : l <> []) by (destruct pre; discriminate).
    destruct (computeBreakpoints_cases QcPows P l) as [(bps & E)|[E|E]]; [| |congruence].
    - destruct (computeBreakpoints_ok QcPows P l bps E) as (bs & f & d & H1 & H2 & H3 & H4 & H5 & H6 & H7 & H8).
      destruct (create_cases QcPows P l bps bs Hne E H1) as [((out & Hok) & _)|(_ & Hn)]; [congruence|].
      apply Hn. apply (ordinary_nonempty bs f d H6).
      pose proof (last_forced QcPows P l bs f d k H6 H7 l_length l_forced) as Hl.
      destruct bs; [exact I|]. left. simpl in Hl. congruence.
    - unfold create in Hub. rewrite E in Hub. destruct l; discriminate.
  Qed.
End Ordinary.

Lemma create_safe_lemma (P : para QcNum) (xs : list (node QcNum)) (pm : Z) :
  xs <> [] -> Forall ordinary xs ->
  (forall n, (0 < linelength P n)%Qc) ->
  (0 <= g_space (p_leftskip P))%Qc -> (0 <= g_space (p_rightskip P))%Qc ->
  g_stretch (p_leftskip P) = 0%Qc -> g_stretch (p_rightskip P) = 0%Qc ->
  (p_tolerance P <= int_max)%Z ->
  penalties_within xs pm -> (0 <= pm)%Z ->
  (Z.of_nat (length xs + 3) * line_bound P (Z.max 100 (p_tolerance P)) pm < int_max)%Z ->
  (exists out, create QcPows P (prepare P xs) = Ok out) \/ create QcPows P (prepare P xs) = Throw.
Proof.
  intros Hne Hord Hlen H1 H2 H3 H4 Ht Hpm Hpm0 Hb.
  set (pre := drop_last_glue xs).
  assert (E : prepare P xs = pre ++ [NPenalty 10000; NGlue (p_parfillskip P); NPenalty (-10000)]).
  { unfold prepare. destruct xs; [congruence|reflexivity]. }
  assert (Hsub : forall x, In x pre -> In x xs).
  { unfold pre, drop_last_glue. destruct (last xs NOther); auto. clear.
    induction xs as [|x xs IH]; intros y; [auto|]. cbn [removelast]. destruct xs; [intros []|].
    intros [->|H]; [left; reflexivity|right; apply IH; exact H]. }
  assert (Hlp : (length pre <= length xs)%nat).
  { unfold pre, drop_last_glue. destruct (last xs NOther); auto. clear.
    induction xs as [|x xs IH]; [auto|]. cbn [removelast]. destruct xs; cbn [length] in *; lia. }
  assert (Hop : Forall ordinary pre).
  { apply Forall_forall. intros x Hx. rewrite Forall_forall in Hord. auto. }
  rewrite E.
  set (l := pre ++ _).
  assert (Hno : computeBreakpoints QcPows P l <> UB).
  { apply (no_overflow_lemma QcPows P l (Z.max 100 (p_tolerance P)) pm).
    - intros r. apply badness_bound.
    - intros p Hp Hr. unfold l in Hp. apply in_app_or in Hp. destruct Hp as [Hp|Hp]; [apply Hpm; auto|].
      cbn in Hp. destruct Hp as [Hp|[Hp|[Hp|[]]]]; inversion Hp; subst; lia.
    - exact Hpm0.
    - assert (HK := K_nonneg P (Z.max 100 (p_tolerance P)) pm).
      assert (Hll : (length l <= length xs + 3)%nat) by (unfold l; rewrite app_length; cbn [length]; lia). nia. }
  pose proof (ordinary_create pre (p_parfillskip P) P Hop Hlen H1 H2 H3 H4 Ht Hno) as Hc.
  assert (Hnel : l <> []) by (unfold l; destruct pre; discriminate).
  destruct (computeBreakpoints_cases QcPows P l) as [(bps & Eb)|[Eb|Eb]]; [| |congruence].
  - destruct (computeBreakpoints_ok QcPows P l bps Eb) as (bs & f & d & Q1 & _).
    destruct (create_cases QcPows P l bps bs Hnel Eb Q1) as [(Hok & _)|(Hub & _)]; [left; exact Hok|].
    exfalso. apply Hc. exact Hub.
  - right. unfold create. rewrite Eb. destruct l; [congruence|reflexivity].
Qed.
