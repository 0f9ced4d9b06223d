(** Line breaking in exact arithmetic. *)
From Coq Require Import List ZArith Bool QArith Qcanon Arith Lia Sorted.
From Verif.Base Require Import Result Num.
From Verif.Model Require Import Glue Box ListBuilders LineBreaks.
From Verif.Spec Require Import BoxSpec LineBreakSpec.
From Verif.Proofs Require Import BoxProofs LineBreakProofs LineBreakOpt LineBreakCreate LineBreakBound.
Import ListNotations.

Lemma qsum_app a b : qsum (a ++ b) = (qsum a + qsum b)%Qc.
Proof.
  unfold qsum. induction a as [|x a IH]; cbn [app fold_right]; [symmetry; apply Qcplus_0_l|].
  rewrite IH. apply Qcplus_assoc.
Qed.

Lemma sum_qsum (a : list Qc) : sum (N := QcNum) a = qsum a.
Proof. unfold sum. rewrite fold_nadd. apply Qcplus_0_l. Qed.

Lemma firstn_items {A} (xs : list A) e b : (e <= b)%nat ->
  firstn b xs = firstn e xs ++ firstn (b - e) (skipn e xs).
Proof.
  revert e b. induction xs as [|x xs IH]; intros e b H.
  - rewrite !firstn_nil, skipn_nil, firstn_nil. reflexivity.
  - destruct e; [rewrite Nat.sub_0_r; reflexivity|]. destruct b; [lia|]. cbn [firstn skipn app].
    f_equal. change (S b - S e)%nat with (b - e)%nat. apply IH. lia.
Qed.

Section Qc.
  Variable l : list (node QcNum).
  Variable P : para QcNum.

  Lemma upto_diff (f : node QcNum -> list Qc) e b : (e <= b)%nat ->
    sum (N := QcNum) (flat_map f (firstn b l)) =
      (sum (N := QcNum) (flat_map f (firstn e l)) + qsum (flat_map f (items l e b)))%Qc.
  Proof.
    intros H. rewrite (firstn_items l e b H), flat_map_app, !sum_qsum. apply qsum_app.
  Qed.

  Lemma width_diff e b : (e <= b)%nat ->
    width_upto l b = (width_upto l e + qsum (flat_map item_width (items l e b)))%Qc.
  Proof. apply upto_diff. Qed.
  Lemma stretch_diff o e b : (e <= b)%nat ->
    stretch_upto l b o = (stretch_upto l e o + qsum (flat_map (stretch_of o) (items l e b)))%Qc.
  Proof. apply upto_diff. Qed.
  Lemma shrink_diff o e b : (e <= b)%nat ->
    shrink_upto l b o = (shrink_upto l e o + qsum (flat_map (shrink_of o) (items l e b)))%Qc.
  Proof. apply upto_diff. Qed.

  Lemma qsum_nonneg xs : (forall x, In x xs -> (0 <= x)%Qc) -> (0 <= qsum xs)%Qc.
  Proof.
    induction xs as [|x xs IH]; intros H; simpl; [apply Qcle_refl|].
    assert ((0 <= x)%Qc) by (apply H; left; reflexivity).
    assert ((0 <= qsum xs)%Qc) by (apply IH; intros; apply H; right; assumption). qclra.
  Qed.

  Lemma items_incl e b n : In n (items l e b) -> In n l.
  Proof. intros H. apply items_in in H. destruct H as (i & _ & E). eapply nth_error_In. exact E. Qed.

  (** * C36: badness *)
  Lemma cube_mono (a b : Qc) : (0 <= a)%Qc -> (a <= b)%Qc -> (a * a * a <= b * b * b)%Qc.
  Proof.
    intros Ha Hb. change (this (a * a * a)%Qc <= this (b * b * b)%Qc)%Q.
    rewrite !this_mult. unfold Qcle in *. change (this 0%Qc) with 0%Q in Ha.
    set (x := this a) in *. set (y := this b) in *. clearbody x y.
    assert (H1 : (0 <= (y - x) * (y * y))%Q) by (apply Qmult_le_0_compat; [|apply Qmult_le_0_compat]; Lqa.lra).
    assert (H2 : (0 <= (y - x) * (x * y))%Q) by (apply Qmult_le_0_compat; [|apply Qmult_le_0_compat]; Lqa.lra).
    assert (H3 : (0 <= (y - x) * (x * x))%Q) by (apply Qmult_le_0_compat; [|apply Qmult_le_0_compat]; Lqa.lra).
    Lqa.lra.
  Qed.

  Lemma floor_le (x : Qc) (z : Z) : (x <= Q2Qc (inject_Z z))%Qc -> (Qnum x / Zpos (Qden x) <= z)%Z.
  Proof.
    intros H. change (this x <= this (Q2Qc (inject_Z z)))%Q in H. rewrite this_lit in H.
    unfold Qle in H. cbn [inject_Z Qnum Qden] in H. rewrite Z.mul_1_r in H.
    apply Z.div_le_upper_bound; [lia|]. lia.
  Qed.

  Lemma floor_nonneg (x : Qc) : (0 <= x)%Qc -> (0 <= Qnum x / Zpos (Qden x))%Z.
  Proof.
    intros H. change (this 0%Qc <= this x)%Q in H. unfold Qle in H. cbn in H.
    apply Z.div_pos; lia.
  Qed.

  Lemma Qc_abs_nonneg x : (0 <= Qc_abs x)%Qc.
  Proof. unfold Qc_abs. destruct (Qc_ltb x 0) eqn:E; qclra. Qed.

  Lemma scale100 (a b : Qc) : (a <= b)%Qc -> (Q2Qc (inject_Z 100) * a <= Q2Qc (inject_Z 100) * b)%Qc.
  Proof.
    intros H. rewrite !(Qcmult_comm (Q2Qc (inject_Z 100))). apply Qcmult_le_compat_r; [exact H|].
    vm_compute. discriminate.
  Qed.

  Lemma badness_bound (r : Qc) : ratio_ok P QcPows r ->
    (0 <= Z.min (pw_cube QcPows r) 10000 <= Z.max 100 (p_tolerance P))%Z.
  Proof.
    intros (H1 & H2). cbn [QcPows pw_cube pw_within] in *. cbn [nleb QcNum nz nlit] in H1.
    unfold Qc_within in H2. apply andb_true_iff in H2. destruct H2 as [H2 H3]. apply Z.leb_le in H2.
    unfold Qc_cube100. set (x := (Q2Qc (inject_Z 100) * _)%Qc).
    assert (Hx0 : (0 <= x)%Qc).
    { unfold x. pose proof (cube_mono 0 (Qc_abs r) (Qcle_refl _) (Qc_abs_nonneg r)) as H.
      apply scale100 in H. replace (Q2Qc (inject_Z 100) * (0 * 0 * 0))%Qc with 0%Qc in H by ring. exact H. }
    assert (Hx1 : (x <= Q2Qc (inject_Z (Z.max 100 (p_tolerance P))))%Qc).
    { assert (Hm : forall z, (z <= Z.max 100 (p_tolerance P))%Z ->
                  (Q2Qc (inject_Z z) <= Q2Qc (inject_Z (Z.max 100 (p_tolerance P))))%Qc).
      { intros z Hz. change (this (Q2Qc (inject_Z z)) <= this (Q2Qc (inject_Z (Z.max 100 (p_tolerance P)))))%Q.
        rewrite !this_lit. unfold Qle, inject_Z. cbn [Qnum Qden]. lia. }
      unfold x, Qc_abs. destruct (Qc_ltb r 0) eqn:Er.
      - apply Qcle_trans with (Q2Qc (inject_Z 100)); [|apply Hm; lia].
        pose proof (cube_mono (- r) 1 ltac:(qclra) ltac:(change 1%Qc with (Q2Qc (inject_Z 1)); qclra)) as H.
        apply scale100 in H. replace (Q2Qc (inject_Z 100) * (1 * 1 * 1))%Qc with (Q2Qc (inject_Z 100)) in H by ring. exact H.
      - apply orb_true_iff in H3. destruct H3 as [H3|H3].
        + assert (E : r = 0%Qc) by (qc_bool; apply Qcle_antisym; assumption).
          rewrite E. replace (Q2Qc (inject_Z 100) * (0 * 0 * 0))%Qc with (Q2Qc (inject_Z 0)) by (change (Q2Qc (inject_Z 0)) with 0%Qc; ring).
          apply Hm. lia.
        + apply Qc_leb_le in H3. apply Qcle_trans with (Q2Qc (inject_Z (p_tolerance P))); [exact H3|apply Hm; lia]. }
    pose proof (floor_le x _ Hx1). pose proof (floor_nonneg x Hx0). lia.
  Qed.

  (** * C37: the barrier of overfull lines is redundant *)
  Lemma skip_order_const (tot : nat -> gorder -> Qc) (sk : gorder -> Qc) e b c :
    (forall o i j, o <> Normal -> tot i o = tot j o) ->
    available tot sk e b (N := QcNum) = None -> available tot sk e c (N := QcNum) = None.
  Proof.
    intros H. unfold available. cbn [nsub nadd QcNum].
    rewrite (H Fil b c) by discriminate. rewrite (H Fill b c) by discriminate.
    destruct (_ || _); [reflexivity|discriminate].
  Qed.

  Hypothesis Hrigid : Forall rigid_item l.

  Lemma rigid_no_order o i : o <> Normal -> flat_map (shrink_of (N := QcNum) o) (firstn i l) = [].
  Proof.
    intros Ho. rewrite Forall_forall in Hrigid.
    assert (G : forall xs, (forall x, In x xs -> In x l) -> flat_map (shrink_of (N := QcNum) o) xs = []).
    { induction xs as [|x xs IH]; intros Hx; [reflexivity|]. cbn [flat_map].
      rewrite IH by (intros; apply Hx; right; assumption).
      pose proof (Hrigid x (Hx x (or_introl eq_refl))) as Hr.
      destruct x; try reflexivity. cbn [shrink_of]. destruct Hr as (_ & ->). destruct o; [congruence|reflexivity..]. }
    apply G. intros x Hx. rewrite <- (firstn_skipn i l). apply in_or_app. left. exact Hx.
  Qed.

  Lemma shrink_const o i j : o <> Normal -> shrink_upto l i o = shrink_upto l j o.
  Proof. intros Ho. unfold shrink_upto, shrink_total. rewrite !(rigid_no_order o) by exact Ho. reflexivity. Qed.

  Lemma rigid_mono e b : (e <= b)%nat ->
    (shrink_upto l e Normal <= shrink_upto l b Normal)%Qc /\
    (width_upto l e - shrink_upto l e Normal <= width_upto l b - shrink_upto l b Normal)%Qc.
  Proof.
    intros H. rewrite (width_diff e b H), (shrink_diff Normal e b H).
    rewrite Forall_forall in Hrigid.
    assert (G : forall xs, (forall x, In x xs -> In x l) ->
      (0 <= qsum (flat_map (shrink_of (N := QcNum) Normal) xs))%Qc /\
      (qsum (flat_map (shrink_of (N := QcNum) Normal) xs) <= qsum (flat_map (item_width (N := QcNum)) xs))%Qc).
    { induction xs as [|x xs IH]; intros Hx; [split; apply Qcle_refl|].
      destruct IH as (IH1 & IH2); [intros; apply Hx; right; assumption|].
      pose proof (Hrigid x (Hx x (or_introl eq_refl))) as Hr.
      cbn [flat_map]. rewrite !qsum_app.
      destruct x; cbn [shrink_of item_width rigid_item] in *;
        try (change (qsum []) with 0%Qc); try (change (qsum (_ :: _)) with (x + 0)%Qc);
        try (split; qclra).
      all: try (destruct Hr as ((Hr1 & Hr2) & Hr3); rewrite Hr3).
      all: cbn [gorder_eqb qsum fold_right]; split; qclra. }
    destruct (G (items l e b)) as (G1 & G2); [intros x; apply items_incl|].
    split; qclra.
  Qed.

  Lemma div_lt_m1 (a g : Qc) : (0 < g)%Qc -> ((a / g < Q2Qc (inject_Z (-1)))%Qc <-> (a + g < 0)%Qc).
  Proof.
    intros Hg.
    assert (Hn : g <> 0%Qc) by (intros ->; exact (Qlt_irrefl _ Hg)).
    pose proof (Qcdiv_mul a g Hn) as E. set (x := (a / g)%Qc) in *.
    assert (E2 : (this a == this x * this g)%Q) by (rewrite <- E, this_mult; reflexivity).
    unfold Qclt in *. change (this 0%Qc) with 0%Q in *.
    rewrite this_plus, E2. change (this (Q2Qc (inject_Z (-1)))) with (-1)%Q. split; intros H; Lqa.nra.
  Qed.

  Lemma div_pos (a g : Qc) : (0 < g)%Qc -> (0 < a)%Qc -> (0 < a / g)%Qc.
  Proof.
    intros Hg Ha.
    assert (Hn : g <> 0%Qc) by (intros ->; exact (Qlt_irrefl _ Hg)).
    pose proof (Qcdiv_mul a g Hn) as E. set (x := (a / g)%Qc) in *.
    assert (E2 : (this a == this x * this g)%Q) by (rewrite <- E, this_mult; reflexivity).
    unfold Qclt in *. change (this 0%Qc) with 0%Q in *. rewrite E2 in Ha. Lqa.nra.
  Qed.

  Lemma overfull_later n e b c : (c <= b)%nat ->
    Qc_ltb (line_ratio l P n e c) (nz (N := QcNum) (-1)) = true ->
    Qc_ltb (line_ratio l P n e b) (nz (N := QcNum) (-1)) = true.
  Proof.
    intros Hcb. unfold line_ratio. cbn [nsub nltb QcNum].
    set (sk := (fun o => shrink_total (skip_list P) o)).
    set (ls := g_space (p_leftskip P)). set (rs := g_space (p_rightskip P)). set (len := linelength P n).
    set (wc := (width_upto l c - width_upto l e - ls - rs)%Qc).
    set (wb := (width_upto l b - width_upto l e - ls - rs)%Qc).
    intros H.
    destruct (Qc_ltb wc len) eqn:E1.
    { exfalso. unfold ratio_of in H. destruct (available _ _ _ _) as [g|]; [|vm_compute in H; discriminate].
      cbn [nltb QcNum] in H. destruct (Qc_ltb _ g) eqn:Eg; [|vm_compute in H; discriminate].
      apply Qc_ltb_lt in Eg. cbn [ndiv nsub QcNum] in H.
      pose proof (div_pos (len - wc)%Qc g Eg ltac:(qclra)) as Hp.
      cbn [nz nlit QcNum] in H. qclra. }
    destruct (Qc_ltb len wc) eqn:E2; [|vm_compute in H; discriminate].
    destruct (rigid_mono c b Hcb) as (M1 & M2).
    destruct (available (shrink_upto l) sk e c) as [gc|] eqn:Ec; [|vm_compute in H; discriminate].
    unfold ratio_of in H. cbn [nltb QcNum] in H. destruct (Qc_ltb _ gc) eqn:Eg; [|vm_compute in H; discriminate].
    cbn [ndiv nsub QcNum nz nlit] in H.
    apply Qc_ltb_lt in Eg. change (n0 (N := QcNum)) with 0%Qc in Eg.
    apply Qc_ltb_lt in H. apply (div_lt_m1 _ _ Eg) in H.
    assert (Egc : gc = (shrink_upto l c Normal + sk Normal - shrink_upto l e Normal)%Qc).
    { unfold available in Ec. destruct (_ || _); [discriminate|]. inversion Ec. reflexivity. }
    destruct (available (shrink_upto l) sk e b) as [gb|] eqn:Eb.
    2:{ rewrite (skip_order_const (shrink_upto l) _ e b c shrink_const Eb) in Ec. discriminate. }
    assert (Egb : gb = (shrink_upto l b Normal + sk Normal - shrink_upto l e Normal)%Qc).
    { unfold available in Eb. destruct (_ || _); [discriminate|]. inversion Eb. reflexivity. }
    assert (Hgb : (0 < gb)%Qc) by (rewrite Egb; rewrite Egc in Eg; qclra).
    assert (Hb : (len - wb + gb < 0)%Qc).
    { rewrite Egb. rewrite Egc in H. unfold wb, wc in *. clearbody sk. qclra. }
    assert (Hwb : Qc_ltb wb len = false) by (apply Qc_ltb_ge; clear Egb Egc; qclra).
    assert (Hwb' : Qc_ltb len wb = true) by (apply Qc_ltb_lt; clear Egb Egc; qclra).
    rewrite Hwb, Hwb'. unfold ratio_of. cbn [nltb QcNum].
    rewrite (proj2 (Qc_ltb_lt (n0 (N := QcNum)) gb)) by exact Hgb.
    cbn [ndiv nsub QcNum nz nlit]. apply Qc_ltb_lt. apply div_lt_m1; assumption.
  Qed.

  Lemma simple_line_ok n a e b : simple_line l P n a e b <-> line_ok l P QcPows n a e b.
  Proof.
    unfold simple_line, line_ok. split; intros (H1 & H2 & H3 & H4 & H5); repeat (split; [assumption|]).
    - intros c Hc Hcb (Hlg & [Hf|Ho]); [exact (H5 c Hc Hcb Hf)|].
      pose proof (overfull_later n e b c ltac:(lia) Ho) as Hb. destruct H4 as (H4 & _).
      cbn [nleb QcNum] in H4. qc_bool. qclra.
    - intros c Hc Hcb Hf. apply (H5 c Hc Hcb). split; [apply forced_legal; exact Hf|left; exact Hf].
  Qed.

  Lemma breaking_simple bs f d : breaking l P QcPows bs f d -> simple_breaking l P bs f d.
  Proof.
    induction 1 as [|bs f d e b H IH Hok r d' Hd']; [constructor|].
    unfold d', r. constructor; [exact IH|]. apply simple_line_ok. exact Hok.
  Qed.

  Variable pm : Z.
  Hypothesis Hpm : penalties_within l pm.
  Hypothesis Hpm0 : (0 <= pm)%Z.
  Notation K := (line_bound P (Z.max 100 (p_tolerance P)) pm).
  Hypothesis Hlen : (Z.of_nat (length l) * K < int_max)%Z.

  Lemma simple_breaking_sorted bs f d : simple_breaking l P bs f d ->
    (Z.abs d <= Z.of_nat (length bs) * K)%Z /\ (match bs with [] => True | b :: _ => (length bs <= S b)%nat /\ (b < length l)%nat end).
  Proof.
    induction 1 as [|bs f d e b H (IH1 & IH2) Hok]; [split; simpl; [lia|exact I]|].
    destruct Hok as (_ & Ha & Hlg & Hr & _). split.
    - pose proof (line_demerits_bound QcPows P l _ pm Hpm Hpm0 _ b f (badness_bound _ Hr)). cbn [length]. lia.
    - split; [|exact (legal_lt l b Hlg)]. destruct bs as [|b0 bs]; cbn [length] in *; [lia|]. cbn in Ha. lia.
  Qed.

  Lemma simple_is_breaking bs f d : simple_breaking l P bs f d -> breaking l P QcPows bs f d.
  Proof.
    induction 1 as [|bs f d e b H IH Hok]; [constructor|].
    eapply br_line; [exact IH|apply simple_line_ok; exact Hok|].
    pose proof (simple_breaking_sorted _ _ _ (sb_line l P bs f d e b H Hok)) as (H1 & H2 & H3).
    pose proof (K_nonneg P (Z.max 100 (p_tolerance P)) pm) as HK.
    assert (Z.of_nat (length (b :: bs)) * K <= Z.of_nat (length l) * K)%Z by nia. lia.
  Qed.

  Lemma optimal_exact k : length l = S k -> forced_at l k ->
    match computeBreakpoints QcPows P l with
    | Ok bps =>
        exists bs f d, map bp_pos bps = 0%nat :: rev bs /\
          simple_breaking l P bs f d /\ last_break bs = Some k /\
          bp_dem (last bps start_bp) = d /\
          forall bs' f' d', simple_breaking l P bs' f' d' -> last_break bs' = Some k -> (d <= d')%Z
    | Throw => forall bs f d, simple_breaking l P bs f d -> last_break bs <> Some k
    | _ => False
    end.
  Proof.
    intros Hk Hf.
    pose proof (no_overflow_lemma QcPows P l _ pm badness_bound Hpm Hpm0 Hlen) as Hno.
    destruct (computeBreakpoints_cases QcPows P l) as [(bps & E)|[E|E]]; [| |congruence]; rewrite E.
    - destruct (computeBreakpoints_ok QcPows P l bps E) as (bs & f & d & H1 & H2 & H3 & H4 & H5 & H6 & H7 & H8).
      exists bs, f, d. split; [exact H1|]. split; [apply breaking_simple; exact H6|].
      split; [apply (complete_forced QcPows P l bs f d k H6 Hk Hf); exact H7|]. split; [exact H3|].
      intros bs' f' d' Hs Hl. apply (H8 bs' f' d'); [apply simple_is_breaking; exact Hs|].
      apply (complete_forced QcPows P l bs' f' d' k (simple_is_breaking _ _ _ Hs) Hk Hf). exact Hl.
    - intros bs f d Hs Hl. apply (computeBreakpoints_throw QcPows P l E bs f d (simple_is_breaking _ _ _ Hs)).
      apply (complete_forced QcPows P l bs f d k (simple_is_breaking _ _ _ Hs) Hk Hf). exact Hl.
  Qed.
End Qc.
