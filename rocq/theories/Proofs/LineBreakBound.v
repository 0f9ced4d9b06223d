(** No integer overflow in short enough paragraphs. *)
From Coq Require Import List ZArith Bool QArith Qcanon Arith Lia.
From Verif.Base Require Import Result Num.
From Verif.Model Require Import Glue Box ListBuilders LineBreaks.
From Verif.Spec Require Import BoxSpec LineBreakSpec.
From Verif.Proofs Require Import BoxProofs LineBreakProofs LineBreakOpt.
Import ListNotations.
Local Open Scope Z_scope.

Section Bound.
  Context {N : Num}.
  Variable pw : pows N.
  Variable P : para N.
  Variable l : list (node N).
  Variables B pm : Z.
  Hypothesis HB : forall r, ratio_ok P pw r -> 0 <= Z.min (pw_cube pw r) 10000 <= B.
  Hypothesis Hpm : penalties_within l pm.
  Hypothesis Hpm0 : 0 <= pm.
  Notation K := (line_bound P B pm).

  Lemma abs_sq s t : Z.abs s <= t -> 0 <= s * s <= t * t.
  Proof. intros H. split; nia. Qed.

  Lemma ck_ok z : Z.abs z <= int_max -> ck z = Ok z.
  Proof.
    intros H. unfold ck.
    replace (int_min <=? z) with true by (symmetry; apply Z.leb_le; unfold int_min, int_max in *; lia).
    replace (z <=? int_max) with true by (symmetry; apply Z.leb_le; unfold int_max in *; lia).
    reflexivity.
  Qed.

  Lemma line_demerits_bound r b f : 0 <= Z.min (pw_cube pw r) 10000 <= B -> Z.abs (line_demerits l P pw r b f) <= K.
  Proof.
    intros Hr. unfold line_demerits, line_bound.
    set (s := p_linepenalty P + _).
    assert (Hs : 0 <= s * s <= (Z.abs (p_linepenalty P) + B) * (Z.abs (p_linepenalty P) + B)) by (apply abs_sq; unfold s; lia).
    set (p := match nth_error l b with Some (NPenalty p) => p | _ => 0 end).
    assert (Hp : -10000 < p < 10000 -> 0 <= p * p <= pm * pm).
    { intros H. apply abs_sq. unfold p in *. destruct (nth_error l b) as [[]|] eqn:E; try (simpl; lia).
      apply Hpm; [|exact H]. eapply nth_error_In. exact E. }
    assert (HA : Z.abs (if adjacent (fitness_of r) f then 0 else p_adjdemerits P) <= Z.abs (p_adjdemerits P)).
    { destruct (adjacent _ _); lia. }
    set (adj := if adjacent (fitness_of r) f then 0 else p_adjdemerits P) in *.
    assert (0 <= pm * pm) by nia.
    destruct ((0 <=? p) && (p <? 10000)) eqn:E1.
    - apply andb_true_iff in E1. destruct E1 as [A1 A2]. apply Z.leb_le in A1. apply Z.ltb_lt in A2.
      specialize (Hp ltac:(lia)). lia.
    - destruct ((-10000 <? p) && (p <? 0)) eqn:E2.
      + apply andb_true_iff in E2. destruct E2 as [A1 A2]. apply Z.ltb_lt in A1. apply Z.ltb_lt in A2.
        specialize (Hp ltac:(lia)). lia.
      + lia.
  Qed.

  Lemma sq_le s : Z.abs s <= s * s.
  Proof. nia. Qed.

  Lemma newDemerits_ok n k r a D : nth_error l k = Some n -> ratio_ok P pw r ->
    Z.abs (bp_dem a) <= D -> D + K <= int_max ->
    exists d, newDemerits pw P n r a = Ok d /\ Z.abs d <= D + K.
  Proof.
    intros Hn Hr Ha HD. pose proof (HB r Hr) as Hb.
    assert (Hdem : forall d, newDemerits pw P n r a = Ok d -> Z.abs d <= D + K).
    { intros d Hd. rewrite (newDemerits_spec pw P l n k r a d Hn Hd).
      pose proof (line_demerits_bound r k (bp_fit a) Hb). lia. }
    cut (exists d, newDemerits pw P n r a = Ok d); [intros (d & E); exists d; auto|].
    unfold newDemerits, computeDemerits, computeBadness, node_penalty.
    assert (HA : 0 <= Z.abs (bp_dem a)) by lia.
    assert (EK : K = (Z.abs (p_linepenalty P) + B) * (Z.abs (p_linepenalty P) + B) + pm * pm + Z.abs (p_adjdemerits P)) by reflexivity.
    set (s := p_linepenalty P + _).
    assert (Hs : 0 <= s * s <= (Z.abs (p_linepenalty P) + B) * (Z.abs (p_linepenalty P) + B)) by (apply abs_sq; unfold s; lia).
    pose proof (sq_le s) as Hss.
    assert (0 <= pm * pm) by nia.
    rewrite (ck_ok s) by lia. cbn [bind].
    set (p := match n with NPenalty p => p | _ => 0 end).
    assert (Hp : -10000 < p < 10000 -> 0 <= p * p <= pm * pm).
    { intros H0. apply abs_sq. unfold p in *. destruct n; try (simpl; lia).
      apply Hpm; [|exact H0]. eapply nth_error_In. exact Hn. }
    set (t := if (0 <=? p) && (p <? 10000) then s * s + p * p
              else if (-10000 <? p) && (p <? 0) then s * s - p * p else s * s).
    assert (Ht : Z.abs t <= (Z.abs (p_linepenalty P) + B) * (Z.abs (p_linepenalty P) + B) + pm * pm).
    { unfold t. destruct ((0 <=? p) && (p <? 10000)) eqn:E1.
      - apply andb_true_iff in E1. destruct E1 as [A1 A2]. apply Z.leb_le in A1. apply Z.ltb_lt in A2.
        specialize (Hp ltac:(lia)). lia.
      - destruct ((-10000 <? p) && (p <? 0)) eqn:E2; [|lia].
        apply andb_true_iff in E2. destruct E2 as [A1 A2]. apply Z.ltb_lt in A1. apply Z.ltb_lt in A2.
        specialize (Hp ltac:(lia)). lia. }
    assert (E : (if (0 <=? p) && (p <? 10000) then ck (s * s + p * p)
                 else if (-10000 <? p) && (p <? 0) then ck (s * s - p * p) else ck (s * s)) = Ok t).
    { unfold t. unfold t in Ht. destruct ((0 <=? p) && (p <? 10000)); [apply ck_ok; lia|].
      destruct ((-10000 <? p) && (p <? 0)); apply ck_ok; lia. }
    rewrite E. cbn [bind].
    destruct (checkCompatibility _ _).
    - cbn [bind]. rewrite ck_ok by lia. eauto.
    - rewrite (ck_ok (t + p_adjdemerits P)) by lia. cbn [bind]. rewrite ck_ok by lia. eauto.
  Qed.

  Definition bounded (D : Z) (act : list (bp N)) : Prop := forall a, In a act -> Z.abs (bp_dem a) <= D.
  Definition cbounded (D : Z) (c : cands N) : Prop := forall f a d, c f = Some (a, d) -> Z.abs d <= D.

  Lemma new_bps_bounded pos tot c D : cbounded D c -> bounded D (new_bps pos tot c).
  Proof.
    intros H a Ha. apply new_bps_in in Ha. destruct Ha as (f & a0 & d & E & _ & ->).
    cbn [bp_dem]. exact (H f a0 d E).
  Qed.

  Lemma consider_ok n k sum line a c D : nth_error l k = Some n ->
    Z.abs (bp_dem a) <= D -> D + K <= int_max -> cbounded (D + K) c ->
    exists kp c', consider pw P n sum line a c = Ok (kp, c') /\ cbounded (D + K) c'.
  Proof.
    intros Hn Ha HD Hc. unfold consider. set (r := computeGlueRatio _ _ _ _).
    destruct (feasible pw P r) eqn:E; [|eauto].
    apply feasible_ok in E.
    destruct (newDemerits_ok n k r a D Hn E Ha HD) as (d & Hd & Hdb).
    rewrite Hd. cbn [bind]. destruct (d <? _); eexists _, _; (split; [reflexivity|]); [|exact Hc].
    intros f a0 d0. destruct (fitness_eqb f _); [|apply Hc]. intros H; inversion H; subst. exact Hdb.
  Qed.

  Lemma K_nonneg : 0 <= K.
  Proof.
    unfold line_bound. pose proof (Z.square_nonneg (Z.abs (p_linepenalty P) + B)).
    pose proof (Z.square_nonneg pm). lia.
  Qed.

  Lemma try_loop_ok n k sum tot pos act D : nth_error l k = Some n -> D + K <= int_max -> forall line c,
    bounded D act -> cbounded (D + K) c ->
    forall out, try_loop pw P n sum tot pos line c act = UB \/ try_loop pw P n sum tot pos line c act = Ok out ->
    try_loop pw P n sum tot pos line c act = Ok out /\ bounded (D + K) out.
  Proof.
    intros Hn HD. pose proof K_nonneg as HK.
    induction act as [|a act IH]; intros line c Hb Hc out; cbn [try_loop].
    - intros [H|H]; [discriminate|]. inversion H; subst. split; [reflexivity|]. apply new_bps_bounded. exact Hc.
    - assert (Ha : Z.abs (bp_dem a) <= D) by (apply Hb; left; reflexivity).
      assert (Hb' : bounded D act) by (intros x Hx; apply Hb; right; exact Hx).
      assert (Hk : forall kp, bounded (D + K) (keep_if kp a)).
      { intros kp x Hx. destruct kp; [|destruct Hx]. destruct Hx as [<-|[]]. lia. }
      destruct (bp_line a =? line)%nat.
      + destruct (consider_ok n k sum line a c D Hn Ha HD Hc) as (kp & c' & -> & Hc'). cbn [bind].
        intros H.
        destruct (try_loop pw P n sum tot pos line c' act) as [out'| | | |] eqn:E;
          destruct H as [H|H]; try discriminate; cbn [bind] in *.
        * inversion H; subst. destruct (IH line c' Hb' Hc' out' (or_intror E)) as (_ & Ho).
          split; [reflexivity|]. intros x Hx. apply in_app_or in Hx. destruct Hx as [Hx|Hx]; [exact (Hk kp x Hx)|exact (Ho x Hx)].
        * destruct (IH line c' Hb' Hc' [] (or_introl E)) as (E' & _). congruence.
      + destruct (bp_line a <? line)%nat; [intros [H|H]; discriminate|].
        destruct (consider_ok n k sum (bp_line a) a no_cands D Hn Ha HD) as (kp & c' & -> & Hc').
        { intros f x d H; discriminate H. }
        cbn [bind]. intros H.
        destruct (try_loop pw P n sum tot pos (bp_line a) c' act) as [out'| | | |] eqn:E;
          destruct H as [H|H]; try discriminate; cbn [bind] in *.
        * inversion H; subst. destruct (IH (bp_line a) c' Hb' Hc' out' (or_intror E)) as (_ & Ho).
          split; [reflexivity|]. intros x Hx. apply in_app_or in Hx.
          destruct Hx as [Hx|Hx]; [exact (new_bps_bounded pos tot c _ Hc x Hx)|].
          apply in_app_or in Hx. destruct Hx as [Hx|Hx]; [exact (Hk kp x Hx)|exact (Ho x Hx)].
        * destruct (IH (bp_line a) c' Hb' Hc' [] (or_introl E)) as (E' & _). congruence.
  Qed.

  Lemma tryBreak_bound n k suf sum act D : nth_error l k = Some n -> D + K <= int_max ->
    sortedL act -> bounded D act ->
    exists out, tryBreak pw P act k suf n sum = Ok out /\ bounded (D + K) out.
  Proof.
    intros Hn HD Hs Hb. unfold tryBreak. destruct act as [|a act].
    { exists []. split; [reflexivity|]. intros x []. }
    assert (Hl : forall a0, In a0 (a :: act) -> (bp_line a <= bp_line a0)%nat).
    { intros x [<-|Hx]; [lia|]. inversion Hs as [|? ? _ H]; subst. rewrite Forall_forall in H. auto. }
    assert (Hc : cbounded (D + K) no_cands) by (intros f x d H; discriminate H).
    destruct (try_loop_cases pw P n sum (squeezeDiscardables sum true suf) k (a :: act) (bp_line a) no_cands Hs Hl)
      as [(out & E)|E].
    - exists out. exact (try_loop_ok n k _ _ _ _ D Hn HD _ _ Hb Hc out (or_intror E)).
    - exfalso. destruct (try_loop_ok n k _ _ _ _ D Hn HD _ _ Hb Hc [] (or_introl E)) as (E' & _). congruence.
  Qed.

  Hypothesis Hlen : Z.of_nat (length l) * K < int_max.

  Lemma loop_bound suf : forall pre pb act sum,
    l = pre ++ suf -> sortedL act -> bounded (Z.of_nat (length pre) * K) act ->
    exists out, feasible_loop pw P (length pre) pb act sum suf = Ok out /\ bounded (Z.of_nat (length l) * K) out.
  Proof.
    pose proof K_nonneg as HK.
    induction suf as [|n suf IH]; intros pre pb act sum Hl Hs Hb; cbn [feasible_loop].
    - exists act. split; [reflexivity|]. rewrite app_nil_r in Hl. subst pre. exact Hb.
    - assert (Hl' : l = (pre ++ [n]) ++ suf) by (rewrite <- app_assoc; exact Hl).
      assert (Hlen' : length (pre ++ [n]) = S (length pre)) by (rewrite app_length; simpl; lia).
      assert (Hn : nth_error l (length pre) = Some n).
      { rewrite Hl, nth_error_app2, Nat.sub_diag by lia. reflexivity. }
      assert (Hpre : (S (length pre) <= length l)%nat) by (rewrite Hl, app_length; simpl; lia).
      set (D := Z.of_nat (length pre) * K) in *.
      assert (HD' : Z.of_nat (length (pre ++ [n])) * K = D + K) by (rewrite Hlen'; unfold D; lia).
      assert (HD : D + K <= int_max) by (rewrite <- HD', Hlen'; nia).
      assert (Hmono : bounded (D + K) act) by (intros x Hx; specialize (Hb x Hx); lia).
      rewrite <- HD' in Hmono.
      assert (Hskip : forall pb' s', exists out, feasible_loop pw P (S (length pre)) pb' act s' suf = Ok out /\ bounded (Z.of_nat (length l) * K) out).
      { intros pb' s'. rewrite <- Hlen'. apply IH; assumption. }
      assert (Htry : exists out, tryBreak pw P act (length pre) (n :: suf) n sum = Ok out /\
                forall pb' s', exists out', feasible_loop pw P (S (length pre)) pb' out s' suf = Ok out' /\ bounded (Z.of_nat (length l) * K) out').
      { destruct (tryBreak_bound n (length pre) (n :: suf) sum act D Hn HD Hs Hb) as (out & E & Ho).
        exists out. split; [exact E|]. intros pb' s'. rewrite <- Hlen'. apply IH; [exact Hl'| |rewrite HD'; exact Ho].
        exact (tryBreak_sorted pw P act _ _ _ _ out Hs E). }
      destruct Htry as (out & E & Ht).
      destruct n; cbn [box_metrics]; try apply Hskip.
      + destruct pb; [rewrite E; cbn [bind]; apply Ht|cbn [bind]; apply Hskip].
      + destruct (isForbiddenLinebreak _); [cbn [bind]; apply Hskip|rewrite E; cbn [bind]; apply Ht].
  Qed.

  Lemma no_overflow_lemma : computeBreakpoints pw P l <> UB.
  Proof.
    destruct (loop_bound l [] false [start_bp] ltotals0 eq_refl) as (out & E & _).
    { repeat constructor. }
    { intros a [<-|[]]. cbn. lia. }
    unfold computeBreakpoints, computeFeasibleBreakpoints.
    change (length (@nil (node N))) with 0%nat in E. rewrite E. cbn [bind]. destruct out; discriminate.
  Qed.
End Bound.
