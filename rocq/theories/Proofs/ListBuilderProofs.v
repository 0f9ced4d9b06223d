From Coq Require Import List QArith Qcanon ZArith Bool Lia.
From Verif.Base Require Import Result Num.
From Verif.Model Require Import Glue Box ListBuilders.
From Verif.Spec Require Import BoxSpec.
From Verif.Proofs Require Import BoxProofs.
Import ListNotations.

Definition low : Qc := Q2Qc (inject_Z (-10000)).

Definition prev_of (d : Qc) : option Qc := if Qc_leb d low then None else Some d.

Lemma vb_spaced (ns : list (node QcNum)) : forall (b : vbuilder QcNum),
  (forall n m, In n ns -> box_metrics n = Some m -> (low < m_depth m)%Qc) ->
  exists out,
    vb_result (fold_left vb_push ns b) = vb_result b ++ out /\
    spaced (vb_baselineskip b) (vb_lineskip b) (prev_of (vb_prevdepth b)) ns out.
Proof.
  induction ns as [|n ns IH]; intros b Hd.
  - exists []. simpl. rewrite app_nil_r. split; [reflexivity|constructor].
  - cbn [fold_left].
    assert (Hd' : forall n m, In n ns -> box_metrics n = Some m -> (low < m_depth m)%Qc) by (intros; eapply Hd; [right|]; eauto).
    destruct (IH (vb_push b n) Hd') as (out & Ho & Hs). rewrite Ho.
    destruct (box_metrics n) as [m|] eqn:En.
    + assert (Hm : (low < m_depth m)%Qc) by (apply (Hd n); [left; reflexivity|exact En]).
      unfold vb_push in *. rewrite En in *. unfold vb_push_box in *.
      cbn [vb_result vb_baselineskip vb_lineskip vb_prevdepth] in *.
      assert (Hp : prev_of (m_depth m) = Some (m_depth m)).
      { unfold prev_of. apply Qc_leb_gt in Hm. rewrite Hm. reflexivity. }
      rewrite Hp in Hs. unfold prev_of.
      cbn [nleb QcNum]. change (nz (N := QcNum) (-10000)) with low.
      destruct (Qc_leb (vb_prevdepth b) low) eqn:Ep.
      * eexists. split; [rewrite <- app_assoc; reflexivity|]. simpl. eapply sp_first; eauto.
      * cbn [nsub QcNum]. change (n0 (N := QcNum)) with 0%Qc.
        set (g := (g_space (vb_baselineskip b) - vb_prevdepth b - m_height m)%Qc).
        assert (Eg : g = (g_space (vb_baselineskip b) - vb_prevdepth b - m_height m)%Qc) by reflexivity.
        clearbody g.
        destruct (Qc_leb 0 g) eqn:E0; qc_bool; (eexists; split; [rewrite <- app_assoc; reflexivity|]).
        -- simpl. eapply sp_baseline; eauto. cbn [glue_make g_space]. rewrite Eg. cbn [num QcNum]. ring.
        -- simpl. eapply sp_lineskip; eauto. subst g. clear -E0. cbn [num QcNum] in *. qclra.
    + unfold vb_push in *. rewrite En in *. cbn [vb_result vb_baselineskip vb_lineskip vb_prevdepth] in *.
      eexists. split; [rewrite <- app_assoc; reflexivity|]. simpl. eapply sp_other; eauto.
Qed.

Lemma vb_spaced_lemma bs ls (ns : list (node QcNum)) :
  (forall n m, In n ns -> box_metrics n = Some m -> (low < m_depth m)%Qc) ->
  spaced bs ls None ns (vb_result (fold_left vb_push ns (vbuilder_new bs ls))).
Proof.
  intros H. destruct (vb_spaced ns (vbuilder_new bs ls) H) as (out & Ho & Hs).
  rewrite Ho. exact Hs.
Qed.

Section AnyNum.
  Context {N : Num}.

  Definition tame (fm : hmetrics N) (sf : Z) (o : hop N) : Prop :=
    match o with HChar c => ~ (sf < 1000 /\ 1000 < hm_sfcode fm c)%Z | _ => True end.

  Lemma hb_sf_step fm (b : hbuilder N) o : (hb_sf b <> 0)%Z ->
    (hb_sf (hb_op fm b o) <> 0)%Z /\
    (hb_sf (hb_op fm b o) = match o with
       | HChar c => if (hm_sfcode fm c =? 0)%Z then hb_sf b else hm_sfcode fm c
       | HBoxOp _ => 1000
       | _ => hb_sf b end)%Z.
  Proof.
    intros H. destruct o; simpl; try (split; [assumption|reflexivity]); try (split; [discriminate|reflexivity]).
    destruct (Z.eqb_spec (hm_sfcode fm c) 0); simpl; auto.
  Qed.

  Lemma hb_sf_nonzero fm ops : forall b : hbuilder N, (hb_sf b <> 0)%Z -> (hb_sf (fold_left (hb_op fm) ops b) <> 0)%Z.
  Proof.
    induction ops as [|o ops IH]; intros b H; [exact H|]. simpl. apply IH. apply hb_sf_step. exact H.
  Qed.

  Lemma sf_partial_lemma fm ops1 o :
    let b := fold_left (hb_op fm) ops1 (hbuilder_new (N := N)) in
    ~ (exists c, o = HChar c /\ (hb_sf b < 1000)%Z /\ (1000 < hm_sfcode fm c)%Z) ->
    hb_sf (hb_op fm b o) =
      match o with
      | HChar c => sf_after (hb_sf b) (hm_sfcode fm c)
      | HBoxOp _ => 1000%Z
      | _ => hb_sf b
      end.
  Proof.
    cbv zeta. set (b := fold_left _ _ _). intros H.
    destruct (hb_sf_step fm b o (hb_sf_nonzero fm ops1 hbuilder_new ltac:(discriminate))) as (_ & E).
    rewrite E. destruct o; try reflexivity.
    unfold sf_after. destruct (Z.eqb_spec (hm_sfcode fm c) 0); [reflexivity|].
    destruct ((hb_sf b <? 1000) && (1000 <? hm_sfcode fm c))%Z%bool eqn:Eb; [|reflexivity].
    exfalso. apply H. exists c. apply andb_true_iff in Eb. rewrite !Z.ltb_lt in Eb. tauto.
  Qed.

  (** What each operation appends. *)
  Lemma hb_append_lemma fm (b : hbuilder N) o :
    exists n, hb_result (hb_op fm b o) = hb_result b ++ [n] /\
      match o with
      | HChar c => n = NChar c (hm_char fm c)
      | HBoxOp m => n = NBox m
      | HGlue g => n = NGlue g
      | HKern k => n = NKern k
      | HSpace => exists g, n = NGlue g /\ g_stretchOrder g = Normal /\ g_shrinkOrder g = Normal
      end.
  Proof. destruct o; simpl; eexists; (split; [reflexivity|]); try reflexivity. eexists; repeat split. Qed.
End AnyNum.

Lemma Z2Qc_neq0 z : (z <> 0)%Z -> Q2Qc (inject_Z z) <> 0%Qc.
Proof.
  intros H E. apply (f_equal this) in E.
  assert (Eq : (inject_Z z == 0)%Q) by (rewrite <- (this_lit (inject_Z z)), E; reflexivity).
  unfold Qeq in Eq. simpl in Eq. lia.
Qed.

Lemma interword_lemma (fm : hmetrics QcNum) ops :
  let b := fold_left (hb_op fm) ops hbuilder_new in
  exists g, hb_result (hb_op fm b HSpace) = hb_result b ++ [NGlue g] /\
    g_space g = (if (2000 <=? hb_sf b)%Z then hm_space fm + hm_extra fm else hm_space fm)%Qc /\
    (g_stretch g * Q2Qc (inject_Z 1000) = hm_stretch fm * Q2Qc (inject_Z (hb_sf b)))%Qc /\
    (g_shrink g * Q2Qc (inject_Z (hb_sf b)) = hm_shrink fm * Q2Qc (inject_Z 1000))%Qc.
Proof.
  cbv zeta. set (b := fold_left _ _ _).
  assert (Hn : (hb_sf b <> 0)%Z) by (apply hb_sf_nonzero; discriminate).
  eexists. split; [reflexivity|]. cbn [glue_make g_space g_stretch g_shrink].
  pose proof (Z2Qc_neq0 _ Hn). pose proof (Z2Qc_neq0 1000 ltac:(lia)).
  change (nz (N := QcNum) (hb_sf b)) with (Q2Qc (inject_Z (hb_sf b))).
  change (nz (N := QcNum) 1000) with (Q2Qc (inject_Z 1000)).
  generalize dependent (Q2Qc (inject_Z (hb_sf b))). generalize dependent (Q2Qc (inject_Z 1000)). intros u Hu v Hv.
  repeat split; cbn [nmul ndiv QcNum num]; try (field; assumption).
Qed.
