(** The spacing between the lines of a paragraph. *)
From Coq Require Import List ZArith Bool QArith Qcanon Arith Lia.
From Verif.Base Require Import Result Num.
From Verif.Model Require Import Glue Box ListBuilders LineBreaks.
From Verif.Spec Require Import BoxSpec LineBreakSpec.
From Verif.Proofs Require Import BoxProofs ListBuilderProofs LineBreakCreate.
Import ListNotations.

Lemma spaced_keeps bs ls prev (ns out : list (node QcNum)) :
  spaced bs ls prev ns out -> Forall (fun n => keeps n = true) ns -> filter keeps out = ns.
Proof.
  intros H F. induction H; auto; pose proof (Forall_inv F) as K; apply Forall_inv_tail in F; cbn [filter];
    try change (keeps (NGlue g)) with false; try change (keeps (NGlue ls)) with false; cbv iota; rewrite K, IHspaced; auto.
Qed.

Lemma spaced_in bs ls prev (ns out : list (node QcNum)) n : spaced bs ls prev ns out -> In n ns -> In n out.
Proof. intros H. induction H; cbn; intuition. Qed.

Lemma paragraph_spaced (pw : pows QcNum) (P : para QcNum) l out : create pw P l = Ok out ->
  (forall n (m : metrics QcNum), In n out -> box_metrics n = Some m -> (low < m_depth m)%Qc) ->
  spaced (p_baselineskip P) (p_lineskip P)
         (if Qclt_le_dec low (p_prevdepth P) then Some (p_prevdepth P) else None) (filter keeps out) out.
Proof.
  intros H D. destruct l as [|x l]; [injection H as <-; constructor|].
  destruct (create_spec pw P (x :: l) out) as (bs & f & d & lines & _ & _ & _ & _ & _ & E); [discriminate|exact H|].
  set (ns := line_nodes P 0 lines) in *.
  assert (I : forall n, In n ns -> In n out).
  { intros n Hn. rewrite E. generalize (para_builder P). clear -Hn. induction ns as [|a r IH]; intros b; [destruct Hn|].
    cbn [fold_left]. destruct Hn as [->|Hn]; [|apply IH; exact Hn].
    assert (K : forall r (c : vbuilder QcNum), In n (vb_result c) -> In n (vb_result (fold_left vb_push r c))).
    { clear. induction r as [|y r IH]; intros c Hc; [exact Hc|]. cbn [fold_left]. apply IH. unfold vb_push.
      destruct (box_metrics y); cbn [vb_push_box vb_result]; apply in_or_app; auto. }
    apply K. unfold vb_push. destruct (box_metrics n); cbn [vb_push_box vb_result]; apply in_or_app; right; cbn; auto.
    repeat match goal with |- context [if ?b then _ else _] => destruct b end; cbn; auto. }
  destruct (vb_spaced ns (para_builder P)) as (out' & Eo & Sp).
  { intros n m Hn. apply D. apply I. exact Hn. }
  rewrite Eo in E. cbn [para_builder vb_result app] in E. subst out'.
  cbn [para_builder vb_baselineskip vb_lineskip vb_prevdepth] in Sp.
  rewrite (spaced_keeps _ _ _ _ _ Sp).
  - unfold prev_of in Sp. destruct (Qclt_le_dec low (p_prevdepth P)) as [L|L].
    + apply Qc_leb_gt in L. rewrite L in Sp. exact Sp.
    + apply Qc_leb_le in L. rewrite L in Sp. exact Sp.
  - apply Forall_forall. intros n Hn. unfold ns, line_nodes in Hn. apply in_map_iff in Hn. destruct Hn as (p & <- & _). reflexivity.
Qed.
