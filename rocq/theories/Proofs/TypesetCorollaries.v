(** Consequences of the layout theorem. *)
From Coq Require Import List ZArith Bool Lia Arith.
From Verif.Base Require Import Result Num.
From Verif.Model Require Import Glue Box MathList MathTypeset.
From Verif.Spec Require Import MathSpec TypesetSpec.
From Verif.Proofs Require Import TypesetEmit TypesetTypes TypesetBoxes.
Import ListNotations.
Local Open Scope nat_scope.

Section Corollaries.
  Context {N : Num}.

  Definition no_fraction (n : mnode N) : bool :=
    match n with MFrac _ _ | MBoundary _ => false | _ => true end.
  Lemma next_class_head : forall (l : list (mnode N)) s t, forallb no_fraction l = true ->
    hd_error (classes (expected s l)) = Some t -> closing t = true -> next_class l = Some t.
  Proof.
    assert (F : forall u (r : list (mnode N)) t, final_class u r = t -> closing t = true -> u = t).
    { intros u r t <-. unfold final_class. destruct (Z.eq_dec u 2) as [->|Hu].
      - destruct (next_class r); [destruct (closing z)|]; cbn; discriminate.
      - assert (H : final_class u r = plain_class u) by (unfold final_class; destruct u as [|[q|[]|]|]; try reflexivity; congruence).
        unfold final_class in H. rewrite H. unfold plain_class. destruct (7 <? u)%Z; [discriminate|reflexivity]. }
    enough (G : forall k (l : list (mnode N)), length l <= k -> forall s t, forallb no_fraction l = true ->
      hd_error (classes (expected s l)) = Some t -> closing t = true -> next_class l = Some t).
    { intros l. exact (G (length l) l (le_n _)). }
    induction k as [|k IH]; intros l Hk s t Hf Hh Hc.
    { destruct l; [discriminate|cbn in Hk; lia]. }
    destruct l as [|e r]; [discriminate|]. cbn [length] in Hk. cbn [forallb] in Hf.
    apply andb_true_iff in Hf. destruct Hf as [He Hf].
    assert (Hr : length r <= k) by lia.
    destruct e as [a|y|x d|x d|c cols|s'|o g|x]; try discriminate He; cbn [expected next_class] in *.
    - cbn in Hh. injection Hh as Hh. f_equal. exact (F _ _ _ Hh Hc).
    - cbn in Hh. injection Hh as <-. discriminate Hc.
    - cbn in Hh. injection Hh as <-. discriminate Hc.
    - exact (IH r Hr s' t Hf Hh Hc).
    - destruct o; try exact (IH r Hr s t Hf Hh Hc).
      destruct r as [|e2 r']; [discriminate|].
      destruct (glue_or_kern e2 && script_style s) eqn:Q; [|exact (IH _ Hr s t Hf Hh Hc)].
      apply andb_true_iff in Q. destruct Q as [Q _]. cbn [forallb] in Hf. apply andb_true_iff in Hf. destruct Hf as [_ Hf].
      assert (Hn : next_class (e2 :: r') = next_class r').
      { destruct e2 as [| | | | | | |[]]; try discriminate Q; reflexivity. }
      rewrite Hn. apply (IH r') with s; auto. cbn in Hr. lia.
    - destruct x; exact (IH r Hr s t Hf Hh Hc).
  Qed.

  (** After a binary operator that remains one: no relation, closing or punctuation *)
  Theorem bin_not_before_closing : forall (l : list (mnode N)) s i u,
    forallb no_fraction l = true ->
    nth_error (classes (expected s l)) i = Some 2%Z -> nth_error (classes (expected s l)) (Datatypes.S i) = Some u ->
    closing u = false.
  Proof.
    assert (F : forall t (r : list (mnode N)) u, final_class t r = 2%Z -> next_class r = Some u -> closing u = false).
    { intros t r u. unfold final_class. intros H Hn. rewrite Hn in H. destruct (closing u); [|reflexivity]. exfalso.
      unfold plain_class in H. destruct t as [|[q|[]|]|]; try discriminate H; try (destruct (7 <? _)%Z; discriminate H). }
    enough (G : forall k (l : list (mnode N)), length l <= k -> forall s i u, forallb no_fraction l = true ->
      nth_error (classes (expected s l)) i = Some 2%Z -> nth_error (classes (expected s l)) (Datatypes.S i) = Some u ->
      closing u = false).
    { intros l. exact (G (length l) l (le_n _)). }
    induction k as [|k IH]; intros l Hk s i u Hf Hi Hu.
    { destruct l; [destruct i; discriminate|cbn in Hk; lia]. }
    destruct l as [|e r]; [destruct i; discriminate|]. cbn [length] in Hk. cbn [forallb] in Hf.
    apply andb_true_iff in Hf. destruct Hf as [He Hf].
    assert (Hr : length r <= k) by lia.
    assert (Zero : forall t, t = 0%Z ->
      nth_error (t :: classes (expected s r)) i = Some 2%Z ->
      nth_error (t :: classes (expected s r)) (Datatypes.S i) = Some u -> closing u = false).
    { intros t -> H1 H2. destruct i as [|i]; [discriminate|]. exact (IH r Hr s i u Hf H1 H2). }
    destruct e as [a|y|x d|x d|c cols|s'|o g|x]; try discriminate He; cbn [expected] in *.
    - change (classes (SAtom ?t :: ?q)) with (t :: classes q) in *.
      destruct i as [|i]; [|exact (IH r Hr s i u Hf Hi Hu)].
      cbn in Hi. injection Hi as Hi. cbn [nth_error] in Hu.
      destruct (closing u) eqn:Qc; [|reflexivity]. exfalso.
      assert (Hh : hd_error (classes (expected s r)) = Some u) by (destruct (classes (expected s r)); [discriminate|exact Hu]).
      pose proof (F _ _ _ Hi (next_class_head r s u Hf Hh Qc)). congruence.
    - exact (Zero 0%Z eq_refl Hi Hu).
    - exact (Zero 0%Z eq_refl Hi Hu).
    - exact (IH r Hr s' i u Hf Hi Hu).
    - destruct o; try exact (IH r Hr s i u Hf Hi Hu).
      destruct r as [|e2 r']; [destruct i; discriminate|].
      destruct (glue_or_kern e2 && script_style s); [|exact (IH _ Hr s i u Hf Hi Hu)].
      cbn [forallb] in Hf. apply andb_true_iff in Hf. destruct Hf as [_ Hf].
      apply (IH r') with s i; auto. cbn in Hr. lia.
    - destruct x; exact (IH r Hr s i u Hf Hi Hu).
  Qed.

  (** no operators: the penalties are those of TeX *)
  Lemma render_no_bin (E : engine N) p s : forall l before boxes,
    ~ In Op (classes l) -> ~ In Bin (classes l) ->
    render E Op p s before l boxes = render E Bin p s before l boxes.
  Proof.
    induction l as [|c l IH]; intros before boxes H1 H2; [reflexivity|].
    destruct c as [t|x| |y]; cbn [render]; try (rewrite IH; auto; fail).
    change (classes (SAtom t :: l)) with (t :: classes l) in *. cbn [In] in *.
    destruct boxes as [|b bs]; [reflexivity|]. f_equal. f_equal. rewrite IH by tauto. f_equal.
    unfold slot_penalty. destruct l; [reflexivity|].
    replace (t =? Op)%Z with false by (symmetry; apply Z.eqb_neq; tauto).
    replace (t =? Bin)%Z with false by (symmetry; apply Z.eqb_neq; tauto). reflexivity.
  Qed.
  Theorem penalties_without_bin (E : engine N) n p s l out l' : mlist2hlist E n p s l = Ok (out, l') ->
    ~ In Op (classes (delimited (expected s l))) -> ~ In Bin (classes (delimited (expected s l))) ->
    exists boxes, length boxes = length (classes (delimited (expected s l))) /\
      out = render E Bin p s None (delimited (expected s l)) boxes.
  Proof.
    intros H H1 H2. apply typeset_layout in H. destruct H as (boxes & L & ->). exists boxes. split; [exact L|].
    apply render_no_bin; assumption.
  Qed.

  (** glue alone: nothing *)
  Lemma glue_lost (E : engine N) n p s g :
    mlist2hlist E (Datatypes.S (Datatypes.S n)) p s [MNode (NGlue g)] = Ok ([], [MNode (NGlue g)]).
  Proof. destruct n; reflexivity. Qed.
End Corollaries.
