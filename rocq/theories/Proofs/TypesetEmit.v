(** Spaces and penalties of the horizontal list. *)
From Coq Require Import List ZArith Bool Arith Lia.
From Verif.Base Require Import Result Num.
From Verif.Model Require Import Glue Box MathList MathTypeset.
From Verif.Spec Require Import MathSpec TypesetSpec.
Import ListNotations.

Section Emit.
  Context {N : Num}.
  Variable E : engine N.

  Definition type_ok (t : Z) : Prop := (0 <= t <= 7)%Z.

  Lemma type_cases t : type_ok t ->
    t = 0%Z \/ t = 1%Z \/ t = 2%Z \/ t = 3%Z \/ t = 4%Z \/ t = 5%Z \/ t = 6%Z \/ t = 7%Z.
  Proof. unfold type_ok. lia. Qed.

  Lemma space_table s t u : type_ok t -> type_ok u -> insertSpace E s t u = Ok (tex_space E s t u).
  Proof.
    intros Ht Hu. apply type_cases in Ht. apply type_cases in Hu.
    destruct Ht as [->|[->|[->|[->|[->|[->|[->| ->]]]]]]];
      destruct Hu as [->|[->|[->|[->|[->|[->|[->| ->]]]]]]]; destruct s; reflexivity.
  Qed.

  (** outside the table nothing is inserted: the assertions fail *)
  Lemma space_outside s t u : (0 <= t)%Z -> (0 <= u)%Z -> ~ (type_ok t /\ type_ok u) ->
    insertSpace E s t u = Abort.
  Proof.
    unfold type_ok, insertSpace, Inner. intros Ht Hu H.
    destruct (Z.leb_spec t 7); cbn [negb]; [|reflexivity].
    destruct (Z.leb_spec u 7); cbn [negb]; [|reflexivity]. lia.
  Qed.

  Lemma penalty_now p t after :
    penalty_after p t after = penalty_rule Op p t after :> list (node N).
  Proof.
    unfold penalty_after, penalty_rule, next_is_penalty, next_is_rel.
    destruct after as [|n r]; [rewrite andb_false_r; reflexivity|]. cbn [negb]. rewrite andb_true_r.
    change (match n with MNode (NPenalty _) => true | _ => false end) with (is_pen n).
    change (match n with MAtom a => (a_ty a =? Rel)%Z | _ => false end) with (is_rel n).
    destruct (pen_on p && negb (is_pen n)); [|reflexivity].
    unfold Op, Rel. destruct (Z.eqb_spec t 1) as [->|H1]; cbn.
    - destruct (pen_bin p =? 0)%Z; reflexivity.
    - reflexivity.
  Qed.

  Lemma last_type_snoc l n : last_type (l ++ [n]) =
    match n with MAtom a => Some (a_ty a) | _ => last_type (N := N) l end.
  Proof.
    unfold last_type, types. rewrite flat_map_app, rev_app_distr. destruct n; try reflexivity.
  Qed.

  Lemma emit_pieces p s : forall l before,
    Forall type_ok (types before) -> Forall type_ok (types l) ->
    emit E p s (last_type before) l = Ok (pieces E (penalty_rule Op p) s before l).
  Proof.
    induction l as [|n r IH]; intros before Hb Hl; [reflexivity|].
    assert (Hr : Forall type_ok (types r)).
    { unfold types in Hl. cbn in Hl. apply Forall_app in Hl. tauto. }
    assert (Hb' : Forall type_ok (types (before ++ [n]))).
    { unfold types in *. rewrite flat_map_app. apply Forall_app. split; [exact Hb|].
      cbn in Hl |- *. apply Forall_app in Hl. rewrite app_nil_r. tauto. }
    specialize (IH (before ++ [n]) Hb' Hr). rewrite last_type_snoc in IH.
    destruct n as [a|y|x y|x y|x y|x|o g|x]; cbn [emit pieces piece]; try (rewrite IH; reflexivity).
    - rewrite IH. clear IH. rewrite <- penalty_now.
      assert (Ha : type_ok (a_ty a)).
      { unfold types in Hl. cbn in Hl. inversion Hl; assumption. }
      assert (Hs : match last_type before with
                   | Some t => insertSpace E s t (a_ty a) | None => Ok [] end =
                   Ok (match last_type before with
                       | Some t => tex_space E s t (a_ty a) | None => [] end)).
      { unfold last_type. destruct (rev (types before)) as [|t q] eqn:Q; [reflexivity|].
        apply space_table; [|exact Ha]. apply Forall_rev in Hb. rewrite Q in Hb. inversion Hb; assumption. }
      rewrite Hs. cbn. rewrite <- app_assoc. reflexivity.
    - rewrite IH. cbn. destruct x; reflexivity.
  Qed.
End Emit.
