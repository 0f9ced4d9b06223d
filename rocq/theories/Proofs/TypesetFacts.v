(** Further facts about typeset formulas: glue, other nodes, delimiters, signs. *)
From Coq Require Import List ZArith QArith Qcanon Bool Lia Arith.
From Verif.Base Require Import Result Num.
From Verif.Model Require Import Glue Box MathList MathTypeset.
From Verif.Spec Require Import BoxSpec MathSpec TypesetSpec GeometrySpec.
From Verif.Proofs Require Import BoxProofs TypesetEmit TypesetTypes TypesetBoxes TypesetGeometry TypesetAlone TypesetMore.
Import ListNotations.
Local Open Scope nat_scope.

Section Facts.
  Context {N : Num}.
  Variable E : engine N.

  (** * Glue *)
  Definition glue_list (l : list (MathTypeset.item N)) : list (option (glue N)) := map (fun i => glue_at (it_orig i)) l.
  Lemma glue_list_app a b : glue_list (a ++ b) = glue_list a ++ glue_list b.
  Proof. apply map_app. Qed.
  Lemma glue_retype l : forall k, glue_list (update k (fun i => mkItem (retype Ord (it_orig i)) (option_map (retype Ord) (it_cur i))) l) = glue_list l.
  Proof.
    induction l as [|i l IH]; intros [|k]; try reflexivity; cbn.
    - f_equal. destruct i as [o c]. cbn. destruct o; reflexivity.
    - f_equal. apply IH.
  Qed.
  Lemma glue_rule6 st a : glue_list (p_done (rule6 st a)) = glue_list (p_done st).
  Proof.
    unfold rule6. destruct (_ || _)%bool; [|reflexivity]. destruct (p_recent st) as [k|]; [|reflexivity].
    destruct (recent_type st); [|reflexivity]. destruct (_ =? _)%Z; [|reflexivity]. apply glue_retype.
  Qed.
  Lemma scale_mu s g : scale_glue E s g = mu_glue E s g.
  Proof. reflexivity. Qed.
  Section Rec.
    Variable rec : style -> list (mnode N) -> result (list (node N) * list (mnode N)).
    Definition glue_inv (target : list (option (glue N))) (st : pstate N) : Prop :=
      glue_list (p_done st) ++ converted E (p_style st) (p_rest st) = target.
    Lemma glue_step target st : glue_inv target st -> holds (step E rec st) (glue_inv target).
    Proof.
      intros Hi. unfold step. destruct (p_rest st) as [|e r] eqn:Hr; [apply holds_ok; exact Hi|].
      unfold glue_inv in Hi. rewrite Hr in Hi.
      assert (P : forall o c s' rc, glue_list (p_done st) ++ converted E (p_style st) (e :: r) = target ->
        converted E (p_style st) (e :: r) = glue_at o :: converted E s' r ->
        glue_inv target (mkP (p_done st ++ [mkItem o c]) r s' rc)).
      { intros o c s' rc H1 H2. unfold glue_inv. cbn [p_done p_rest p_style]. rewrite glue_list_app, <- app_assoc.
        rewrite <- H1, H2. reflexivity. }
      destruct e as [a|y|n d|n d|c cols|s|o g|x].
      - apply holds_any. intros a'. apply holds_ok. unfold glue_inv, advance_atom. cbn [p_done p_rest p_style].
        rewrite glue_list_app, glue_rule6, rule6_style, <- app_assoc. exact Hi.
      - apply holds_ok. apply P; [exact Hi|reflexivity].
      - intros st' H. apply bind_Ok in H. destruct H as ([a o] & Ha & [= <-]). apply P; [exact Hi|].
        unfold rule15 in Ha. apply bind_Ok in Ha. destruct Ha as (rx & _ & Ha). apply bind_Ok in Ha. destruct Ha as (rz & _ & Ha).
        cbv zeta in Ha. destruct (neqb _ _); [|discriminate]. injection Ha as _ <-. reflexivity.
      - intros st' H. apply bind_Ok in H. destruct H as ([a o] & Ha & [= <-]). apply P; [exact Hi|].
        unfold processRoot in Ha. apply bind_Ok in Ha. destruct Ha as (rx & _ & Ha). destruct (radical E _ _) as [y b].
        apply bind_Ok in Ha. destruct Ha as (ri & _ & Ha). cbv zeta in Ha. apply bind_Ok in Ha. destruct Ha as (q & _ & [= _ <-]).
        reflexivity.
      - intros st' H. apply bind_Ok in H. destruct H as ([a o] & Ha & [= <-]). apply P; [exact Hi|].
        unfold processMatrix in Ha. apply bind_Ok in Ha. destruct Ha as (rx & _ & Ha). destruct (Nat.eqb cols 0); [discriminate|].
        apply bind_Ok in Ha. destruct Ha as (q & _ & [= _ <-]). reflexivity.
      - apply holds_ok. apply P; [exact Hi|reflexivity].
      - apply holds_ok. unfold rule2. destruct o.
        + apply P; [exact Hi|reflexivity].
        + apply P; [exact Hi|reflexivity].
        + destruct r as [|n r']; [apply P; [exact Hi|reflexivity]|].
          rewrite script_style_leb. cbn [converted] in Hi. change (isGlueOrKern n) with (glue_or_kern n).
          destruct (glue_or_kern n && script_style (p_style st)) eqn:Q.
          * unfold glue_inv. cbn [p_done p_rest p_style advance]. rewrite !glue_list_app, <- !app_assoc. exact Hi.
          * apply P; [cbn [converted]; rewrite Q; exact Hi|]. cbn [converted]. rewrite Q. reflexivity.
      - destruct x; apply holds_ok; first [unfold glue_inv; rewrite Hr; exact Hi|apply P; [exact Hi|reflexivity]].
    Qed.
    Lemma glue_loop target : forall n st, glue_inv target st ->
      holds (loop E rec n st) (fun st' => glue_list (p_done st') = target).
    Proof.
      induction n as [|n IH]; intros st Hi; cbn [loop]; destruct (p_rest st) eqn:Hr.
      - apply holds_ok. unfold glue_inv in Hi. rewrite Hr in Hi. cbn [converted] in Hi. rewrite app_nil_r in Hi. exact Hi.
      - intros ? [=].
      - apply holds_ok. unfold glue_inv in Hi. rewrite Hr in Hi. cbn [converted] in Hi. rewrite app_nil_r in Hi. exact Hi.
      - eapply holds_bind; [apply glue_step; exact Hi|]. exact IH.
    Qed.
  End Rec.
  Theorem returned_glue : forall n p s l out l', mlist2hlist E n p s l = Ok (out, l') ->
    map glue_at l' = converted E s l.
  Proof.
    intros n p s l out l' H. destruct l as [|e r]; [destruct n; injection H as <- <-; reflexivity|].
    destruct n as [|n]; [discriminate|]. cbn [mlist2hlist] in H. apply bind_Ok in H. destruct H as (st & H1 & H).
    apply bind_Ok in H. destruct H as (cur & _ & H). apply bind_Ok in H. destruct H as (o & _ & [= <- <-]).
    apply (glue_loop _ (converted E s (e :: r))) in H1; [|reflexivity]. rewrite <- H1. unfold glue_list. rewrite map_map. reflexivity.
  Qed.

  (** * Kerns, rules and penalties *)
  Lemma render_keeps b p s x : forall l before boxes, length boxes = length (classes l) ->
    In (SNode x) l -> In x (render E b p s before l boxes).
  Proof.
    induction l as [|c l IH]; intros before boxes Hl H; [destruct H|]. destruct H as [->|H].
    - cbn. left. reflexivity.
    - destruct c as [t|y| |y]; cbn [render classes flat_map] in *.
      + destruct boxes as [|bx bs]; [discriminate|]. apply in_or_app. right. right. apply in_or_app. right.
        apply IH; [|exact H]. cbn in Hl. injection Hl as Hl. exact Hl.
      + right. apply IH; assumption.
      + apply IH; assumption.
      + apply IH; assumption.
  Qed.
  Lemma expected_keeps x : lasting x = true -> forall l s, forallb no_nonscript l = true -> In (MNode x) l -> In (SNode x) (expected (N := N) s l).
  Proof.
    intros Hx. induction l as [|e l IH]; intros s Hn H; [destruct H|]. cbn [forallb] in Hn. apply andb_true_iff in Hn. destruct Hn as [He Hn].
    destruct H as [->|H].
    - destruct x; try discriminate Hx; left; reflexivity.
    - destruct e as [a|y|n d|n d|c cols|s'|o g|z]; cbn [expected]; try (right; apply IH; assumption).
      + apply IH; assumption.
      + destruct o; try discriminate He; right; apply IH; assumption.
      + destruct z; right; apply IH; assumption.
  Qed.
  Lemma delimited_keeps (x : node N) l : In (SNode x) l -> (forall y r, l = SBoundary y :: r -> r <> [] -> exists z, last r SNothing = SBoundary z) ->
    In (SNode x) (delimited l).
  Proof.
    intros H Hb. destruct l as [|c l]; [exact H|]. destruct c as [t|y| |y]; try exact H.
    destruct H as [H|H]; [discriminate|]. destruct l as [|d l]; [destruct H|].
    destruct (Hb _ _ eq_refl ltac:(discriminate)) as [z Hz].
    right. apply in_or_app. left. rewrite (app_removelast_last SNothing (l := d :: l)) in H by discriminate. rewrite Hz in H.
    apply in_app_iff in H. destruct H as [H|[H|[]]]; [exact H|discriminate].
  Qed.
  Theorem others_kept : forall n p s l out l' x, mlist2hlist E n p s l = Ok (out, l') -> forallb no_nonscript l = true ->
    lasting x = true -> In (MNode x) l -> In x out.
  Proof.
    intros n p s l out l' x H Hn Hx Hi. destruct (typeset_boxes E n p s l out l' H) as (inner & boxes & _ & Ha & Hl & ->).
    apply render_keeps; [exact Hl|]. apply delimited_keeps; [apply expected_keeps; assumption|].
    intros y r Hr Hne. unfold all_boxes in Ha. rewrite Hr in Ha. destruct r as [|c r]; [congruence|].
    destruct Ha as (z & _ & _ & Hz & _). exists z. exact Hz.
  Qed.
End Facts.

(** * Delimiters *)
Section Exact.
  Local Open Scope Qc_scope.
  Lemma nmax_l (a b : Qc) : a <= nmax (N := QcNum) a b.
  Proof. unfold nmax. cbn [nltb QcNum]. destruct (Qc_ltb a b) eqn:Q; qc_bool; qclra. Qed.
  Lemma nmax_r (a b : Qc) : b <= nmax (N := QcNum) a b.
  Proof. unfold nmax. cbn [nltb QcNum]. destruct (Qc_ltb a b) eqn:Q; qc_bool; qclra. Qed.
  Lemma nmax_lub (a b c : Qc) : a <= c -> b <= c -> nmax (N := QcNum) a b <= c.
  Proof. unfold nmax. cbn [nltb QcNum]. destruct (Qc_ltb a b); auto. Qed.
  Lemma fence_mono (axis u d u' d' : Qc) : u <= u' -> d <= d' -> fence (N := QcNum) axis u d <= fence (N := QcNum) axis u' d'.
  Proof.
    intros Hu Hd. unfold fence. cbv zeta. cbn [nsub nadd nmul ndiv nz nlit QcNum num].
    set (r := nmax (N := QcNum) (u - axis) (d + axis)). set (r' := nmax (N := QcNum) (u' - axis) (d' + axis)).
    assert (R : r <= r').
    { apply nmax_lub; [pose proof (nmax_l (u' - axis) (d' + axis))|pose proof (nmax_r (u' - axis) (d' + axis))]; fold r' in H; clearbody r'; qclra. }
    clearbody r r'. apply nmax_lub.
    - eapply Qcle_trans; [|apply nmax_l]. unfold Qcdiv. apply Qcmult_le_compat_r; [|discriminate].
      rewrite !(Qcmult_comm (nz (N := QcNum) 901)). apply Qcmult_le_compat_r; [exact R|discriminate].
    - eapply Qcle_trans; [|apply nmax_r].
      assert (X : nz (N := QcNum) 2 * r <= nz (N := QcNum) 2 * r').
      { rewrite !(Qcmult_comm (nz (N := QcNum) 2)). apply Qcmult_le_compat_r; [exact R|discriminate]. }
      exact (Qcplus_le_compat _ _ _ _ X (Qcle_refl _)).
  Qed.
  Lemma sum_ge (l : list Qc) : forall a, (forall x, In x l -> 0 <= x) -> a <= fold_left (nadd (n := QcNum)) l a /\
    forall x, 0 <= a -> In x l -> x <= fold_left (nadd (n := QcNum)) l a.
  Proof.
    induction l as [|y l IH]; intros a Hp; cbn [fold_left].
    - split; [apply Qcle_refl|]. intros x _ [].
    - destruct (IH (nadd (n := QcNum) a y) (fun x Hx => Hp x (or_intror Hx))) as [I1 I2].
      pose proof (Hp y (or_introl eq_refl)) as Hy. cbn [nadd QcNum num] in *.
      split; [eapply Qcle_trans; [|exact I1]; qclra|]. intros x Ha [->|Hx].
      + eapply Qcle_trans; [|exact I1]. qclra.
      + apply I2; [qclra|exact Hx].
  Qed.
  Theorem fence_enough (axis : Qc) (ms : list (metrics QcNum)) m :
    (forall m, In m ms -> 0 <= m_height m /\ 0 <= m_depth m) -> In m ms ->
    fence (N := QcNum) axis (m_height m) (m_depth m) <= fence_around (N := QcNum) axis ms.
  Proof.
    intros Hp Hi. unfold fence_around. apply fence_mono.
    - refine (proj2 (sum_ge (map (@m_height QcNum) ms) 0 _) _ (Qcle_refl 0) (in_map _ _ _ Hi)).
      intros x Hx. apply in_map_iff in Hx. destruct Hx as (q & <- & Hq). exact (proj1 (Hp q Hq)).
    - refine (proj2 (sum_ge (map (@m_depth QcNum) ms) 0 _) _ (Qcle_refl 0) (in_map _ _ _ Hi)).
      intros x Hx. apply in_map_iff in Hx. destruct Hx as (q & <- & Hq). exact (proj2 (Hp q Hq)).
  Qed.
  Theorem fence_one (axis : Qc) (m : metrics QcNum) :
    fence_around (N := QcNum) axis [m] = fence (N := QcNum) axis (m_height m) (m_depth m).
  Proof. unfold fence_around. cbn [map fold_left]. f_equal; exact (Qcplus_0_l _). Qed.

  (** * The lower of two scripts *)
  Lemma lower_script (b : lbox QcNum) v w up down :
    is_box v -> b_list b = [v; kern (up + down); w] -> m_height (b_metrics b) = hgt v + up ->
    baseline b [v; kern (up + down)] w = - (down + dep v + hgt w).
  Proof.
    intros [m Hm] _ H2. unfold baseline. rewrite H2. cbn [flat_map]. 
    assert (X : item_extent v = [hgt v + dep v]).
    { unfold hgt, dep. rewrite Hm. destruct v; cbn in Hm; try discriminate; injection Hm as <-; reflexivity. }
    rewrite X. unfold qsum. cbn. ring.
  Qed.
  (** * Gap of a radical *)
  Lemma gap_apart (c d t : Qc) : t + c < d -> centred_gap c d t <> c /\ c < centred_gap c d t.
  Proof.
    intros H. unfold centred_gap. destruct (Qclt_le_dec (t + c) d) as [_|L]; [|exfalso; exact (Qclt_not_le _ _ H L)].
    assert (L : c < half * (c + d - t)).
    { pose proof (half_double (c + d - t)) as X. set (y := half * (c + d - t)) in *. clearbody y. qclra. }
    split; [|exact L]. intros Q. rewrite Q in L. exact (Qclt_not_le _ _ L (Qcle_refl _)).
  Qed.
  Lemma gap_same (c d t : Qc) : d <= t + c -> centred_gap c d t = c.
  Proof. intros H. unfold centred_gap. destruct (Qclt_le_dec (t + c) d) as [L|_]; [exfalso; exact (Qclt_not_le _ _ L H)|reflexivity]. Qed.
  Lemma shift_gap (a b h : Qc) : - (a + h) = - (b + h) -> a = b.
  Proof. intros H. replace a with (- - (a + h) - h) by ring. rewrite H. ring. Qed.
End Exact.

(** * Where the delimiters stand *)
Section Ends.
  Variable E : engine QcNum.
  Lemma render_ends p s t (c : node QcNum) : forall l before bs, length bs = length (classes l) ->
    exists pre, render E Op p s before (l ++ [SAtom t]) (bs ++ [c]) = pre ++ [c].
  Proof.
    induction l as [|x l IH]; intros before bs H.
    - destruct bs; [|discriminate H]. cbn [app render].
      exists (match before with Some u => tex_space E s u t | None => [] end). reflexivity.
    - destruct x as [u|x| |y]; cbn [app render].
      + destruct bs as [|b bs]; [discriminate H|]. cbn [app].
        destruct (IH (Some u) bs) as [pre ->]; [injection H as H; exact H|].
        exists ((match before with Some v => tex_space E s v u | None => [] end ++ [b]) ++
                slot_penalty Op p u (l ++ [SAtom t]) ++ pre). rewrite <- !app_assoc. reflexivity.
      + destruct (IH before bs H) as [pre ->]. exists (x :: pre). reflexivity.
      + exact (IH before bs H).
      + exact (IH before bs H).
  Qed.
  Lemma classes_app (l m : list (slot QcNum)) : classes (l ++ m) = classes l ++ classes m.
  Proof. apply flat_map_app. Qed.
  Theorem delimiters_stand n p s y r out l' : mlist2hlist E n p s (MBoundary y :: r) = Ok (out, l') -> expected s r <> [] ->
    exists b mid c, out = b :: mid ++ [c] /\
      (exists m sh ra o l, b = NList Horizontal m sh ra o l /\ on_axis (f_axis (symbols E (end_style s r))) m sh) /\
      (exists m sh ra o l, c = NList Horizontal m sh ra o l /\ on_axis (f_axis (symbols E (end_style s r))) m sh).
  Proof.
    intros H Hr. destruct (typeset_boxes E n p s _ out l' H) as (inner & boxes & _ & Ha & Hl & ->).
    cbn [expected end_style] in *. unfold all_boxes in Ha. unfold delimited in *.
    destruct (expected s r) as [|e es] eqn:Q; [congruence|].
    destruct Ha as (z & b & c & Hz & -> & Hb & Hc). set (w := e :: es) in *. assert (Hw : w <> []) by discriminate. clearbody w. clear e es.
    cbn [classes flat_map app] in Hl. change (flat_map _ ?l) with (classes l) in Hl.
    rewrite classes_app in Hl. cbn [length] in Hl. injection Hl as Hl. rewrite !app_length in Hl. cbn in Hl.
    cbn [render].
    destruct (render_ends p s 5 c (removelast w) (Some 4%Z) inner) as [pre Hp]; [lia|]. rewrite Hp.
    exists b, (slot_penalty Op p 4 (removelast w ++ [SAtom 5%Z]) ++ pre), c.
    split; [rewrite <- app_assoc; reflexivity|].
    split; [exact (delimiter_on_axis E _ _ _ _ Hb)|exact (delimiter_on_axis E _ _ _ _ Hc)].
  Qed.
  Lemma one_axis (m : metrics QcNum) sh a b : on_axis a m sh -> on_axis b m sh -> a = b.
  Proof.
    unfold on_axis. intros H1 H2. set (h := m_height m) in *. set (d := m_depth m) in *. clearbody h d. cbn [num QcNum] in *.
    assert (X : (a + a = b + b)%Qc).
    { replace (a + a)%Qc with (h - sh - (d + sh) - ((h - sh - a) - (d + sh + a)))%Qc by ring.
      replace (b + b)%Qc with (h - sh - (d + sh) - ((h - sh - b) - (d + sh + b)))%Qc by ring. rewrite H1, H2. ring. }
    assert (Y : forall q : Qc, q = (half * (q + q))%Qc).
    { intros q. rewrite (half_double q) at 1. ring. }
    rewrite (Y a), (Y b), X. reflexivity.
  Qed.
  (** with a style change between them they stand on another axis *)
  Theorem delimiters_off n p s s' y r out l' : mlist2hlist E n p s (MBoundary y :: r) = Ok (out, l') -> expected s r <> [] ->
    end_style s r = s' -> f_axis (symbols E s') <> f_axis (symbols E s) ->
    forall b rest, out = b :: rest ->
    ~ exists m sh ra o l, b = NList Horizontal m sh ra o l /\ on_axis (f_axis (symbols E s)) m sh.
  Proof.
    intros H Hr <- Hx b rest Ho (m & sh & ra & o & l & -> & Hs).
    destruct (delimiters_stand _ _ _ _ _ _ _ H Hr) as (b' & mid & c & Ho' & (m' & sh' & ra' & o' & l2 & -> & Hs') & _).
    rewrite Ho' in Ho. injection Ho as <- <- _ _ _ _. exact (Hx (one_axis _ _ _ _ Hs' Hs)).
  Qed.
End Ends.
