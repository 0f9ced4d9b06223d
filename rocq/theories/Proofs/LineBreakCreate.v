(** Consequences for the chosen breaks, and the construction of the lines. *)
From Coq Require Import List ZArith Bool QArith Qcanon Arith Lia Sorted.
From Verif.Base Require Import Result Num.
From Verif.Model Require Import Glue Box ListBuilders LineBreaks.
From Verif.Spec Require Import BoxSpec LineBreakSpec.
From Verif.Proofs Require Import BoxProofs LineBreakProofs LineBreakOpt.
Import ListNotations.

Section AnyNum.
  Context {N : Num}.
  Variable pw : pows N.
  Variable P : para N.
  Variable l : list (node N).
  Notation brk := (breaking l P pw).

  (** * C34 *)
  Lemma brk_sorted bs f d : brk bs f d -> StronglySorted gt bs /\ Forall (legal l) bs.
  Proof.
    induction 1 as [|bs f d e b H (IH1 & IH2) Hok r d' Hd']; [split; constructor|].
    destruct Hok as (_ & Ha & Hlg & _). split; constructor; auto.
    destruct bs as [|b0 bs]; constructor; simpl in Ha; [lia|].
    inversion IH1 as [|? ? _ Hf]; subst. eapply Forall_impl; [|exact Hf]. intros x Hx. simpl in *. lia.
  Qed.

  Lemma sorted_rev (bs : list nat) : StronglySorted gt bs -> StronglySorted lt (rev bs).
  Proof.
    induction 1 as [|b bs H IH Hf]; [constructor|]. cbn [rev].
    assert (G : forall xs, StronglySorted lt xs -> Forall (fun x => x < b)%nat xs -> StronglySorted lt (xs ++ [b])).
    { induction xs as [|x xs IHx]; intros S1 S2; cbn [app]; [repeat constructor|].
      inversion S1; inversion S2; subst. constructor; [apply IHx; assumption|].
      apply Forall_app. split; [assumption|]. constructor; [assumption|constructor]. }
    apply G; [exact IH|]. apply Forall_rev. eapply Forall_impl; [|exact Hf]. intros; simpl in *; lia.
  Qed.

  (** * C35 *)
  Lemma forced_legal i : forced_at l i -> legal l i.
  Proof. unfold forced_at, legal. destruct (nth_error l i) as [[]|]; try tauto. lia. Qed.

  Lemma forced_before bs f d : brk bs f d -> forall i, forced_at l i ->
    (forall b, last_break bs = Some b -> (i <= b)%nat) -> bs = [] \/ In i bs.
  Proof.
    induction 1 as [|bs f d e b H IH Hok r d' Hd']; intros i Hi Hle; [auto|].
    right. specialize (Hle b eq_refl). destruct (Nat.eq_dec i b) as [->|Hne]; [left; reflexivity|].
    right. destruct Hok as (_ & Ha & Hlg & _ & Hbar).
    assert (D : after (last_break bs) i \/ ~ after (last_break bs) i).
    { destruct bs; simpl; [auto|lia]. }
    destruct D as [D|D].
    - exfalso. apply (Hbar i D); [lia|]. split; [apply forced_legal; exact Hi|left; exact Hi].
    - destruct (IH i Hi) as [->|Hin]; [|simpl in D; tauto|exact Hin].
      intros b0 E. destruct bs; simpl in *; [discriminate|]. inversion E; subst. lia.
  Qed.

  Lemma forced_taken bs f d : brk bs f d -> complete l P bs -> forall i, forced_at l i -> In i bs.
  Proof.
    intros Hb Hc i Hi.
    destruct (line_begin_exists l (last_break bs)) as (e & He).
    { intros b E. pose proof (brk_lastlt pw P l _ _ _ Hb). destruct bs; simpl in *; [discriminate|]. inversion E; subst. lia. }
    assert (D : after (last_break bs) i \/ ~ after (last_break bs) i).
    { destruct bs; simpl; [auto|lia]. }
    destruct D as [D|D].
    - exfalso. apply (Hc e i He D). split; [apply forced_legal; exact Hi|left; exact Hi].
    - destruct (forced_before bs f d Hb i Hi) as [->|Hin]; [|simpl in D; tauto|exact Hin].
      intros b E. destruct bs; simpl in *; [discriminate|]. inversion E; subst. lia.
  Qed.

  Lemma last_forced bs f d k : brk bs f d -> complete l P bs -> length l = S k -> forced_at l k ->
    last_break bs = Some k.
  Proof.
    intros Hb Hc Hk Hf. pose proof (forced_taken bs f d Hb Hc k Hf) as Hin.
    destruct (brk_sorted bs f d Hb) as (Hs & Hlg).
    destruct bs as [|b bs]; [destruct Hin|]. simpl. f_equal.
    destruct Hin as [->|Hin]; [reflexivity|].
    inversion Hs as [|? ? _ Hg]; subst. rewrite Forall_forall in Hg. specialize (Hg k Hin).
    inversion Hlg; subst. pose proof (legal_lt l b H1). lia.
  Qed.

  (** In a list ended by a forced break, complete breakings are those that end
      there. *)
  Lemma complete_forced bs f d k : brk bs f d -> length l = S k -> forced_at l k ->
    (complete l P bs <-> last_break bs = Some k).
  Proof.
    intros Hb Hk Hf. split.
    - intros Hc. exact (last_forced bs f d k Hb Hc Hk Hf).
    - intros E e c He Ha (Hlg & _). rewrite E in Ha. simpl in Ha. pose proof (legal_lt l c Hlg). lia.
  Qed.

  (** * The lines *)
  Lemma discardable_spec i : discardable_at l i <-> exists n, nth_error l i = Some n /\ isDiscardable n = true.
  Proof.
    unfold discardable_at, isDiscardable. destruct (nth_error l i) as [n|].
    - destruct n; split; intros H; try tauto; eauto; destruct H as (? & E & H); inversion E; subst; discriminate.
    - split; [tauto|]. intros (? & ? & _). discriminate.
  Qed.

  Lemma nth_error_skipn (k i : nat) : nth_error (skipn k l) i = nth_error l (k + i).
  Proof.
    revert k. induction l as [|x l0 IH]; intros k.
    - rewrite skipn_nil. destruct i, k; reflexivity.
    - destruct k; [reflexivity|]. apply IH.
  Qed.

  Lemma skipn_skipn {A} (a b : nat) (xs : list A) : skipn a (skipn b xs) = skipn (a + b) xs.
  Proof.
    revert xs. induction b as [|b IH]; intros xs; [rewrite Nat.add_0_r; reflexivity|].
    rewrite Nat.add_succ_r. destruct xs; [rewrite !skipn_nil; reflexivity|]. apply IH.
  Qed.

  Lemma consume_spec suf : forall pos, suf = skipn pos l ->
    match consumeDiscardable pos suf with
    | Ok it => (pos <= it < length l)%nat /\ ~ discardable_at l it /\
               forall i, (pos <= i < it)%nat -> discardable_at l i
    | UB => forall i, (pos <= i < length l)%nat -> discardable_at l i
    | _ => False
    end.
  Proof.
    induction suf as [|n suf IH]; intros pos Hs; cbn [consumeDiscardable].
    - intros i Hi. apply (f_equal (@length _)) in Hs. rewrite skipn_length in Hs. simpl in Hs. lia.
    - assert (Hn : nth_error l pos = Some n).
      { rewrite <- (Nat.add_0_r pos), <- nth_error_skipn, <- Hs. reflexivity. }
      assert (Hlt : (pos < length l)%nat) by (apply nth_error_Some; congruence).
      destruct (isDiscardable n) eqn:E.
      + assert (Hs' : suf = skipn (S pos) l).
        { change (S pos) with (1 + pos)%nat. rewrite <- skipn_skipn, <- Hs. reflexivity. }
        specialize (IH (S pos) Hs').
        assert (Hd : discardable_at l pos) by (apply discardable_spec; eauto).
        destruct (consumeDiscardable (S pos) suf); try contradiction.
        * destruct IH as (H1 & H2 & H3). split; [lia|]. split; [exact H2|]. intros i Hi.
          destruct (Nat.eq_dec i pos) as [->|]; [exact Hd|apply H3; lia].
        * intros i Hi. destruct (Nat.eq_dec i pos) as [->|]; [exact Hd|apply IH; lia].
      + split; [lia|]. split; [|intros; lia]. rewrite discardable_spec. intros (n' & E' & H). congruence.
  Qed.

  Definition line_nodes (n : nat) (lines : list (list (node N))) : list (node N) :=
    map (fun p => node_of Horizontal (createLine P (fst p) (snd p))) (combine (seq n (length lines)) lines).

  Lemma create_loop_ok bps : forall n it vb vb',
    map bp_line bps = seq (S n) (length bps) ->
    create_loop P l it bps vb = Ok vb' ->
    exists lines, cut l it (map bp_pos bps) lines /\
      vb' = fold_left vb_push (line_nodes n lines) vb.
  Proof.
    induction bps as [|b bps IH]; intros n it vb vb' Hl H; cbn [create_loop] in H.
    - inversion H; subst. exists []. split; [constructor|reflexivity].
    - apply bind_Ok in H. destruct H as (its & Hr & H).
      unfold range in Hr. destruct (Nat.leb_spec it (bp_pos b)) as [Hle|]; [|discriminate].
      inversion Hr; subst its; clear Hr.
      cbn [map length seq] in Hl. injection Hl as Hb Hl'.
      destruct bps as [|b2 bps].
      + inversion H; subst vb'. exists [items l it (bp_pos b)]. split; [constructor; exact Hle|].
        cbn. rewrite Hb. cbn [Nat.sub]. rewrite Nat.sub_0_r. reflexivity.
      + apply bind_Ok in H. destruct H as (it' & Hc & H).
        pose proof (consume_spec _ (bp_pos b) eq_refl) as Hsp. rewrite Hc in Hsp.
        destruct Hsp as (H1 & H2 & H3).
        destruct (IH (S n) it' _ vb' Hl' H) as (lines & Hcut & E).
        exists (items l it (bp_pos b) :: lines). split.
        * cbn [map]. apply cut_more with it'; try assumption; try lia. discriminate.
        * rewrite E. unfold line_nodes. cbn [length seq combine map fold_left fst snd].
          rewrite Hb. cbn [Nat.sub]. rewrite Nat.sub_0_r. reflexivity.
  Qed.

  (** When the loop is defined. *)
  Lemma create_loop_total bps : forall it vb,
    (match map bp_pos bps with [] => True | b :: _ => (it <= b)%nat end) ->
    (forall a, In a (map bp_pos bps) -> discardable_at l a) ->
    StronglySorted lt (map bp_pos bps) ->
    ((exists vb', create_loop P l it bps vb = Ok vb') /\ nonempty_lines l (map bp_pos bps)) \/
    (create_loop P l it bps vb = UB /\ ~ nonempty_lines l (map bp_pos bps)).
  Proof.
    induction bps as [|b bps IH]; intros it vb Hit Hd Hs; cbn [create_loop].
    - left. split; [eauto|constructor].
    - cbn [map] in *. unfold range. rewrite (proj2 (Nat.leb_le _ _) Hit). cbn [bind].
      destruct bps as [|b2 bps]; [left; split; [eauto|constructor]|].
      pose proof (consume_spec _ (bp_pos b) eq_refl) as Hsp.
      inversion Hs as [|? ? Hs' Hlt]; subst. cbn [map] in *. inversion Hlt as [|? ? Hlt1 _]; subst.
      assert (Hd2 : discardable_at l (bp_pos b2)) by (apply Hd; simpl; tauto).
      assert (Hlen : (bp_pos b2 < length l)%nat).
      { apply discardable_spec in Hd2. destruct Hd2 as (? & E & _). apply nth_error_Some. congruence. }
      destruct (consumeDiscardable (bp_pos b) (skipn (bp_pos b) l)) as [it'| | | |]; try contradiction; cbn [bind].
      + destruct Hsp as (H1 & H2 & H3).
        destruct (Nat.le_gt_cases it' (bp_pos b2)) as [L|L].
        * assert (Hne : it' <> bp_pos b2) by (intros ->; tauto).
          match goal with |- context [create_loop P l it' (b2 :: bps) ?v] =>
            destruct (IH it' v) as [(Hok & Hn)|(Hub & Hn)] end.
          -- exact L.
          -- intros a Ha. apply Hd. right. exact Ha.
          -- exact Hs'.
          -- left. split; [exact Hok|]. constructor; [|exact Hn]. exists it'. split; [lia|exact H2].
          -- right. split; [exact Hub|]. intros Hne2. inversion Hne2; subst. tauto.
        * right. split.
          -- cbn [create_loop]. unfold range. rewrite (proj2 (Nat.leb_gt _ _) L). reflexivity.
          -- intros Hne2. inversion Hne2 as [| |? ? ? (i & Hi & Hnd) _]; subst. apply Hnd. apply H3. lia.
      + right. split; [reflexivity|]. intros Hne2. inversion Hne2 as [| |? ? ? (i & Hi & Hnd) _]; subst.
        apply Hnd. apply Hsp. lia.
  Qed.

  Lemma legal_discardable i : legal l i -> discardable_at l i.
  Proof. unfold legal, discardable_at. destruct (nth_error l i) as [[]|]; tauto. Qed.

  Lemma create_spec out : l <> [] -> create pw P l = Ok out ->
    exists bs f d lines,
      brk bs f d /\ complete l P bs /\ cut l 0 (rev bs) lines /\ nonempty_lines l (rev bs) /\
      (forall bs' f' d', brk bs' f' d' -> complete l P bs' -> (d <= d')%Z) /\
      out = vb_result (fold_left vb_push (line_nodes 0 lines) (para_builder P)).
  Proof.
    intros Hne. unfold create. destruct l as [|x l0] eqn:El; [congruence|]. rewrite <- El in *.
    intros H. apply bind_Ok in H. destruct H as (bps & Hb & H).
    destruct (computeBreakpoints_ok pw P l bps Hb) as (bs & f & d & H1 & H2 & H3 & H4 & H5 & H6 & H7 & H8).
    unfold create_at in H. rewrite El in H. rewrite <- El in H.
    destruct bps as [|b0 bps]; [discriminate|].
    unfold rmap in H. apply bind_Ok in H. destruct H as (vb & H & E). inversion E; subst out; clear E.
    cbn [map] in H1, H2. injection H1 as E0 E1. cbn [length seq] in H2. injection H2 as E2 E3.
    assert (Hlen : length bps = length bs).
    { rewrite <- (map_length bp_pos), E1, rev_length. reflexivity. }
    rewrite <- Hlen in E3.
    destruct (create_loop_ok bps 0 0 _ vb E3 H) as (lines & Hcut & ->).
    rewrite E1 in Hcut.
    destruct (brk_sorted bs f d H6) as (Hs & Hlg).
    exists bs, f, d, lines. split; [exact H6|]. split; [exact H7|]. split; [exact Hcut|].
    split; [|split; [exact H8|reflexivity]].
    destruct (create_loop_total bps 0 (para_builder P)) as [(_ & Hn)|(Hub & _)].
    - destruct (map bp_pos bps); [exact I|lia].
    - intros a Ha. rewrite E1 in Ha. rewrite <- in_rev in Ha. apply legal_discardable.
      rewrite Forall_forall in Hlg. auto.
    - rewrite E1. apply sorted_rev. exact Hs.
    - rewrite E1 in Hn. exact Hn.
    - congruence.
  Qed.

  Lemma create_cases bps bs : l <> [] -> computeBreakpoints pw P l = Ok bps -> map bp_pos bps = 0%nat :: rev bs ->
    ((exists out, create pw P l = Ok out) /\ nonempty_lines l (rev bs)) \/
    (create pw P l = UB /\ ~ nonempty_lines l (rev bs)).
  Proof.
    intros Hne Hb Hpos.
    destruct (computeBreakpoints_ok pw P l bps Hb) as (bs' & f & d & H1 & H2 & H3 & H4 & H5 & H6 & H7 & H8).
    rewrite Hpos in H1. inversion H1 as [E]. assert (bs' = bs) by (rewrite <- (rev_involutive bs'), <- E; apply rev_involutive). subst bs'.
    unfold create. destruct l as [|x l0] eqn:El; [congruence|]. rewrite <- El in *. rewrite Hb. cbn [bind].
    unfold create_at. rewrite El. rewrite <- El.
    destruct bps as [|b0 bps]; [discriminate|]. cbn [map] in Hpos. injection Hpos as E0 E1.
    destruct (brk_sorted bs f d H6) as (Hs & Hlg).
    rewrite <- E1.
    destruct (create_loop_total bps 0 (para_builder P)) as [((vb & Hok) & Hn)|(Hub & Hn)].
    - destruct (map bp_pos bps); [exact I|lia].
    - intros a Ha. rewrite E1 in Ha. rewrite <- in_rev in Ha. apply legal_discardable.
      rewrite Forall_forall in Hlg. auto.
    - rewrite E1. apply sorted_rev. exact Hs.
    - left. rewrite Hok. split; [cbn; eauto|exact Hn].
    - right. rewrite Hub. split; [reflexivity|exact Hn].
  Qed.

  (** * C39: nothing is lost *)
  Lemma items_split (a b c : nat) : (a <= b <= c)%nat -> items l a c = items l a b ++ items l b c.
  Proof.
    intros H. unfold items. replace (c - a)%nat with ((b - a) + (c - b))%nat by lia.
    rewrite <- (firstn_skipn (b - a) (firstn (b - a + (c - b)) (skipn a l))).
    rewrite firstn_firstn, Nat.min_l by lia. f_equal.
    rewrite skipn_firstn_comm, skipn_skipn. f_equal; [lia|f_equal; lia].
  Qed.

  Lemma filter_keeps_nil xs : (forall x, In x xs -> isDiscardable x = true) -> filter (keeps (N := N)) xs = [].
  Proof.
    induction xs as [|x xs IH]; intros H; [reflexivity|]. cbn [filter].
    assert (E : keeps x = false) by (specialize (H x (or_introl eq_refl)); destruct x; simpl in *; congruence).
    rewrite E. apply IH. intros y Hy. apply H. right. exact Hy.
  Qed.

  Lemma items_in a b x : In x (items l a b) -> exists i, (a <= i < b)%nat /\ nth_error l i = Some x.
  Proof.
    unfold items. intros H. apply In_nth_error in H. destruct H as (j & H).
    assert (Hj : (j < b - a)%nat).
    { assert (j < length (firstn (b - a) (skipn a l)))%nat by (apply nth_error_Some; congruence).
      rewrite firstn_length in H0. lia. }
    assert (E : nth_error (firstn (b - a) (skipn a l)) j = nth_error (skipn a l) j).
    { clear H. revert j Hj. generalize (skipn a l). generalize (b - a)%nat.
      induction n as [|n IH]; intros ys j Hj; [lia|]. destruct ys; [reflexivity|]. destruct j; [reflexivity|].
      simpl. apply IH. lia. }
    rewrite E, nth_error_skipn in H. exists (a + j)%nat. split; [lia|exact H].
  Qed.

  Lemma cut_keeps it bs lines : cut l it bs lines -> bs <> [] ->
    filter keeps (concat lines) = filter keeps (items l it (last bs 0%nat)) /\ (it <= last bs 0%nat)%nat.
  Proof.
    induction 1 as [it|it b Hle|it b it' bs rest H1 H2 H3 H4 H5 H6 Hc IH]; intros Hne.
    - congruence.
    - cbn. rewrite app_nil_r. split; [reflexivity|exact Hle].
    - specialize (IH H6). destruct IH as (IH & Hle).
      cbn [concat]. rewrite filter_app, IH.
      assert (El : last (b :: bs) 0%nat = last bs 0%nat) by (destruct bs; [congruence|reflexivity]).
      rewrite El. split; [|lia].
      rewrite (items_split it b (last bs 0%nat)) by lia. rewrite filter_app. f_equal.
      rewrite (items_split b it' (last bs 0%nat)) by lia. rewrite filter_app.
      rewrite (filter_keeps_nil (items l b it')); [reflexivity|].
      intros x Hx. apply items_in in Hx. destruct Hx as (i & Hi & E).
      specialize (H3 i Hi). apply discardable_spec in H3. destruct H3 as (n & En & Hd). congruence.
  Qed.
End AnyNum.
