(** Statements about paragraphs in the form of the properties. *)
From Coq Require Import List ZArith Bool QArith Qcanon Arith Lia Sorted.
From Verif.Base Require Import Result Num.
From Verif.Model Require Import Glue Box ListBuilders LineBreaks.
From Verif.Spec Require Import BoxSpec LineBreakSpec.
From Verif.Proofs Require Import BoxProofs LineBreakProofs LineBreakOpt LineBreakCreate LineBreakBound LineBreakQc LineBreakSafe.
Import ListNotations.

Section More.
  Context {N : Num}.
  Variable pw : pows N.
  Variable P : para N.

  Lemma brk_fun (l : list (node N)) bs f d : breaking l P pw bs f d -> forall f' d', breaking l P pw bs f' d' -> f' = f /\ d' = d.
  Proof.
    induction 1 as [|bs f d e b H IH Hok r d' Hd']; intros f' d2 H2.
    - inversion H2; subst; auto.
    - inversion H2 as [|bs0 f0 d0 e0 b0 H0 Hok0 r0 d0' Hd0]; subst.
      destruct (IH _ _ H0) as (-> & ->).
      destruct Hok as (He & _). destruct Hok0 as (He0 & _).
      assert (e0 = e) by (eapply line_begin_unique; eassumption). subst e0. auto.
  Qed.

  Lemma legal_ordered (l : list (node N)) bps : computeBreakpoints pw P l = Ok bps ->
    exists bs, map bp_pos bps = 0%nat :: bs /\ StronglySorted lt bs /\ Forall (legal l) bs /\
      map bp_line bps = seq 0 (length bps).
  Proof.
    intros H. destruct (computeBreakpoints_ok pw P l bps H) as (bs & f & d & H1 & H2 & _ & _ & _ & H6 & _).
    destruct (brk_sorted pw P l bs f d H6) as (Hs & Hl).
    exists (rev bs). split; [exact H1|]. split; [apply sorted_rev; exact Hs|].
    split; [apply Forall_rev; exact Hl|]. rewrite H2. f_equal.
    rewrite <- (map_length bp_line bps), H2, seq_length. reflexivity.
  Qed.

  Lemma forced_chosen (l : list (node N)) bps i : computeBreakpoints pw P l = Ok bps -> forced_at l i ->
    In i (tl (map bp_pos bps)).
  Proof.
    intros H Hi. destruct (computeBreakpoints_ok pw P l bps H) as (bs & f & d & H1 & _ & _ & _ & _ & H6 & H7 & _).
    rewrite H1. cbn [tl]. rewrite <- in_rev. exact (forced_taken pw P l bs f d H6 H7 i Hi).
  Qed.

  Lemma prepare_form xs : xs <> [] ->
    prepare P xs = drop_last_glue xs ++ [NPenalty 10000; NGlue (p_parfillskip P); NPenalty (-10000)].
  Proof. intros H. unfold prepare. destruct xs; [congruence|reflexivity]. Qed.

  Lemma prepare_forced xs : xs <> [] ->
    let l := prepare P xs in length l = S (pred (length l)) /\ forced_at l (pred (length l)).
  Proof.
    intros H. cbv zeta. rewrite (prepare_form xs H). rewrite app_length. cbn [length].
    split; [lia|]. unfold forced_at. rewrite nth_error_app2 by lia.
    replace (pred (length (drop_last_glue xs) + 3) - length (drop_last_glue xs))%nat with 2%nat by lia. cbn. lia.
  Qed.

  Lemma prepared_last xs bps : xs <> [] -> computeBreakpoints pw P (prepare P xs) = Ok bps ->
    bp_pos (last bps start_bp) = pred (length (prepare P xs)).
  Proof.
    intros Hne H. destruct (prepare_forced xs Hne) as (Hl & Hf). set (l := prepare P xs) in *.
    destruct (computeBreakpoints_ok pw P l bps H) as (bs & f & d & H1 & _ & _ & _ & _ & H6 & H7 & _).
    pose proof (last_forced pw P l bs f d _ H6 H7 Hl Hf) as E.
    destruct bs as [|b bs]; [discriminate|]. simpl in E. inversion E as [E']. rewrite <- E'. clear E.
    cbn [rev] in H1.
    assert (G : forall (ys : list (bp N)) d0, bp_pos (last ys d0) = last (map bp_pos ys) (bp_pos d0)).
    { induction ys as [|y ys IH]; intros d0; [reflexivity|]. destruct ys; [reflexivity|]. exact (IH d0). }
    rewrite G, H1. rewrite app_comm_cons. rewrite last_last. reflexivity.
  Qed.

  Lemma chosen_lines (l : list (node N)) bps i x y : computeBreakpoints pw P l = Ok bps ->
    nth_error bps i = Some x -> nth_error bps (S i) = Some y ->
    exists e, line_begin l (if (i =? 0)%nat then None else Some (bp_pos x)) e /\
      let r := line_ratio l P i e (bp_pos y) in
      ratio_ok P pw r /\ bp_fit y = fitness_of r /\
      bp_dem y = (bp_dem x + line_demerits l P pw r (bp_pos y) (bp_fit x))%Z.
  Proof.
    intros H Hx Hy. destruct (computeBreakpoints_ok pw P l bps H) as (bs & f & d & H1 & H2 & _ & _ & H5 & H6 & H7 & _).
    pose proof (H5 i x Hx) as Bx. pose proof (H5 (S i) y Hy) as By.
    assert (Py : nth_error (rev bs) i = Some (bp_pos y)).
    { change (nth_error (0%nat :: rev bs) (S i) = Some (bp_pos y)). rewrite <- H1.
      rewrite nth_error_map, Hy. reflexivity. }
    destruct (nth_rev bs i _ Py) as (pre & E1 & E2 & E3). rewrite E1 in By. rewrite <- E2 in Bx.
    inversion By as [|bs0 f0 d0 e b0 B0 Hok r0 d' Hd']; subst bs0 b0.
    destruct (brk_fun l _ _ _ Bx _ _ B0) as (-> & ->).
    exists e. rewrite E3 in *. cbv zeta. split.
    - destruct Hok as (He & _). destruct i as [|i].
      + destruct pre; [exact He|discriminate].
      + cbn [Nat.eqb].
        assert (Px : nth_error (rev bs) i = Some (bp_pos x)).
        { change (nth_error (0%nat :: rev bs) (S i) = Some (bp_pos x)). rewrite <- H1.
          rewrite nth_error_map, Hx. reflexivity. }
        destruct (nth_rev bs i _ Px) as (pre' & F1 & F2 & F3). rewrite E2, F1 in He. exact He.
    - split; [apply Hok|]. unfold d', r0 in *. rewrite E3 in *. split; congruence.
  Qed.

  Lemma chosen_first (l : list (node N)) bps : computeBreakpoints pw P l = Ok bps ->
    exists x, nth_error bps 0 = Some x /\ bp_dem x = 0%Z /\ bp_fit x = Tight /\ bp_pos x = 0%nat.
  Proof.
    intros H. destruct (computeBreakpoints_ok pw P l bps H) as (bs & f & d & H1 & H2 & _ & _ & H5 & H6 & H7 & _).
    destruct bps as [|x bps]; [discriminate|]. exists x. split; [reflexivity|].
    pose proof (H5 0%nat x eq_refl) as B. rewrite Nat.sub_0_r, skipn_all in B. inversion B.
    cbn [map] in H1. injection H1 as E _. auto.
  Qed.

  Lemma throw_iff (l : list (node N)) : computeBreakpoints pw P l <> UB ->
    (computeBreakpoints pw P l = Throw <-> forall bs f d, breaking l P pw bs f d -> ~ complete l P bs).
  Proof.
    intros Hno. split.
    - intros H bs f d Hb Hc. exact (computeBreakpoints_throw pw P l H bs f d Hb Hc).
    - intros H. destruct (computeBreakpoints_cases pw P l) as [(bps & E)|[E|E]]; [|exact E|congruence].
      exfalso. destruct (computeBreakpoints_ok pw P l bps E) as (bs & f & d & _ & _ & _ & _ & _ & H6 & H7 & _).
      exact (H bs f d H6 H7).
  Qed.

  (** * The vertical list *)
  Lemma push_keeps (ns : list (node N)) : (forall n, In n ns -> exists m, box_metrics n = Some m) -> forall vb,
    filter keeps (vb_result (fold_left vb_push ns vb)) = filter keeps (vb_result vb) ++ ns.
  Proof.
    induction ns as [|n ns IH]; intros H vb; cbn [fold_left]; [rewrite app_nil_r; reflexivity|].
    rewrite IH by (intros; apply H; right; assumption).
    destruct (H n (or_introl eq_refl)) as (m & Hm). unfold vb_push. rewrite Hm. unfold vb_push_box.
    cbn [vb_result]. rewrite filter_app, <- app_assoc. f_equal.
    assert (K : keeps n = true) by (destruct n; simpl in *; congruence).
    destruct (nleb _ _); [|destruct (nleb _ _)]; cbn [filter keeps]; rewrite K; reflexivity.
  Qed.

  Lemma line_nodes_nth n lines i its : nth_error lines i = Some its ->
    nth_error (line_nodes P n lines) i = Some (node_of Horizontal (createLine P (n + i) its)).
  Proof.
    unfold line_nodes. revert n i. induction lines as [|x lines IH]; intros n i H; [destruct i; discriminate|].
    cbn [length seq combine map]. destruct i as [|i]; cbn [nth_error] in *.
    - inversion H; subst. rewrite Nat.add_0_r. reflexivity.
    - rewrite IH by exact H. rewrite Nat.add_succ_r. reflexivity.
  Qed.

  Lemma line_nodes_length n lines : length (line_nodes P n lines) = length lines.
  Proof. unfold line_nodes. rewrite map_length, combine_length, seq_length. apply Nat.min_id. Qed.

  Lemma line_nodes_boxes n lines x : In x (line_nodes P n lines) -> exists m, box_metrics x = Some m.
  Proof. unfold line_nodes. rewrite in_map_iff. intros (p & <- & _). unfold node_of. cbn. eauto. Qed.

  Lemma keeps_drop xs : filter keeps (drop_last_glue (N := N) xs) = filter keeps xs.
  Proof.
    unfold drop_last_glue. destruct (last xs NOther) eqn:E; try reflexivity.
    destruct xs as [|x xs] using rev_ind; [reflexivity|].
    rewrite last_last in E. subst x. rewrite removelast_last, filter_app. cbn. rewrite app_nil_r. reflexivity.
  Qed.

  Lemma items_0 (l : list (node N)) b : items l 0 b = firstn b l.
  Proof. unfold items. rewrite Nat.sub_0_r. reflexivity. Qed.

  Lemma create_lines xs out : xs <> [] -> create pw P (prepare P xs) = Ok out ->
    exists bs f d lines,
      breaking (prepare P xs) P pw bs f d /\ complete (prepare P xs) P bs /\
      (forall bs' f' d', breaking (prepare P xs) P pw bs' f' d' -> complete (prepare P xs) P bs' -> (d <= d')%Z) /\
      cut (prepare P xs) 0 (rev bs) lines /\ nonempty_lines (prepare P xs) (rev bs) /\
      filter keeps (concat lines) = filter keeps xs /\
      length (filter keeps out) = length lines /\
      forall i its, nth_error lines i = Some its ->
        nth_error (filter keeps out) i = Some (node_of Horizontal (createLine P i its)).
  Proof.
    intros Hne H.
    destruct (prepare_forced xs Hne) as (Hlen & Hf).
    assert (Hl : prepare P xs <> []) by (intros E; rewrite E in Hlen; discriminate).
    destruct (create_spec pw P (prepare P xs) out Hl H) as (bs & f & d & lines & H1 & H2 & H3 & H4 & H5 & ->).
    exists bs, f, d, lines. split; [exact H1|]. split; [exact H2|]. split; [exact H5|]. split; [exact H3|]. split; [exact H4|].
    split.
    - pose proof (last_forced pw P _ bs f d _ H1 H2 Hlen Hf) as E.
      destruct bs as [|b bs]; [discriminate|]. simpl in E. inversion E as [E'].
      destruct (cut_keeps _ _ _ _ H3) as (Hk & _); [cbn; intros X; destruct (rev bs); discriminate|].
      rewrite Hk. cbn [rev]. rewrite last_last, items_0, E'.
      rewrite (prepare_form xs Hne). rewrite app_length. cbn [length].
      replace (pred (length (drop_last_glue xs) + 3)) with (length (drop_last_glue xs) + 2)%nat by lia.
      rewrite firstn_app_2. cbn [firstn]. rewrite filter_app. cbn [filter keeps]. rewrite app_nil_r.
      apply keeps_drop.
    - assert (E : filter keeps (vb_result (fold_left vb_push (line_nodes P 0 lines) (para_builder P))) = line_nodes P 0 lines).
      { rewrite push_keeps; [reflexivity|]. apply line_nodes_boxes. }
      rewrite E. split; [apply line_nodes_length|]. intros i its Hi. rewrite (line_nodes_nth 0 lines i its Hi). reflexivity.
  Qed.

  (** * C40, C41 *)
  Lemma hangs_spec n : nonzero (p_hangindent P) && hangindentAppliesToLine P n = true <-> hangs P n.
  Proof.
    unfold hangs, hangindentAppliesToLine.
    rewrite andb_true_iff, orb_true_iff, !andb_true_iff, !Z.ltb_lt, !Z.leb_le. tauto.
  Qed.

  Lemma createLine_hang n its : p_parshape P = [] -> hangs P n ->
    createLine P n its =
      hbox_to ((if nltb n0 (p_hangindent P) then [NKern (p_hangindent P)] else [])
               ++ NGlue (p_leftskip P) :: its ++ NGlue (p_rightskip P)
               :: (if nltb (p_hangindent P) n0 then [NKern (nabs (p_hangindent P))] else []))
              (nadd (linelength P n) (nabs (p_hangindent P))).
  Proof.
    intros Hp Hh. unfold createLine, line_list, line_width. rewrite Hp.
    rewrite (proj2 (hangs_spec n) Hh). f_equal. cbn [app]. rewrite <- app_assoc. reflexivity.
  Qed.

  Lemma createLine_plain n its : p_parshape P = [] -> ~ hangs P n ->
    createLine P n its = hbox_to (NGlue (p_leftskip P) :: its ++ [NGlue (p_rightskip P)]) (linelength P n).
  Proof.
    intros Hp Hh. unfold createLine, line_list, line_width. rewrite Hp.
    rewrite <- hangs_spec in Hh. apply not_true_is_false in Hh. rewrite Hh. reflexivity.
  Qed.

  Lemma createLine_parshape n its : p_parshape P <> [] ->
    createLine P n its =
      hbox_to (NKern (fst (parshape_at P n)) :: NGlue (p_leftskip P) :: its ++ [NGlue (p_rightskip P)])
              (nadd (linelength P n) n0).
  Proof.
    intros Hp. unfold createLine, line_list, line_width. destruct (p_parshape P); [congruence|reflexivity].
  Qed.

  Lemma linelength_parshape n ab : nth_error (p_parshape P) n = Some ab -> linelength P n = snd ab.
  Proof.
    intros H. unfold linelength, parshape_at.
    assert (Hl : (n < length (p_parshape P))%nat) by (apply nth_error_Some; congruence).
    destruct (p_parshape P) as [|x r] eqn:E; [destruct n; discriminate|].
    rewrite (proj2 (Nat.leb_gt _ _) Hl). rewrite (nth_error_nth _ _ _ H). reflexivity.
  Qed.

  Lemma linelength_parshape_last n r ab : p_parshape P = r ++ [ab] -> (length r <= n)%nat -> linelength P n = snd ab.
  Proof.
    intros H Hn. unfold linelength, parshape_at. rewrite H.
    destruct (Nat.eq_dec n (length r)) as [->|Hne].
    - rewrite app_length. cbn [length].
      replace (length r + 1 <=? length r)%nat with false by (symmetry; apply Nat.leb_gt; lia).
      rewrite app_nth2, Nat.sub_diag by lia. destruct r; reflexivity.
    - replace (length (r ++ [ab]) <=? n)%nat with true by (symmetry; apply Nat.leb_le; rewrite app_length; cbn; lia).
      rewrite last_last. destruct r; reflexivity.
  Qed.

  Lemma linelength_hang n : p_parshape P = [] -> hangs P n ->
    linelength P n = nsub (p_hsize P) (nabs (p_hangindent P)).
  Proof. intros Hp Hh. unfold linelength. rewrite Hp, (proj2 (hangs_spec n) Hh). reflexivity. Qed.

  Lemma linelength_plain n : p_parshape P = [] -> ~ hangs P n -> linelength P n = p_hsize P.
  Proof.
    intros Hp Hh. unfold linelength. rewrite Hp. rewrite <- hangs_spec in Hh. apply not_true_is_false in Hh.
    rewrite Hh. reflexivity.
  Qed.

  (** * C43 *)
  Lemma create_no_abort (l : list (node N)) : create pw P l <> Abort /\ create pw P l <> Fuel.
  Proof.
    destruct l as [|x l0] eqn:El; [split; discriminate|]. rewrite <- El.
    assert (Hl : l <> []) by congruence.
    destruct (computeBreakpoints_cases pw P l) as [(bps & E)|[E|E]].
    - destruct (computeBreakpoints_ok pw P l bps E) as (bs & f & d & H1 & _).
      destruct (create_cases pw P l bps bs Hl E H1) as [((out & ->) & _)|(-> & _)]; split; discriminate.
    - unfold create. rewrite E. rewrite El. split; discriminate.
    - unfold create. rewrite E. rewrite El. split; discriminate.
  Qed.

  Lemma create_ub_iff (l : list (node N)) : l <> [] ->
    (create pw P l = UB <->
     computeBreakpoints pw P l = UB \/
     exists bps, computeBreakpoints pw P l = Ok bps /\ ~ nonempty_lines l (tl (map bp_pos bps))).
  Proof.
    intros Hl. destruct (computeBreakpoints_cases pw P l) as [(bps & E)|[E|E]].
    - destruct (computeBreakpoints_ok pw P l bps E) as (bs & f & d & H1 & _).
      destruct (create_cases pw P l bps bs Hl E H1) as [((out & Ho) & Hn)|(Ho & Hn)].
      + split; [congruence|]. intros [X|(b & X & Y)]; [congruence|]. exfalso. apply Y.
        rewrite E in X. inversion X; subst. rewrite H1. exact Hn.
      + split; [|congruence]. intros _. right. exists bps. split; [exact E|]. rewrite H1. exact Hn.
    - unfold create. destruct l; [congruence|]. rewrite E. cbn [bind].
      split; [discriminate|]. intros [X|(b & X & _)]; congruence.
    - unfold create. destruct l; [congruence|]. rewrite E. cbn [bind]. tauto.
  Qed.
End More.

(** * C36, exact: what the tolerance means *)
Lemma ratio_ok_exact (P : para QcNum) (r : Qc) :
  ratio_ok P QcPows r <->
  (0 <= p_tolerance P)%Z /\ (Q2Qc (inject_Z (-1)) <= r)%Qc /\
  (r <= 0 \/ Q2Qc (inject_Z 100) * (r * r * r) <= Q2Qc (inject_Z (p_tolerance P)))%Qc.
Proof.
  unfold ratio_ok. cbn [nleb QcNum QcPows pw_within]. unfold Qc_within.
  rewrite andb_true_iff, orb_true_iff, Z.leb_le, !Qc_leb_le. tauto.
Qed.

(** * C42 *)
Lemma ratio_match_lemma (P : para QcNum) xs out :
  xs <> [] -> ~ In NOther xs -> p_parshape P = [] ->
  g_space (p_leftskip P) = 0%Qc -> g_space (p_rightskip P) = 0%Qc ->
  finite_glue (NGlue (p_leftskip P)) -> finite_glue (NGlue (p_rightskip P)) ->
  (p_tolerance P <= int_max)%Z ->
  create QcPows P (prepare P xs) = Ok out ->
  let l := prepare P xs in
  exists bs f d,
    breaking l P QcPows bs f d /\ complete l P bs /\ length (filter keeps out) = length bs /\
    forall i b, nth_error (rev bs) i = Some b ->
      exists e box, line_ok l P QcPows i (last_break (skipn (length bs - i) bs)) e b /\
        nth_error (filter keeps out) i = Some (node_of Horizontal box) /\
        box = createLine P i (items l e b) /\
        (Forall finite_glue (items l e b) ->
         b_ratio box = line_ratio l P i e b /\ b_order box = Normal).
Proof.
  intros Hne Hno Hp Hls Hrs Fl Fr Ht H. cbv zeta.
  destruct (create_lines QcPows P xs out Hne H) as (bs & f & d & lines & H1 & H2 & _ & H3 & H4 & _ & H5 & H6).
  assert (Hno' : ~ In NOther (prepare P xs)).
  { rewrite (prepare_form P xs Hne). intros Hi. apply in_app_or in Hi. destruct Hi as [Hi|Hi].
    - apply Hno. unfold drop_last_glue in Hi. destruct (last xs NOther); try exact Hi.
      clear - Hi. induction xs as [|x xs IH]; [exact Hi|]. cbn [removelast] in Hi.
      destruct xs; [destruct Hi|]. destruct Hi as [Hi|Hi]; [left; exact Hi|right; apply IH; exact Hi].
    - cbn in Hi. intuition discriminate. }
  pose proof (lines_begin QcPows P _ Hno' bs f d lines H1 H3 H4) as HL.
  assert (Hlen : length lines = length bs).
  { rewrite <- (rev_length bs). clear - H3. induction H3; cbn; congruence. }
  exists bs, f, d. split; [exact H1|]. split; [exact H2|]. split; [congruence|].
  intros i b Hi.
  assert (Hil : (i < length lines)%nat).
  { rewrite Hlen, <- (rev_length bs). apply nth_error_Some. congruence. }
  destruct (nth_error lines i) as [its|] eqn:Ei; [|apply nth_error_None in Ei; lia].
  destruct (HL i b its Hi Ei) as (f' & d' & e & _ & Hok & -> & Heb).
  exists e, (createLine P i (items (prepare P xs) e b)). split; [exact Hok|].
  split; [apply H6; exact Ei|]. split; [reflexivity|].
  intros Hfin. apply ratio_match; try assumption. apply Hok.
Qed.
