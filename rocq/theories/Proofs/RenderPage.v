From Coq Require Import List Ascii String QArith Qcanon ZArith Bool Arith Lia.
From Verif.Base Require Import Result Num.
From Verif.Model Require Import Token Lexer Glue Box Layout ListBuilders LineBreaks PageEditor Render.
From Verif.Spec Require Import LexerSpec BoxSpec LineBreakSpec PageTextSpec RenderSpec.
From Verif.Proofs Require Import BoxProofs LayoutProofs LineBreakProofs LineBreakOpt LineBreakCreate LineBreakQc LineBreakSafe LineBreakMore PageText RenderProofs RenderInside.
Import ListNotations.
Local Open Scope Qc_scope.

(** * Lines are not wider than asked for *)
Lemma tame_shrink (xs : list (node QcNum)) o : (forall g, In (NGlue g) xs -> tame g) -> o <> Normal -> shrink_total xs o = 0.
Proof.
  intros T O. unfold shrink_total. rewrite sum_qsum. induction xs as [|x xs IH]; [reflexivity|].
  cbn [flat_map]. rewrite qsum_app, IH by (intros g I; apply T; right; exact I).
  destruct x; cbn [shrink_of]; try reflexivity.
  destruct (gorder_eqb_spec (g_shrinkOrder g) o) as [E|E]; [|reflexivity].
  destruct (T g (or_introl eq_refl)) as (_ & _ & _ & Z). cbn [qsum fold_right].
  destruct (Qc_eq_dec (g_shrink g) 0) as [E0|E0]; [rewrite E0; apply Qc_is_canon; reflexivity|].
  exfalso. apply O. rewrite <- E. exact (Z E0).
Qed.

Lemma line_narrow (l : list (node QcNum)) (P : para QcNum) n e b : (e <= b)%nat -> p_parshape P = [] ->
  g_space (p_leftskip P) = 0 -> g_space (p_rightskip P) = 0 ->
  (forall g, In (NGlue g) (line_list P n (items l e b)) -> tame g) -> (p_tolerance P <= int_max)%Z ->
  ratio_ok P QcPows (line_ratio l P n e b) ->
  m_width (b_metrics (createLine P n (items l e b))) <= line_width P n.
Proof.
  intros Heb Hp Hls Hrs TL Ht Hok.
  set (its := items l e b) in *.
  unfold createLine. set (L := line_list P n its) in *. set (W := line_width P n).
  pose proof (hbox_to_glue_lemma L W) as G. cbv zeta in G.
  destruct (hbox_dims_lemma L) as (Hw & _). rewrite Hw, sum_qsum in G.
  set (x := qsum (flat_map (item_width (N := QcNum)) L)) in *.
  assert (Hd : W - x = linelength P n - qsum (flat_map (item_width (N := QcNum)) its)).
  { unfold W, x, L. rewrite hang_width by exact Hp. rewrite Hls, Hrs. qcring. }
  assert (Hsh : forall o, shrink_total L o = shrink_upto l b o + shrink_total (skip_list P) o - shrink_upto l e o).
  { intros o. unfold shrink_total at 1. rewrite sum_qsum. unfold L. rewrite hang_kerns by (auto; reflexivity).
    rewrite (shrink_diff l o e b Heb). unfold shrink_total. rewrite sk_sum. fold its. qcring. }
  assert (Z1 : forall o, o <> Normal -> shrink_total L o = 0) by (intros o; apply tame_shrink; exact TL).
  assert (Hav2 : available (N := QcNum) (shrink_upto l) (shrink_total (skip_list P)) e b = Some (shrink_total L Normal)).
  { unfold available. cbn [nadd nsub QcNum]. rewrite <- !Hsh.
    rewrite (Z1 Fil ltac:(discriminate)), (Z1 Fill ltac:(discriminate)). reflexivity. }
  unfold line_ratio in *. cbn [nsub nltb QcNum] in *.
  assert (Ew : width_upto l b - width_upto l e - g_space (p_leftskip P) - g_space (p_rightskip P) =
                qsum (flat_map (item_width (N := QcNum)) its)).
  { rewrite Hls, Hrs, (width_diff l e b Heb). fold its. qcring. }
  change (num QcNum) with Qc in *.
  rewrite Ew in Hok. clear Ew.
  match type of Hd with _ = (_ - ?w0) => set (w := w0) in * end.
  set (len := linelength P n) in *.
  change (fun o : gorder => shrink_total (skip_list P) o) with (shrink_total (skip_list P)) in *.
  rewrite Hav2 in Hok. unfold ratio_of in Hok. cbn [nltb nsub ndiv QcNum] in Hok. change (n0 (N := QcNum)) with 0 in *.
  rewrite <- Hd in Hok.
  revert G. generalize (snd (hbox_rebox_to (listbox_new L) W)), (m_width (b_metrics (hbox_to L W))).
  generalize (b_ratio (hbox_to L W)), (b_order (hbox_to L W)). intros rr oo ff vv G.
  clearbody x W w len.
  destruct G as [Hn|o Ho Hto|Hlt Hng|o Ho Hto Hc|Ho Hto Hc|Ho Hng]; try apply Qcle_refl.
  - apply Qclt_le_weak. assumption.
  - exfalso. assert (E1 : Qc_ltb w len = false) by (apply Qc_ltb_ge; clear - Hd Ho; qclra).
    assert (E2 : Qc_ltb len w = true) by (apply Qc_ltb_lt; clear - Hd Ho; qclra).
    rewrite E1, E2 in Hok. destruct (Qc_ltb 0 (shrink_total L Normal)) eqn:Eg; [|exact (ratio_10000 P Ht Hok)].
    destruct Hok as (Hok & _). cbn [nleb QcNum] in Hok. apply Qc_leb_le in Hok. exact (Qclt_not_le _ _ Hc Hok).
  - exfalso. assert (E1 : Qc_ltb w len = false) by (apply Qc_ltb_ge; clear - Hd Ho; qclra).
    assert (E2 : Qc_ltb len w = true) by (apply Qc_ltb_lt; clear - Hd Ho; qclra).
    rewrite E1, E2 in Hok. specialize (Hng Normal). apply nonzero_eq in Hng. rewrite Hng in Hok.
    exact (ratio_10000 P Ht Hok).
Qed.

Lemma in_take {A} n : forall (l : list A) x, In x (firstn n l) -> In x l.
Proof. intros l x I. rewrite <- (firstn_skipn n l). apply in_or_app. left. exact I. Qed.
Lemma in_drop {A} n : forall (l : list A) x, In x (skipn n l) -> In x l.
Proof. intros l x I. rewrite <- (firstn_skipn n l). apply in_or_app. right. exact I. Qed.

(** * Paragraphs *)
Section Para.
  Variable P : para QcNum.
  Hypothesis Hp : p_parshape P = [].
  Hypothesis Hh : p_hangindent P = 0.
  Hypothesis Tl : tame (p_leftskip P).
  Hypothesis Tr : tame (p_rightskip P).

  Lemma line_list_plain n its : line_list P n its = NGlue (p_leftskip P) :: its ++ [NGlue (p_rightskip P)].
  Proof. unfold line_list. rewrite Hp, Hh. reflexivity. Qed.

  Lemma line_packed n its : Forall packed its -> packed (node_of Horizontal (createLine P n its)).
  Proof.
    intros F. unfold createLine. rewrite line_list_plain. unfold node_of.
    set (L := NGlue (p_leftskip P) :: its ++ [NGlue (p_rightskip P)]).
    destruct (hbox_to_same_vertical L (line_width P n)) as (_ & _ & E).
    apply packed_list. rewrite E. split.
    - exists (hbox_to L (line_width P n)). split; [right; eexists; reflexivity|]. repeat split.
    - unfold L. constructor; [split; [exact Tl|exact Logic.I]|]. apply Forall_app. split; [exact F|].
      repeat constructor; apply Tr.
  Qed.
  Lemma line_unshifted n its : unshifted (node_of Horizontal (createLine P n its)).
  Proof. unfold createLine, hbox_to, hbox_rebox_to. destruct (setGlue _ _ _ _ _) as (b, f) eqn:E.
    cbn [fst node_of set_metrics unshifted b_shift].
    unfold setGlue in E. repeat match type of E with context [if ?c then _ else _] => destruct c end; injection E as <- <-; reflexivity.
  Qed.

  (** the builder of a page *)
  Definition smooth (b : vbuilder QcNum) : Prop :=
    g_stretch (vb_baselineskip b) = 0 /\ g_shrink (vb_baselineskip b) = 0 /\ tame (vb_lineskip b).

  Lemma push_packed b n m : smooth b -> packed n -> unshifted n ->
    Forall packed (vb_result b) /\ Forall unshifted (vb_result b) ->
    smooth (vb_push_box b n m) /\ Forall packed (vb_result (vb_push_box b n m)) /\ Forall unshifted (vb_result (vb_push_box b n m)).
  Proof.
    intros (S1 & S2 & S3) Pn Un (Fp & Fu). split; [split; [exact S1|split; [exact S2|exact S3]]|].
    unfold vb_push_box. cbn [vb_result]. destruct (nleb _ _); [|destruct (nleb n0 _) eqn:E].
    - split; apply Forall_app; split; auto.
    - split; apply Forall_app; split; auto; repeat constructor; auto.
      + cbn [glue_make g_stretch]. rewrite S1. apply Qcle_refl.
      + cbn [glue_make g_shrink]. rewrite S2. apply Qcle_refl.
      + cbn [glue_make g_shrink g_space]. rewrite S2. cbn [nleb QcNum] in E. apply Qc_leb_le in E. exact E.
      + cbn [glue_make g_shrink]. rewrite S2. congruence.
    - split; apply Forall_app; split; auto; repeat constructor; auto; apply S3.
  Qed.

  Lemma loop_packed l : Forall packed l -> forall bps it vb vb', create_loop P l it bps vb = Ok vb' ->
    smooth vb -> Forall packed (vb_result vb) /\ Forall unshifted (vb_result vb) ->
    smooth vb' /\ Forall packed (vb_result vb') /\ Forall unshifted (vb_result vb').
  Proof.
    intros F. induction bps as [|b bps IH]; intros it vb vb' H S0 R; cbn [create_loop] in H.
    { injection H as <-. split; assumption. }
    apply bind_Ok in H as (its & E & H).
    assert (Fi : Forall packed its).
    { unfold range in E. destruct (it <=? bp_pos b)%nat; [|discriminate]. injection E as <-.
      apply Forall_forall. intros x I. rewrite Forall_forall in F. apply F.
      apply (in_drop it). apply (in_take (bp_pos b - it)). exact I. }
    pose proof (push_packed vb _ (b_metrics (createLine P (bp_line b - 1) its)) S0 (line_packed (bp_line b - 1) its Fi) (line_unshifted _ _) R) as G.
    destruct bps as [|b' bps'].
    - injection H as <-. exact G.
    - apply bind_Ok in H as (it' & _ & H). apply (IH _ _ _ H); apply G.
  Qed.
End Para.

Lemma create_packed (P : para QcNum) (l out : list (node QcNum)) : p_parshape P = [] -> p_hangindent P = 0 -> tame (p_leftskip P) -> tame (p_rightskip P) ->
  g_stretch (p_baselineskip P) = 0 -> g_shrink (p_baselineskip P) = 0 -> tame (p_lineskip P) ->
  Forall packed l -> create QcPows P l = Ok out -> Forall packed out /\ Forall unshifted out.
Proof.
  intros Hp Hh Tl Tr B1 B2 Ts F H. unfold create in H. destruct l as [|x l]; [injection H as <-; split; constructor|].
  apply bind_Ok in H as (bps & _ & H). unfold create_at in H. destruct bps as [|b0 bps]; [discriminate|].
  destruct (create_loop P (x :: l) 0 bps (para_builder P)) as [vb| | | |] eqn:E; try discriminate. cbn [rmap bind] in H. injection H as <-.
  destruct (loop_packed P Hp Hh Tl Tr (x :: l) F bps 0%nat (para_builder P) vb E) as (_ & G).
  - split; [exact B1|split; [exact B2|exact Ts]].
  - split; constructor.
  - exact G.
Qed.

Lemma keeps_metrics (n : node QcNum) m : box_metrics n = Some m -> keeps n = true.
Proof. destruct n; cbn; congruence. Qed.

Lemma prepare_no_other (P : para QcNum) xs : xs <> [] -> ~ In NOther xs -> ~ In NOther (prepare P xs).
Proof.
  intros Hne Hno. rewrite (prepare_form P xs Hne). intros Hi. apply in_app_or in Hi. destruct Hi as [Hi|Hi].
  - apply Hno. unfold drop_last_glue in Hi. destruct (last xs NOther); try exact Hi.
    clear - Hi. induction xs as [|x xs IH]; [exact Hi|]. cbn [removelast] in Hi.
    destruct xs; [destruct Hi|]. destruct Hi as [Hi|Hi]; [left; exact Hi|right; apply IH; exact Hi].
  - cbn in Hi. intuition discriminate.
Qed.

Lemma lines_narrow (P : para QcNum) xs out : xs <> [] -> ~ In NOther xs -> p_parshape P = [] -> p_hangindent P = 0 ->
  g_space (p_leftskip P) = 0 -> g_space (p_rightskip P) = 0 -> tame (p_leftskip P) -> tame (p_rightskip P) ->
  (p_tolerance P <= int_max)%Z -> (forall g, In (NGlue g) (prepare P xs) -> tame g) ->
  create QcPows P (prepare P xs) = Ok out ->
  forall n (m : metrics QcNum), In n out -> box_metrics n = Some m -> m_width m <= p_hsize P.
Proof.
  intros Hne Hno Hp Hh Ls Rs Tl Tr Ht T H n m I B.
  destruct (create_lines QcPows P xs out Hne H) as (bs & f & d & lines & H1 & H2 & _ & H3 & H4 & _ & H5 & H6).
  pose proof (lines_begin QcPows P _ (prepare_no_other P xs Hne Hno) bs f d lines H1 H3 H4) as HL.
  assert (In n (filter keeps out)) as If by (apply filter_In; split; [exact I|eapply keeps_metrics; eassumption]).
  apply In_nth_error in If as (i & Ei).
  assert (Li : (i < List.length lines)%nat) by (rewrite <- H5; apply nth_error_Some; congruence).
  destruct (nth_error lines i) as [its|] eqn:Es; [|apply nth_error_None in Es; lia].
  assert (Hlen : List.length lines = List.length (rev bs)) by (clear - H3; induction H3; cbn; congruence).
  destruct (nth_error (rev bs) i) as [b|] eqn:Eb; [|apply nth_error_None in Eb; lia].
  destruct (HL i b its Eb Es) as (f' & d' & e & _ & Hok & -> & Heb).
  rewrite (H6 i _ Es) in Ei. injection Ei as <-. cbn in B. injection B as <-.
  assert (W : line_width P i = p_hsize P).
  { unfold line_width, linelength. rewrite Hp, Hh. reflexivity. }
  rewrite <- W. apply line_narrow; try assumption; [|apply Hok].
  intros g Ig. rewrite line_list_plain in Ig by assumption. destruct Ig as [Ig|Ig]; [injection Ig as <-; exact Tl|].
  apply in_app_or in Ig as [Ig|[Ig|[]]]; [|injection Ig as <-; exact Tr].
  apply T. unfold items in Ig. apply (in_drop e). apply (in_take (b - e)). exact Ig.
Qed.

(** * Pages *)
Fixpoint hitem_ind2 (R : hitem -> Prop) (Hg : forall c, R (Glyph c)) (Hb : R Blank)
  (Hr : forall l, Forall R l -> R (Braces l)) (Hx : forall l, Forall R l -> R (Boxed l)) (i : hitem) {struct i} : R i :=
  let all := fix all (l : list hitem) : Forall R l :=
    match l with [] => Forall_nil R | x :: r => Forall_cons x (hitem_ind2 R Hg Hb Hr Hx x) (all r) end in
  match i with
  | Glyph c => Hg c | Blank => Hb | Braces l => Hr l (all l) | Boxed l => Hx l (all l)
  end.

Lemma concat_forall {A B} (R : B -> Prop) (f : A -> list B) l : Forall (fun a => Forall R (f a)) l -> Forall R (List.concat (map f l)).
Proof. induction 1; [constructor|]. cbn [map List.concat]. apply Forall_app. split; assumption. Qed.

Lemma nodes_packed (f : hmetrics QcNum) i : kind_font f -> Forall packed (nodes f i) /\ Forall (fun n => n <> NOther) (nodes f i).
Proof.
  intros (C & St & Sh & Sp). induction i as [c| |l IH|l IH] using hitem_ind2; cbn [nodes].
  - split; constructor; try constructor; try discriminate; try exact Logic.I; apply C.
  - split; constructor; try constructor; try discriminate; try exact Logic.I.
    repeat split; cbn [glue_make g_stretch g_shrink g_space g_shrinkOrder]; assumption.
  - split; apply concat_forall; (eapply Forall_impl; [|exact IH]); cbn beta; intros a (A & B); assumption.
  - split; constructor; try constructor; try discriminate; unfold node_of.
    + assert (E : b_list (hbox (List.concat (map (nodes f) l))) = List.concat (map (nodes f) l)) by reflexivity.
      rewrite E. eexists; split; [left; reflexivity|]. repeat split.
    + change (b_list (hbox (List.concat (map (nodes f) l)))) with (List.concat (map (nodes f) l)).
      assert (F : Forall packed (List.concat (map (nodes f) l))).
      { apply concat_forall. eapply Forall_impl; [|exact IH]. cbn beta. intros a (A & B). assumption. }
      clear - F. induction F as [|n k Pn F IHF]; split; assumption.
Qed.
Lemma nodes_all_packed (f : hmetrics QcNum) l : kind_font f -> Forall packed (nodes_all f l) /\ ~ In NOther (nodes_all f l).
Proof.
  intros K. unfold nodes_all. split.
  - apply concat_forall. apply Forall_forall. intros i _. apply nodes_packed. exact K.
  - intros I. assert (F : Forall (fun n : node QcNum => n <> NOther) (List.concat (map (nodes f) l))).
    { apply concat_forall. apply Forall_forall. intros i _. apply nodes_packed. exact K. }
    rewrite Forall_forall in F. exact (F _ I eq_refl).
Qed.

Lemma tame_zero : tame (mkGlue (n0 (N := QcNum)) n0 n0 Normal Normal).
Proof. repeat split; try discriminate. Qed.
Lemma tame_fill : tame (mkGlue (n0 (N := QcNum)) n0 n1 Normal Fil).
Proof. repeat split; try discriminate. Qed.

Lemma prepare_packed (P : para QcNum) xs : tame (p_parfillskip P) -> Forall packed xs -> Forall packed (prepare P xs).
Proof.
  intros T F. destruct xs as [|x xs]; [constructor|]. rewrite (prepare_form P) by discriminate. apply Forall_app. split.
  - unfold drop_last_glue. destruct (last (x :: xs) NOther); try exact F.
    apply Forall_forall. intros y I. rewrite Forall_forall in F. apply F. revert I. generalize (x :: xs). intros l.
    induction l as [|z l IH]; [intros []|]. cbn [removelast]. destruct l; [intros []|]. intros [E|I]; [left; exact E|right; apply IH; exact I].
  - constructor; [split; exact Logic.I|]. constructor; [split; [exact T|exact Logic.I]|]. constructor; [split; exact Logic.I|constructor].
Qed.

Lemma paragraph_good (K : host QcNum) (m : memory QcNum) b b' l : k_pows K = QcPows -> me_parshape m = [] ->
  g_stretch (me_baselineskip m) = 0 -> g_shrink (me_baselineskip m) = 0 -> tame (me_lineskip m) ->
  kind_font (k_font K (me_font m)) ->
  add_paragraph K m b (nodes_all (k_font K (me_font m)) l) = Ok b' ->
  exists out, vb_result b' = vb_result b ++ out /\ Forall packed out /\ Forall unshifted out /\
    forall n (x : metrics QcNum), In n out -> box_metrics n = Some x -> m_width x <= me_hsize m.
Proof.
  intros HK Hp B1 B2 Ts KF H. unfold add_paragraph in H. apply bind_Ok in H as (r & E & H). injection H as <-. cbn [vb_result].
  set (P := paragraph m (vb_prevdepth b)) in *. set (xs := nodes_all _ l) in *.
  assert (C : create QcPows P (prepare P xs) = Ok (vb_result r)) by (rewrite <- HK, <- para_lines_create, E; reflexivity).
  destruct (nodes_all_packed (k_font K (me_font m)) l KF) as (F & NO). fold xs in F, NO.
  assert (FP : Forall packed (prepare P xs)) by (apply prepare_packed; [exact tame_fill|exact F]).
  exists (vb_result r). split; [reflexivity|].
  destruct (create_packed P (prepare P xs) (vb_result r)) as (R1 & R2); try assumption; try reflexivity; try exact tame_zero.
  split; [exact R1|]. split; [exact R2|]. intros n x I Bx.
  destruct xs as [|y ys] eqn:Ex; [cbn [prepare create] in C; injection C as C; rewrite <- C in I; destruct I|]. rewrite <- Ex in *.
  change (me_hsize m) with (p_hsize P).
  eapply (lines_narrow P xs (vb_result r)); try eassumption; try exact tame_zero; try reflexivity.
  - rewrite Ex; discriminate.
  - cbn. unfold int_max. lia.
  - intros g Ig. rewrite Forall_forall in FP. specialize (FP _ Ig). apply packed_sound in FP. exact FP.
Qed.

Lemma page_good (K : host QcNum) (m : memory QcNum) ps : k_pows K = QcPows -> me_parshape m = [] ->
  g_stretch (me_baselineskip m) = 0 -> g_shrink (me_baselineskip m) = 0 -> tame (me_lineskip m) ->
  kind_font (k_font K (me_font m)) -> forall b b', page K m ps b = Ok b' ->
  exists out, vb_result b' = vb_result b ++ out /\ Forall packed out /\ Forall unshifted out /\
    forall n (x : metrics QcNum), In n out -> box_metrics n = Some x -> m_width x <= me_hsize m.
Proof.
  intros HK Hp B1 B2 Ts KF. unfold page. induction ps as [|l ps IH]; intros b b' H.
  - cbn in H. injection H as <-. exists []. rewrite app_nil_r. repeat split; try constructor. intros n x [].
  - cbn [foldM] in H. apply bind_Ok in H as (b1 & E & H).
    destruct (paragraph_good K m b b1 l HK Hp B1 B2 Ts KF E) as (o1 & E1 & P1 & U1 & W1).
    destruct (IH b1 b' H) as (o2 & E2 & P2 & U2 & W2).
    exists (o1 ++ o2). split; [rewrite E2, E1, app_assoc; reflexivity|].
    split; [apply Forall_app; split; assumption|]. split; [apply Forall_app; split; assumption|].
    intros n x I B. apply in_app_or in I as [I|I]; eauto.
Qed.

Lemma largest_below xs (x h : Qc) : largest xs x -> 0 <= h -> (forall y, In y xs -> y <= h) -> x <= h.
Proof. intros (_ & _ & [->|I]) H A; [exact H|apply A; exact I]. Qed.

Lemma box_width_in (l : list (node QcNum)) y : In y (flat_map box_width l) -> exists n m, In n l /\ box_metrics n = Some m /\ y = m_width m.
Proof.
  intros I. apply in_flat_map in I as (n & In & I). destruct n; cbn [box_width] in I; try contradiction; destruct I as [<-|[]]; (do 2 eexists; split; [exact In|split; reflexivity]).
Qed.

Lemma page_box_good (K : host QcNum) f (h : Qc) ps b : k_pows K = QcPows -> kind_font (k_font K f) -> 0 <= line_height K -> 0 <= h ->
  page K (new_memory K f h) ps (new_page K) = Ok b ->
  packed (node_of Vertical (vbox (vb_result b))) /\ m_width (b_metrics (vbox (vb_result b))) <= h.
Proof.
  intros HK KF L0 H0 H.
  assert (TS : tame (me_lineskip (new_memory K f h))).
  { cbn [new_memory me_lineskip]. repeat split; cbn [glue_space g_stretch g_shrink g_space]; try discriminate; try (intros X; exfalso; apply X; reflexivity).
    change (0 <= Q2Qc (1 # 10) * line_height K). rewrite <- (Qcmult_0_l (line_height K)). apply Qcmult_le_compat_r; [discriminate|exact L0]. }
  destruct (page_good K (new_memory K f h) ps HK eq_refl eq_refl eq_refl TS KF (new_page K) b H) as (out & E & P1 & U & W).
  cbn [new_page vbuilder_new vb_result app] in E. rewrite E. split.
  - unfold node_of. assert (EL : b_list (vbox out) = out) by reflexivity.
    apply packed_list. rewrite EL. split; [|exact P1]. split; [exact U|].
    exists (vbox out). split; [left; reflexivity|]. repeat split.
  - destruct (vbox_dims_lemma out) as (_ & Lg). eapply largest_below; [exact Lg|exact H0|].
    intros y I. apply box_width_in in I as (n & x & In & B & ->). exact (W n x In B).
Qed.

Lemma typeset_packed (K : host QcNum) f (h : Qc) s text ts e ps :
  k_pows K = QcPows -> kind_font (k_font K f) -> 0 <= line_height K -> 0 <= h ->
  machine_new K f h = Ok s ->
  lexes DefaultCatCodes true NewLine text ts e -> e <> BadCharacter -> e <> BadParam -> document ps ts ->
  Forall (glyphs_all (fun c => k_debug K = false \/ k_signed K = false \/ (c < 65536)%Z)) ps ->
  Forall (fun l => (nesting_all l < 2 ^ 64)%Z) ps ->
  exists k, forall n box, (k <= n)%nat -> typeset K n s text = Ok box ->
    packed (node_of Vertical box) /\ m_width (b_metrics box) <= h.
Proof.
  intros HK KF L0 H0 NW LX E1 E2 D G NE.
  destruct (typeset_document K f h s text ts e ps eq_refl NW LX E1 E2 D G NE) as (k & T).
  exists k. intros n box Hn Hb. rewrite (T n Hn) in Hb. apply bind_Ok in Hb as (b & Eb & Hb). injection Hb as <-.
  exact (page_box_good K f h ps b HK KF L0 H0 Eb).
Qed.

Lemma right_edge (l mw W w r : Qc) : mw <= W -> W = w - l - r -> l + mw <= w - r.
Proof. intros A ->. qclra. Qed.
Lemma back_up (t h d : Qc) : t + h + d = t + (h + d).
Proof. ring. Qed.

Lemma between_margins W ori g w h n (m : metrics QcNum) c p :
  packed n -> box_metrics n = Some m -> m_width m <= of_int (w - g_left g - g_right g) ->
  In (c, p) (flat_map letters (paintEvent W ori false g w h (Some n))) ->
  exists mc, In (NChar c mc, p) (layout n (origin false g w h m)) /\
    within (area_of mc p) (mkArea (of_int (g_left g)) (of_int (g_top g)) (of_int (w - g_right g))
                             (of_int (g_top g) + (m_height m + m_depth m))).
Proof.
  intros P B Wd I. unfold paintEvent in I. rewrite B in I.
  rewrite (drawn_letters W ori 0 _ _ (draw_box_drawn W ori n _)) in I.
  destruct (hides_letters W); [destruct I|].
  apply in_flat_map in I as ((v, pv) & Iv & Ic). destruct v as [c' mc|mc|mc|x|gl|pe| |k mc sh r o l]; cbn [characters] in Ic; try contradiction.
  destruct Ic as [E|[]]. injection E as <- <-. exists mc. split; [exact Iv|].
  destruct (nothing_sticks_out n _ _ P Iv) as (m0 & m1 & B0 & B1 & Wi). cbn [fst snd box_metrics] in *.
  rewrite B in B0. injection B0 as <-. injection B1 as <-.
  eapply within_trans; [exact Wi|].
  pose proof (corner_lemma g w h m) as (C1 & C2). cbv zeta in C1, C2.
  unfold within. cbn [a_left a_top a_right a_bottom area_of] in *.
  rewrite C1, C2. split; [apply Qcle_refl|]. split; [apply Qcle_refl|].
  assert (Ew : of_int (w - g_right g) = of_int w - of_int (g_right g)) by apply nz_sub.
  assert (Ew2 : of_int (w - g_left g - g_right g) = of_int w - of_int (g_left g) - of_int (g_right g)).
  { rewrite <- (nz_sub w (g_left g)). apply nz_sub. }
  split.
  - rewrite Ew. eapply right_edge; [exact Wd|exact Ew2].
  - change (of_int (g_top g) + m_height m + m_depth m <= of_int (g_top g) + (m_height m + m_depth m)).
    rewrite back_up. apply Qcle_refl.
Qed.
