(** Boxes, glue, layout and list builders: C24 - C33. *)
From Coq Require Import List QArith Qcanon ZArith Bool Lia.
From Verif.Base Require Import Result Num.
From Verif.Model Require Import Glue Box Layout ListBuilders.
From Verif.Spec Require Import BoxSpec.
From Verif.Proofs Require Import BoxProofs LayoutProofs ListBuilderProofs.
Import ListNotations.

(** Shorthands of the examples: exact numbers and boxes. *)
Definition q (z : Z) : QcNum := Q2Qc (inject_Z z).
Definition bx (h d w : Z) : node QcNum := NBox (mkMetrics (q h) (q d) (q w)).
Definition gl (s sh : Z) (osh : gorder) (st : Z) (ost : gorder) : node QcNum :=
  NGlue (mkGlue (q s) (q sh) (q st) osh ost).

(** The numbers of a node, for comparison by computation. *)
Definition show (n : node QcNum) : list Q :=
  match n with
  | NBox m => [this (m_height m); this (m_depth m); this (m_width m)]
  | NGlue g => [this (g_space g); this (g_shrink g); this (g_stretch g)]
  | NKern k => [this k]
  | _ => []
  end.

(** C24, any arithmetic: the dimensions as the sum and running maximum. *)
Theorem C24_hbox_dims :
  forall (N : Num) (l : list (node N)),
    m_width (b_metrics (hbox l)) = sum (flat_map item_width l) /\
    m_height (b_metrics (hbox l)) = fold_left nmax (flat_map item_height l) n0 /\
    m_depth (b_metrics (hbox l)) = fold_left nmax (flat_map item_depth l) n0 /\
    b_list (hbox l) = l /\ b_shift (hbox l) = n0 /\ b_ratio (hbox l) = n0.
Proof. exact (fun N l => hbox_dims_lemma l). Qed.

(** C24, exact arithmetic: the running maximum is the largest element. *)
Theorem C24_hbox_height :
  forall l : list (node QcNum),
    largest (flat_map item_height l) (m_height (b_metrics (hbox l))) /\
    largest (flat_map item_depth l) (m_depth (b_metrics (hbox l))).
Proof. exact hbox_height_lemma. Qed.

Example C24_case :
  let inner := node_of Horizontal (lower (hbox [bx 5 1 7]) (q 3)) in
  let b := hbox [bx 2 1 10; NKern (q 4); inner; gl 3 1 Normal 1 Fil; NPenalty 50] in
  m_width (b_metrics b) = q 24 /\ m_height (b_metrics b) = q 2 /\ m_depth (b_metrics b) = q 4.
Proof. vm_compute. repeat split; apply Qc_is_canon; reflexivity. Qed.

(** C25, exact arithmetic: glue is set by TeX's rule, at the highest order. *)
Theorem C25_glue_setting :
  forall (l : list (node QcNum)) (w : Qc),
    let b := hbox_to l w in
    glue_set (m_width (b_metrics (hbox l))) w (stretch_total l) (shrink_total l)
      (b_ratio b) (b_order b) (m_width (b_metrics b)) (snd (hbox_rebox_to (listbox_new l) w)).
Proof. exact hbox_to_glue_lemma. Qed.

(** C25, any arithmetic: the requested width is reached exactly, not just up to
    rounding, when there is something to stretch or infinite shrink. *)
Theorem C25_exact_width :
  forall (N : Num) (l : list (node N)) (w : N),
    let x := m_width (b_metrics (hbox l)) in
    (nltb x w = true /\ (exists o, nonzero (stretch_total l o) = true)) \/
    (nltb x w = false /\ nltb w x = true /\ (exists o, o <> Normal /\ nonzero (shrink_total l o) = true)) ->
    m_width (b_metrics (hbox_to l w)) = w.
Proof. exact (fun N l w => hbox_to_exact_lemma l w). Qed.

Theorem C25_same_vertical :
  forall (N : Num) (l : list (node N)) (w : N),
    m_height (b_metrics (hbox_to l w)) = m_height (b_metrics (hbox l)) /\
    m_depth (b_metrics (hbox_to l w)) = m_depth (b_metrics (hbox l)) /\
    b_list (hbox_to l w) = l.
Proof. exact (fun N l w => hbox_to_same_vertical l w). Qed.

(** The same rule sets vertical lists to a height. *)
Theorem C25_vbox_glue_setting :
  forall (l : list (node QcNum)) (h : Qc),
    let b := vbox_to l h in
    glue_set (m_height (b_metrics (vbox l))) h (stretch_total l) (shrink_total l)
      (b_ratio b) (b_order b) (m_height (b_metrics b)) (snd (vbox_rebox_to (listbox_new l) h)) /\
    m_depth (b_metrics b) = m_depth (b_metrics (vbox l)) /\
    m_width (b_metrics b) = m_width (b_metrics (vbox l)) /\ b_list b = l.
Proof. exact vbox_to_glue_lemma. Qed.

Example C25_case :
  let l := [bx 1 0 10; gl 5 2 Normal 3 Normal; bx 1 0 10; gl 0 0 Normal 2 Fil] in
  m_width (b_metrics (hbox_to l (q 35))) = q 35 /\ b_order (hbox_to l (q 35)) = Fil /\
  b_ratio (hbox_to l (q 35)) = q 5 /\
  m_width (b_metrics (hbox_to l (q 20))) = q 23 /\
  snd (hbox_rebox_to (listbox_new l) (q 20)) = OverfullBox /\
  snd (hbox_rebox_to (listbox_new [bx 1 0 3]) (q 20)) = UnderfullBox.
Proof. vm_compute. repeat split; apply Qc_is_canon; reflexivity. Qed.

(** C26. The depth clause holds in any arithmetic. *)
Theorem C26_vbox_dims :
  forall l : list (node QcNum),
    (m_height (b_metrics (vbox l)) + m_depth (b_metrics (vbox l))
       = sum (N := QcNum) (flat_map item_extent l))%Qc /\
    largest (flat_map box_width l) (m_width (b_metrics (vbox l))).
Proof. exact vbox_dims_lemma. Qed.

Theorem C26_vbox_depth :
  forall (N : Num) (l : list (node N)),
    m_depth (b_metrics (vbox l)) =
      match rev l with
      | n :: _ => match box_metrics n with Some m => m_depth m | None => n0 end
      | [] => n0
      end.
Proof. exact (fun N l => vbox_depth_lemma l). Qed.

Example C26_case :
  let l := [bx 2 1 10; gl 3 0 Normal 0 Normal; bx 4 2 6] in
  m_height (b_metrics (vbox l)) = q 10 /\ m_depth (b_metrics (vbox l)) = q 2 /\
  m_width (b_metrics (vbox l)) = q 10 /\
  m_depth (b_metrics (vbox (l ++ [NPenalty 0]))) = q 0.
Proof. vm_compute. repeat split; apply Qc_is_canon; reflexivity. Qed.

(** C27 *)
Theorem C27_vtop :
  forall (N : Num) (l : list (node N)) b,
    vtop l = Ok b ->
    exists n r, l = n :: r /\
      m_height (b_metrics b) = match box_metrics n with Some m => m_height m | None => n0 end /\
      m_depth (b_metrics b) =
        nsub (nadd (m_height (b_metrics (vbox l))) (m_depth (b_metrics (vbox l)))) (m_height (b_metrics b)) /\
      m_width (b_metrics b) = m_width (b_metrics (vbox l)) /\ b_list b = l.
Proof. exact (fun N l b => make_vtop_lemma l b). Qed.

Theorem C27_vtop_to :
  forall (N : Num) (l : list (node N)) h b,
    vtop_to l h = Ok b ->
    exists n r, l = n :: r /\
      m_height (b_metrics b) = match box_metrics n with Some m => m_height m | None => n0 end /\
      m_depth (b_metrics b) =
        nsub (nadd (m_height (b_metrics (vbox_to l h))) (m_depth (b_metrics (vbox_to l h)))) (m_height (b_metrics b)) /\
      m_width (b_metrics b) = m_width (b_metrics (vbox_to l h)).
Proof. exact (fun N l h b => vtop_to_lemma l h b). Qed.

(** [vtop] is defined exactly on the nonempty lists. *)
Theorem C27_vtop_total :
  forall (N : Num) (l : list (node N)), l <> [] -> exists b, vtop l = Ok b.
Proof. exact (fun N l => vtop_total l). Qed.
Theorem C27_vtop_empty_refuted : forall N : Num, vtop (N := N) [] = UB.
Proof. exact (fun N => eq_refl). Qed.

Theorem C27_changeHeight :
  forall (b : lbox QcNum) (h : Qc),
    m_height (b_metrics (changeHeight b h)) = h /\
    (m_height (b_metrics (changeHeight b h)) + m_depth (b_metrics (changeHeight b h))
     = m_height (b_metrics b) + m_depth (b_metrics b))%Qc /\
    m_width (b_metrics (changeHeight b h)) = m_width (b_metrics b).
Proof. exact changeHeight_lemma. Qed.

Example C27_case :
  exists b, vtop [bx 2 1 10; gl 3 0 Normal 0 Normal; bx 4 2 6] = Ok b /\
    m_height (b_metrics b) = q 2 /\ m_depth (b_metrics b) = q 10.
Proof. eexists. split; [reflexivity|]. vm_compute. split; apply Qc_is_canon; reflexivity. Qed.

(** C28: where the children of a list box are, and that the sizes of the items,
    glue set, add up to the box. *)
Theorem C28_hbox_positions :
  forall m s ratio ord l1 c l2 (x y : Qc),
    exists pre post,
      layout (N := QcNum) (NList Horizontal m s ratio ord (l1 ++ c :: l2)) (x, y) =
        pre ++ layout (N := QcNum) c (hchild (N := QcNum) y (x + qsum (flat_map (set_width ratio ord) l1))%Qc c) ++ post /\
      map fst pre = NList Horizontal m s ratio ord (l1 ++ c :: l2) :: flat_map boxes l1 /\
      map fst post = flat_map boxes l2.
Proof. exact hbox_positions_lemma. Qed.

Theorem C28_vbox_positions :
  forall m s ratio ord l1 c l2 (x y : Qc),
    exists pre post,
      layout (N := QcNum) (NList Vertical m s ratio ord (l1 ++ c :: l2)) (x, y) =
        pre ++ layout (N := QcNum) c (vchild (N := QcNum) x (y - m_height m + qsum (flat_map (set_extent ratio ord) l1))%Qc c) ++ post /\
      map fst pre = NList Vertical m s ratio ord (l1 ++ c :: l2) :: flat_map boxes l1 /\
      map fst post = flat_map boxes l2.
Proof. exact vbox_positions_lemma. Qed.

Theorem C28_hbox_to_fills :
  forall (l : list (node QcNum)) (w : Qc), glue_nonneg l ->
    let b := hbox_to l w in
    qsum (flat_map (set_width (b_ratio b) (b_order b)) l) = m_width (b_metrics b).
Proof. exact hbox_to_fills_lemma. Qed.

Theorem C28_hbox_fills :
  forall l : list (node QcNum),
    let b := hbox l in
    qsum (flat_map (set_width (b_ratio b) (b_order b)) l) = m_width (b_metrics b).
Proof. exact hbox_fills_lemma. Qed.

Theorem C28_vbox_to_fills :
  forall (l : list (node QcNum)) (h : Qc), glue_nonneg l ->
    let b := vbox_to l h in
    qsum (flat_map (set_extent (b_ratio b) (b_order b)) l)
      = (m_height (b_metrics b) + m_depth (b_metrics b))%Qc.
Proof. exact vbox_to_fills_lemma. Qed.

Theorem C28_vbox_fills :
  forall l : list (node QcNum),
    let b := vbox l in
    qsum (flat_map (set_extent (b_ratio b) (b_order b)) l)
      = (m_height (b_metrics b) + m_depth (b_metrics b))%Qc.
Proof. exact vbox_fills_lemma. Qed.

(** Without [glue_nonneg] the items need not fill the box: negative stretch
    gives a negative ratio, which the reader takes for shrinking. *)
Theorem C28_negative_stretch_refuted :
  exists (l : list (node QcNum)) (w : Qc),
    let b := hbox_to l w in
    m_width (b_metrics b) = w /\
    qsum (flat_map (set_width (b_ratio b) (b_order b)) l) <> m_width (b_metrics b).
Proof.
  exists [bx 1 0 10; gl 0 0 Normal (-2) Normal], (q 20).
  vm_compute. split; [apply Qc_is_canon; reflexivity|discriminate].
Qed.

Example C28_case :
  let l := [bx 1 0 10; gl 5 2 Normal 3 Normal; bx 1 0 10] in
  map snd (layout (node_of Horizontal (hbox_to l (q 28))) (q 100, q 50))
    = [(q 100, q 50); (q 100, q 50); (q 118, q 50)].
Proof. vm_compute. repeat f_equal; apply Qc_is_canon; reflexivity. Qed.

(** C29, any arithmetic: both readers go through the same sequence of boxes and
    positions, the boxes of the tree in preorder. *)
Theorem C29_full_reader :
  forall (N : Num) S (r : S -> node N -> pos N -> S) s n p,
    read_full r s n p = fold_left (fun s v => r s (fst v) (snd v)) (layout n p) s.
Proof. exact (fun N S r s n p => full_reader_lemma r s n p). Qed.

Theorem C29_partial_reader :
  forall (N : Num) S (r : S -> node N -> pos N -> S * bool) s n p,
    read_partial r s n p = run_until (fun s v => r s (fst v) (snd v)) s (layout n p).
Proof. exact (fun N S r s n p => partial_reader_lemma r s n p). Qed.

Theorem C29_visits_boxes :
  forall (N : Num) (n : node N) p, map fst (layout n p) = boxes n.
Proof. exact (fun N n p => visits_boxes_lemma n p). Qed.

Theorem C29_prefix :
  forall (N : Num) (stop : node N -> pos N -> bool) n p,
    let r := read_partial (stopper stop) [] n p in
    (snd r = false /\ fst r = layout n p /\
       Forall (fun v => stop (fst v) (snd v) = false) (layout n p)) \/
    (snd r = true /\ exists a v b, layout n p = a ++ v :: b /\ fst r = a ++ [v] /\
       stop (fst v) (snd v) = true /\ Forall (fun v => stop (fst v) (snd v) = false) a).
Proof. exact (fun N stop n p => partial_prefix_lemma stop n p). Qed.

Example C29_case :
  let t := node_of Vertical (vbox [node_of Horizontal (hbox [bx 2 1 3; NKern (q 1); bx 1 1 1]); bx 4 0 2]) in
  length (layout t (q 0, q 0)) = 5%nat /\
  let at_ (v : node QcNum * pos QcNum) := (this (fst (snd v)), this (snd (snd v))) in
  let stop (n : node QcNum) (_ : pos QcNum) :=
    match n with NBox m => Qc_eqb (m_width m) (q 1) | _ => false end in
  map at_ (fst (read_partial (stopper stop) [] t (q 0, q 0)))
    = firstn 4 (map at_ (layout t (q 0, q 0))).
Proof. split; vm_compute; reflexivity. Qed.

(** C30 *)
(** False as stated: the code tests [fill] for [filll]. *)
Theorem C30_order_refuted :
  exists t1 t2 : totals QcNum,
    totals_order t1 = Filll /\ order_of t1 = Fill /\
    totals_order t2 = Normal /\ order_of t2 = Filll.
Proof.
  exact (ex_intro _ (mkTotals (q 0) (q 0) (q 1) (q 0))
          (ex_intro _ (mkTotals (q 0) (q 0) (q 0) (q 1))
            (conj eq_refl (conj eq_refl (conj eq_refl eq_refl))))).
Qed.

(** It holds exactly when fill and filll are both present or both absent. *)
Theorem C30_order_partial :
  forall (N : Num) (t : totals N),
    totals_order t = order_of t <->
    (nonzero (t_filll t) = nonzero (t_fill t)).
Proof. exact (fun N t => order_lemma t). Qed.

(** C31 *)
Theorem C31_rebox_refuted :
  exists (l : list (node QcNum)) (w1 w2 : QcNum),
    hbox_session (hbox_to l w1) [EReboxTo w2] <> hbox_to l w2 /\
    hbox_session (hbox_to l w1) [ERebox] <> hbox l.
Proof.
  exists [bx 1 0 10; gl 5 2 Normal 5 Normal], (q 20), (q 15).
  split; intros H; apply (f_equal b_ratio) in H; vm_compute in H; discriminate H.
Qed.

(** It holds, for every history of edits, when the requested width is not the
    natural width of the list. Missing: that case, where the old glue ratio stays
    (refuted above). *)
Theorem C31_rebox_partial :
  forall (N : Num) (b : lbox N) es w,
    let b1 := fst (fold_left hedit es (b, false)) in
    let x := m_width (b_metrics (hbox (b_list b1))) in
    nltb x w = true \/ nltb w x = true ->
    hbox_session b (es ++ [EReboxTo w]) = setShiftAmount (hbox_to (b_list b1) w) (b_shift b1).
Proof. exact (fun N b es w => session_forgets_lemma b es w). Qed.

Example C31_case :
  let l := [bx 1 0 10; gl 5 2 Normal 5 Normal] in
  let b := hbox_session (hbox_to l (q 20)) [EList (l ++ l); EReboxTo (q 40)] in
  this (b_ratio b) = 1%Q /\ this (m_width (b_metrics b)) = 40%Q /\ length (b_list b) = 4%nat.
Proof. repeat split; vm_compute; reflexivity. Qed.

(** C32. The depths are above -10000pt, the value that stands for "no box yet". *)
Theorem C32_baselines :
  forall bs ls (ns : list (node QcNum)),
    (forall n (m : metrics QcNum), In n ns -> box_metrics n = Some m ->
       (Q2Qc (inject_Z (-10000)) < m_depth m)%Qc) ->
    spaced bs ls None ns (vb_result (fold_left vb_push ns (vbuilder_new bs ls))).
Proof. exact vb_spaced_lemma. Qed.

(** The rule of TeX, which compares the gap with lineskiplimit, is not followed. *)
Theorem C32_lineskiplimit_refuted :
  exists (b : vbuilder QcNum) (n : node QcNum) (m : metrics QcNum),
    box_metrics n = Some m /\
    (g_space (vb_baselineskip b) - vb_prevdepth b - m_height m < vb_lineskiplimit b)%Qc /\
    vb_result (vb_push b n) <> vb_result b ++ [NGlue (vb_lineskip b); n].
Proof.
  exists (mkVB [bx 1 1 1] (mkGlue (q 12) (q 0) (q 0) Normal Normal) (mkGlue (q 2) (q 0) (q 0) Normal Normal) (q 3) (q 1)),
         (bx 10 0 5), (mkMetrics (q 10) (q 0) (q 5)).
  split; [reflexivity|]. split; [reflexivity|].
  intros H. apply (f_equal (map show)) in H. vm_compute in H. discriminate H.
Qed.

Example C32_case :
  let bs := mkGlue (N := QcNum) (q 12) (q 0) (q 1) Normal Fil in
  let ls := mkGlue (N := QcNum) (q 1) (q 0) (q 0) Normal Normal in
  map show (vb_result (fold_left vb_push [bx 7 2 1; bx 7 3 1; NKern (q 1); bx 11 0 1] (vbuilder_new bs ls)))
  = map show [bx 7 2 1; NGlue (mkGlue (q 3) (q 0) (q 1) Normal Fil); bx 7 3 1; NKern (q 1); NGlue ls; bx 11 0 1].
Proof. vm_compute. reflexivity. Qed.

(** C33. The space factor after each operation, for any history. Missing: the
    jump from below 1000 to above 1000, which is false (next theorem). *)
Theorem C33_spacefactor_partial :
  forall (N : Num) (fm : hmetrics N) ops o,
    let b := fold_left (hb_op fm) ops hbuilder_new in
    ~ (exists c, o = HChar c /\ (hb_sf b < 1000)%Z /\ (1000 < hm_sfcode fm c)%Z) ->
    hb_sf (hb_op fm b o) =
      match o with
      | HChar c => sf_after (hb_sf b) (hm_sfcode fm c)
      | HBoxOp _ => 1000%Z
      | _ => hb_sf b
      end.
Proof. exact (fun N fm ops o => sf_partial_lemma fm ops o). Qed.

(** A comma after a capital: TeX says 1000, the code 1250. *)
Theorem C33_spacefactor_refuted :
  exists (fm : hmetrics QcNum) (b : hbuilder QcNum) (c : Z),
    b = hb_op fm hbuilder_new (HChar 65) /\
    hb_sf (hb_op fm b (HChar c)) = 1250%Z /\ sf_after (hb_sf b) (hm_sfcode fm c) = 1000%Z.
Proof.
  exact (ex_intro _ (mkHM (fun _ => mkMetrics (q 1) (q 0) (q 1))
                          (fun c => if (c =? 65)%Z then 999%Z else 1250%Z) (q 3) (q 1) (q 1) (q 1))
          (ex_intro _ _ (ex_intro _ 44%Z (conj eq_refl (conj eq_refl eq_refl))))).
Qed.

Theorem C33_interword_glue :
  forall (fm : hmetrics QcNum) ops,
    let b := fold_left (hb_op fm) ops hbuilder_new in
    exists g, hb_result (hb_op fm b HSpace) = hb_result b ++ [NGlue g] /\
      g_space g = (if (2000 <=? hb_sf b)%Z then hm_space fm + hm_extra fm else hm_space fm)%Qc /\
      (g_stretch g * Q2Qc (inject_Z 1000) = hm_stretch fm * Q2Qc (inject_Z (hb_sf b)))%Qc /\
      (g_shrink g * Q2Qc (inject_Z (hb_sf b)) = hm_shrink fm * Q2Qc (inject_Z 1000))%Qc.
Proof. exact interword_lemma. Qed.

(** Every operation appends one item and changes nothing before it. *)
Theorem C33_appends :
  forall (N : Num) (fm : hmetrics N) (b : hbuilder N) o,
    exists n, hb_result (hb_op fm b o) = hb_result b ++ [n] /\
      match o with
      | HChar c => n = NChar c (hm_char fm c)
      | HBoxOp m => n = NBox m
      | HGlue g => n = NGlue g
      | HKern k => n = NKern k
      | HSpace => exists g, n = NGlue g /\ g_stretchOrder g = Normal /\ g_shrinkOrder g = Normal
      end.
Proof. exact (fun N fm b o => hb_append_lemma fm b o). Qed.

(** The divisor of line 48 is never 0. *)
Theorem C33_nonzero :
  forall (N : Num) (fm : hmetrics N) ops, hb_sf (fold_left (hb_op fm) ops hbuilder_new) <> 0%Z.
Proof.
  exact (fun N fm ops => hb_sf_nonzero fm ops hbuilder_new (fun H : 1000%Z = 0%Z => ltac:(discriminate H))).
Qed.

Example C33_case :
  let fm := mkHM (N := QcNum) (fun _ => mkMetrics (q 1) (q 0) (q 1))
                 (fun c => if (c =? 46)%Z then 3000%Z else if (c =? 41)%Z then 0%Z else 1000%Z) (q 3) (q 3) (q 3) (q 1) in
  let b := fold_left (hb_op fm) [HChar 97; HChar 46; HChar 41] hbuilder_new in
  hb_sf b = 3000%Z /\
  map show (hb_result (hb_op fm b HSpace)) = map show (hb_result b ++ [gl 4 1 Normal 9 Normal]).
Proof. split; vm_compute; reflexivity. Qed.

Print Assumptions C24_hbox_dims.
Print Assumptions C24_hbox_height.
Print Assumptions C25_glue_setting.
Print Assumptions C25_exact_width.
Print Assumptions C25_same_vertical.
Print Assumptions C25_vbox_glue_setting.
Print Assumptions C26_vbox_dims.
Print Assumptions C26_vbox_depth.
Print Assumptions C27_vtop.
Print Assumptions C27_vtop_to.
Print Assumptions C27_vtop_total.
Print Assumptions C27_vtop_empty_refuted.
Print Assumptions C27_changeHeight.
Print Assumptions C28_hbox_positions.
Print Assumptions C28_vbox_positions.
Print Assumptions C28_hbox_to_fills.
Print Assumptions C28_hbox_fills.
Print Assumptions C28_vbox_to_fills.
Print Assumptions C28_vbox_fills.
Print Assumptions C28_negative_stretch_refuted.
Print Assumptions C29_full_reader.
Print Assumptions C29_partial_reader.
Print Assumptions C29_visits_boxes.
Print Assumptions C29_prefix.
Print Assumptions C30_order_refuted.
Print Assumptions C30_order_partial.
Print Assumptions C31_rebox_refuted.
Print Assumptions C31_rebox_partial.
Print Assumptions C32_baselines.
Print Assumptions C32_lineskiplimit_refuted.
Print Assumptions C33_spacefactor_partial.
Print Assumptions C33_spacefactor_refuted.
Print Assumptions C33_interword_glue.
Print Assumptions C33_appends.
Print Assumptions C33_nonzero.
