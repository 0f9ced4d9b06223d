From Coq Require Import List QArith Qcanon ZArith Bool Lia.
From Verif.Base Require Import Result Num.
From Verif.Model Require Import Glue Box Layout LineBreaks Tfm Render.
From Verif.Spec Require Import BoxSpec LineBreakSpec RenderSpec.
From Verif.Proofs Require Import BoxProofs LayoutProofs.
Import ListNotations.

Section AnyNum.
  Context {N : Num}.

  Lemma fitness_same (r : N) : getFitnessClass r = fitness_of r.
  Proof. reflexivity. Qed.

  Lemma visitor_drawn W (ori : nat -> option (metrics N)) vs : forall k ds,
    Forall (fun v => box_metrics (fst v) <> None) vs ->
    exists ds' k', fold_left (fun s v => visitor W ori s (fst v) (snd v)) vs (k, ds) = (k', ds ++ ds') /\ drawn W ori k vs ds'.
  Proof.
    induction vs as [|(n, (x, y)) vs IH]; intros k ds F.
    { exists [], k. rewrite app_nil_r. split; [reflexivity|constructor]. }
    inversion F as [|a b Fv Fs]; subst. cbn [fold_left fst snd].
    destruct n as [c m|m|m|q|g|q| |d m s r o l]; try (exfalso; apply Fv; reflexivity).
    - destruct (IH (Datatypes.S k) (ds ++ paint W (ori k) (NChar c m) (x, y)) Fs) as (ds' & k' & E & D).
      exists (paint W (ori k) (NChar c m) (x, y) ++ ds'), k'. split; [rewrite app_assoc; exact E|].
      assert (P : paint_box (ori k) (NChar c m) (x, y) = [glyph (ori k) c m (x, y)]) by (cbn [paint_box glyph]; destruct (ori k); reflexivity).
      pose proof (dr_char W ori k c m x y vs ds' D) as G.
      destruct W as [|w|b]; cbn [paint].
      + rewrite P. exact G.
      + unfold paint_equation. rewrite P. exact G.
      + unfold paint_viewer. rewrite P. destruct b; exact G.
    - destruct (IH k (ds ++ paint W None (NBox m) (x, y)) Fs) as (ds' & k' & E & D).
      exists ds', k'. split; [|constructor; exact D].
      replace (ds ++ ds') with ((ds ++ paint W None (NBox m) (x, y)) ++ ds'); [exact E|].
      destruct W as [|w|[|]]; cbn; rewrite app_nil_r; reflexivity.
    - destruct (IH k (ds ++ paint_rule m (x, y)) Fs) as (ds' & k' & E & D).
      exists (paint_rule m (x, y) ++ ds'), k'. split; [rewrite app_assoc; exact E|].
      exact (dr_rule W ori k m x y vs ds' D).
    - destruct (IH k (ds ++ paint W None (NList d m s r o l) (x, y)) Fs) as (ds' & k' & E & D).
      exists (paint W None (NList d m s r o l) (x, y) ++ ds'), k'. split; [rewrite app_assoc; exact E|].
      destruct d.
      + pose proof (dr_hbox W ori k m s r o l x y vs ds' D) as G.
        destruct W as [|w|[|]]; try exact G.
        cbn [paint]. unfold paint_viewer. rewrite fitness_same. cbn [paint_box negb app]. cbn [app] in G.
        destruct o, (fitness_of r); exact G.
      + pose proof (dr_vbox W ori k m s r o l x y vs ds' D) as G.
        destruct W as [|w|[|]]; exact G.
  Qed.

  Lemma layout_all_boxes (n : node N) p : Forall (fun v => box_metrics (fst v) <> None) (layout n p).
  Proof.
    rewrite layout_vis. revert p.
    induction n as [c m|m|m|x|g|q| |k m sh ratio ord l IH] using node_ind2; intros p;
      try (repeat constructor; discriminate).
    destruct k; [rewrite vis_h|rewrite vis_v]; (constructor; [discriminate|]).
    - generalize (fst p). induction IH as [|c l Hc Hl IHl]; intros x; [constructor|].
      cbn [hvis]. apply Forall_app. split; [apply Hc|apply IHl].
    - generalize (nsub (snd p) (m_height m)). induction IH as [|c l Hc Hl IHl]; intros y; [constructor|].
      cbn [vvis]. apply Forall_app. split; [apply Hc|apply IHl].
  Qed.

  Lemma draw_box_drawn W (ori : nat -> option (metrics N)) n p : drawn W ori 0 (layout n p) (draw_box W ori n p).
  Proof.
    unfold draw_box. rewrite full_reader_lemma.
    destruct (visitor_drawn W ori (layout n p) 0 [] (layout_all_boxes n p)) as (ds & k & E & D).
    rewrite E. exact D.
  Qed.

  Lemma drawn_letters W (ori : nat -> option (metrics N)) k vs ds : drawn W ori k vs ds ->
    flat_map letters ds = if hides_letters W then [] else flat_map characters vs.
  Proof.
    induction 1 as [k|k c m x y vs ds D IH|k m x y vs ds D IH|k m p vs ds D IH|k m s r o l x y vs ds D IH|k m s r o l x y vs ds D IH].
    - now destruct (hides_letters W).
    - assert (G : letters (glyph (ori k) c m (x, y)) = [(c, (x, y))]) by (unfold glyph; destruct (ori k); reflexivity).
      rewrite flat_map_app, IH. destruct W as [|[a b f e]|b]; cbn [hides_letters w_chars w_boxes w_baselines flat_map characters app]; rewrite ?G; try reflexivity.
      destruct a, b, e; cbn [negb flat_map app letters]; rewrite ?G; reflexivity.
    - cbn [flat_map letters characters app]. exact IH.
    - cbn [flat_map characters app]. exact IH.
    - rewrite flat_map_app, IH. destruct W as [|[a b f e]|b]; try reflexivity. destruct f; reflexivity.
    - rewrite flat_map_app, IH. destruct W as [|[a b f e]|b]; try reflexivity; [destruct f|destruct b]; reflexivity.
  Qed.

  Lemma drawn_bars W (ori : nat -> option (metrics N)) k vs ds : drawn W ori k vs ds -> flat_map bars ds = flat_map rules vs.
  Proof.
    induction 1 as [k|k c m x y vs ds D IH|k m x y vs ds D IH|k m p vs ds D IH|k m s r o l x y vs ds D IH|k m s r o l x y vs ds D IH].
    - reflexivity.
    - assert (G : bars (glyph (ori k) c m (x, y)) = []) by (unfold glyph; destruct (ori k); reflexivity).
      rewrite flat_map_app, IH. destruct W as [|[a b f e]|b]; cbn [flat_map rules app w_chars w_boxes w_baselines]; rewrite ?G; try reflexivity.
      destruct a, b, e; cbn [flat_map app bars]; rewrite ?G; reflexivity.
    - cbn [flat_map bars rules app]. now rewrite IH.
    - cbn [flat_map rules app]. exact IH.
    - rewrite flat_map_app, IH. destruct W as [|[a b f e]|b]; try reflexivity. destruct f; reflexivity.
    - rewrite flat_map_app, IH. destruct W as [|[a b f e]|b]; try reflexivity; [destruct f|destruct b]; reflexivity.
  Qed.

  Lemma drawn_numbers (ori : nat -> option (metrics N)) k vs ds : drawn (Breaks true) ori k vs ds -> flat_map numbers ds = flat_map ratios vs.
  Proof.
    remember (Breaks true) as W.
    induction 1 as [k|k c m x y vs ds D IH|k m x y vs ds D IH|k m p vs ds D IH|k m s r o l x y vs ds D IH|k m s r o l x y vs ds D IH];
      subst W; rewrite ?flat_map_app; cbn [flat_map ratios numbers app]; rewrite ?IH by reflexivity; try reflexivity.
    unfold glyph; destruct (ori k); reflexivity.
  Qed.
End AnyNum.

Local Open Scope Qc_scope.
Lemma nz_sub a b : (nz (N := QcNum) (a - b) : Qc) = of_int a - of_int b.
Proof.
  apply Qc_is_canon. unfold of_int, nz, QcNum; cbn [nlit]. rewrite this_minus, !this_lit.
  unfold Z.sub. rewrite inject_Z_plus, inject_Z_opp. reflexivity.
Qed.

Lemma corner_lemma (g : margins) w h (m : metrics QcNum) :
  let a := area_of m (origin false g w h m) in a_left a = of_int (g_left g) /\ a_top a = of_int (g_top g).
Proof. cbn -[Q2Qc of_int]. unfold of_int, nz, QcNum; cbn [nlit nadd]. split; [reflexivity|ring]. Qed.

Lemma half_twice (x : Qc) : x * Q2Qc (1 # 2) + x * Q2Qc (1 # 2) = x.
Proof.
  rewrite <- Qcmult_plus_distr_r. replace (Q2Qc (1 # 2) + Q2Qc (1 # 2)) with 1 by (apply Qc_is_canon; reflexivity). ring.
Qed.

Lemma centred_lemma (g : margins) w h (m : metrics QcNum) :
  let a := area_of m (origin true g w h m) in
  a_left a - of_int (g_left g) = (of_int w - of_int (g_right g)) - a_right a /\
  a_top a - of_int (g_top g) = (of_int h - of_int (g_bottom g)) - a_bottom a.
Proof.
  unfold origin, area_of, totalHeight. cbn [fst snd a_left a_right a_top a_bottom]. rewrite !nz_sub.
  change (nadd (n := QcNum)) with Qcplus. change (nsub (n := QcNum)) with Qcminus. change (nmul (n := QcNum)) with Qcmult.
  change (nlit (n := QcNum)) with Q2Qc. change (nz (N := QcNum)) with of_int.
  set (wx := of_int w). set (hx := of_int h). set (l := of_int (g_left g)). set (t := of_int (g_top g)).
  set (r := of_int (g_right g)). set (b := of_int (g_bottom g)).
  split.
  - pose proof (half_twice (wx - l - r - m_width m)) as H. set (z := (wx - l - r - m_width m) * Q2Qc (1 # 2)) in *.
    clearbody z. transitivity z; [ring|]. transitivity ((wx - l - r - m_width m) - z); [rewrite <- H; ring|ring].
  - pose proof (half_twice (hx - t - b - (m_height m + m_depth m))) as H.
    set (z := (hx - t - b - (m_height m + m_depth m)) * Q2Qc (1 # 2)) in *.
    clearbody z. transitivity z; [ring|]. transitivity ((hx - t - b - (m_height m + m_depth m)) - z); [rewrite <- H; ring|ring].
Qed.

(** A sign that was stretched covers the area of its box *)
Lemma stretched_glyph (o : metrics QcNum) (h : Qc) (p : Qc * Qc) : 0 < m_height o + m_depth o -> m_width o <> 0 ->
  let m := stretched o h in
  scaled (m_width m / m_width o) ((m_height m + m_depth m) / (m_height o + m_depth o)) p (area_of o p) = area_of m p.
Proof.
  intros Pt Pw. cbn zeta.
  assert (T : m_height o + m_depth o <> 0) by (intros E; rewrite E in Pt; apply (Qclt_not_eq _ _ Pt); reflexivity).
  unfold scaled, area_of; cbn [a_left a_top a_right a_bottom].
  unfold stretched. destruct (nltb (n := QcNum) n1 _) eqn:E; cbn [m_height m_depth m_width];
    cbn [QcNum nadd nmul ndiv]; f_equal; field; auto.
Qed.
