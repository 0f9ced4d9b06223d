From Coq Require Import List QArith Qcanon Qround ZArith Bool Lia.
From Verif.Base Require Import Result Num.
From Verif.Model Require Import Glue Box Render.
From Verif.Spec Require Import RenderSpec.
Import ListNotations.
Local Open Scope Z_scope.

Definition settled (s : pagewidget) : Prop := updateLayout s = s.

Lemma bounded_twice lo hi v : bounded lo hi (bounded lo hi v) = bounded lo hi v.
Proof. unfold bounded. lia. Qed.
Lemma bounded_in lo hi v : lo <= hi -> lo <= bounded lo hi v <= hi.
Proof. unfold bounded. lia. Qed.

Lemma update_settled s : settled (updateLayout s).
Proof.
  unfold settled, updateLayout. destruct (p_height s + 20 <? p_sheet s) eqn:E;
    cbn [p_pagewidth p_margins p_width p_height p_sheet p_at p_bar p_min p_max p_value]; rewrite E; [|reflexivity].
  now rewrite bounded_twice.
Qed.
Lemma used_settled ti s : used_page ti s -> settled s.
Proof.
  induction 1 as [w h sheet es e E|s e U IH].
  - destruct e; try contradiction; apply update_settled.
  - destruct e; cbn [page_step]; try apply update_settled. destruct (p_bar s); [apply update_settled|exact IH].
Qed.

Lemma settled_fits s : settled s -> p_sheet s <= p_height s + 20 ->
  p_bar s = false /\ p_at s = (half_up (p_width s - p_pagewidth s), half_up (p_height s - p_sheet s)).
Proof.
  unfold settled, updateLayout. intros H L. destruct (Z.ltb_spec (p_height s + 20) (p_sheet s)) as [C|C]; [lia|].
  rewrite <- H. cbn [p_bar p_at]. split; reflexivity.
Qed.
Lemma settled_tall s : settled s -> p_height s + 20 < p_sheet s ->
  p_bar s = true /\ p_min s = -10 /\ p_max s = p_sheet s + 10 - p_height s /\ p_min s <= p_value s <= p_max s /\
  p_at s = (Z.quot (p_width s - p_pagewidth s) 2, - p_value s).
Proof.
  unfold settled, updateLayout. intros H L. destruct (Z.ltb_spec (p_height s + 20) (p_sheet s)) as [C|C]; [|lia].
  rewrite <- H. cbn [p_bar p_at p_min p_max p_value p_width p_pagewidth p_sheet p_height].
  replace (Z.max (-10) (p_sheet s + 10 - p_height s)) with (p_sheet s + 10 - p_height s) by lia.
  repeat split; apply bounded_in; lia.
Qed.

Lemma half_up_spec z : 2 * half_up z = z \/ 2 * half_up z = z + 1.
Proof. unfold half_up. pose proof (Z.div_mod (z + 1) 2 ltac:(lia)). pose proof (Z.mod_pos_bound (z + 1) 2 ltac:(lia)). lia. Qed.
Lemma quot_half z : Z.abs (2 * Z.quot z 2 - z) <= 1.
Proof. pose proof (Z.quot_rem' z 2). pose proof (Z.rem_bound_abs z 2 ltac:(lia)). lia. Qed.

Lemma window_fits ti s : used_page ti s -> p_sheet s <= p_height s + 20 ->
  p_bar s = false /\ -10 <= free_top s /\ -10 <= free_bottom s /\ 0 <= free_top s - free_bottom s <= 1.
Proof.
  intros U L. destruct (settled_fits s (used_settled ti s U) L) as (B & A). split; [exact B|].
  unfold free_top, free_bottom. rewrite A. cbn [fst snd]. destruct (half_up_spec (p_height s - p_sheet s)); lia.
Qed.
Lemma window_tall ti s v : used_page ti s -> p_height s + 20 < p_sheet s ->
  let s' := page_step (N := QcNum) ti s (PScroll v) in
  p_bar s = true /\ p_min s = -10 /\ p_max s = p_sheet s + 10 - p_height s /\
  (p_min s <= v <= p_max s -> free_top s' = - v /\ free_bottom s' = v - p_max s + 10) /\
  free_top s' <= 10 /\ free_bottom s' <= 10.
Proof.
  intros U L s'. destruct (settled_tall s (used_settled ti s U) L) as (B & Mi & Ma & _ & _).
  split; [exact B|]. split; [exact Mi|]. split; [exact Ma|].
  assert (S' : settled s') by (subst s'; cbn [page_step]; rewrite B; apply update_settled).
  assert (Sh : p_sheet s' = p_sheet s /\ p_height s' = p_height s).
  { subst s'. cbn [page_step]. rewrite B. unfold scroll, updateLayout. cbn [p_height p_sheet]. destruct (_ <? _); split; reflexivity. }
  destruct Sh as (E1 & E2).
  assert (V : p_value s' = bounded (-10) (p_sheet s + 10 - p_height s) v).
  { subst s'. cbn [page_step]. rewrite B. unfold scroll, updateLayout. cbn [p_height p_sheet p_value p_min p_max].
    destruct (Z.ltb_spec (p_height s + 20) (p_sheet s)) as [C|C]; [|lia]. cbn [p_value]. rewrite Mi, Ma.
    unfold bounded. lia. }
  destruct (settled_tall s' S' ltac:(lia)) as (_ & _ & _ & R & A).
  unfold free_top, free_bottom. rewrite A, E1, E2, V. cbn [snd]. unfold bounded. lia.
Qed.

Lemma window_row ti s r : used_page ti s -> 0 < p_height s -> 10 <= r < p_sheet s - 10 ->
  exists v, row_seen (page_step (N := QcNum) ti s (PScroll v)) r.
Proof.
  intros U H R. destruct (Z_le_gt_dec (p_sheet s) (p_height s + 20)) as [L|L].
  - destruct (window_fits ti s U L) as (B & T & Bo & _). exists 0. cbn [page_step]. rewrite B.
    unfold row_seen, free_top, free_bottom in *. lia.
  - assert (L' : p_height s + 20 < p_sheet s) by lia.
    set (v := Z.min r (p_sheet s + 10 - p_height s)).
    destruct (window_tall ti s v U L') as (B & Mi & Ma & F & _).
    exists v. assert (V : p_min s <= v <= p_max s) by (rewrite Mi, Ma; unfold v; lia).
    destruct (F V) as (T & Bo). unfold row_seen.
    assert (E2 : p_height (page_step (N := QcNum) ti s (PScroll v)) = p_height s).
    { cbn [page_step]. rewrite B. unfold scroll, updateLayout. cbn [p_height p_sheet]. destruct (_ <? _); reflexivity. }
    rewrite E2. unfold free_top in T. rewrite T. unfold v. lia.
Qed.

Lemma window_sides ti s : used_page ti s -> Z.abs (free_left s - free_right s) <= 1.
Proof.
  intros U. unfold free_left, free_right.
  destruct (Z_le_gt_dec (p_sheet s) (p_height s + 20)) as [L|L].
  - destruct (settled_fits s (used_settled ti s U) L) as (_ & A). rewrite A. cbn [fst].
    destruct (half_up_spec (p_width s - p_pagewidth s)); lia.
  - destruct (settled_tall s (used_settled ti s U) ltac:(lia)) as (_ & _ & _ & _ & A). rewrite A. cbn [fst].
    pose proof (quot_half (p_width s - p_pagewidth s)). lia.
Qed.

Lemma used_constant ti s : used_page ti s -> p_pagewidth s = 800 /\ p_margins s = default_margins.
Proof.
  assert (St : forall s (e : page_event QcNum), p_pagewidth s = 800 /\ p_margins s = default_margins ->
             p_pagewidth (page_step ti s e) = 800 /\ p_margins (page_step ti s e) = default_margins).
  { intros x e (A & B). destruct e; cbn [page_step]; unfold setBox, resize, scroll, updateLayout;
      repeat (match goal with |- context [if ?c then _ else _] => destruct c end); cbn [p_pagewidth p_margins]; split; assumption. }
  induction 1 as [w h sheet es e E|s e U IH]; apply St; [|exact IH].
  unfold page_session. assert (I0 : p_pagewidth (new_page_widget w h sheet) = 800 /\ p_margins (new_page_widget w h sheet) = default_margins) by (split; reflexivity).
  revert I0. generalize (new_page_widget w h sheet). induction es as [|x es IH]; intros s I0; [exact I0|]. cbn [fold_left]. apply IH, St, I0.
Qed.

Lemma window_columns ti s c : used_page ti s -> 780 <= p_width s -> 10 <= c < 790 -> column_seen s c.
Proof.
  intros U W C. pose proof (window_sides ti s U) as S0. destruct (used_constant ti s U) as (P & _).
  unfold free_left, free_right, column_seen in *. rewrite P in S0. lia.
Qed.

(** the sheet is as high as the page needs *)
Local Open Scope Qc_scope.
Lemma trunc_bound (x : Qc) : 0 <= x -> of_int (Qc_trunc x) <= x /\ x < of_int (Qc_trunc x + 1).
Proof.
  intros H. unfold Qc_trunc, of_int, Qcle, Qclt in *. rewrite !this_lit.
  change (this 0) with 0%Q in H. unfold Qle, Qlt in *. cbn [Qnum Qden inject_Z] in *.
  assert (Hn : (0 <= Qnum x)%Z) by lia.
  rewrite Z.quot_div_nonneg by lia.
  pose proof (Z.div_mod (Qnum x) (Zpos (Qden x)) ltac:(lia)). pose proof (Z.mod_pos_bound (Qnum x) (Zpos (Qden x)) ltac:(lia)).
  split; nia.
Qed.

Lemma of_int_plus a b : of_int (a + b) = of_int a + of_int b.
Proof. apply Qc_is_canon. unfold of_int. rewrite this_plus, !this_lit, inject_Z_plus. reflexivity. Qed.
Lemma of_int_le a b : (a <= b)%Z -> of_int a <= of_int b.
Proof. intros H. unfold of_int, Qcle. rewrite !this_lit. rewrite <- Zle_Qle. exact H. Qed.

Lemma sheet_eq ti s (m : metrics QcNum) : p_sheet (page_step ti s (PBox m)) =
  Z.min (Z.max 600 (ti (nadd (n := QcNum) (nadd (n := QcNum) (totalHeight m) (nz (g_top (p_margins s)))) (nz (g_bottom (p_margins s)))))) 16777215.
Proof.
  cbn [page_step]. unfold setBox. set (h := ti _).
  assert (E : (if (600 <? h)%Z then h else 600%Z) = Z.max 600 h) by (destruct (Z.ltb_spec 600 h); lia).
  rewrite E. unfold updateLayout. cbn [p_height p_sheet]. destruct (p_height s + 20 <? _)%Z; reflexivity.
Qed.

Lemma swap_first (a b c d : Qc) : a + b + c + d = c + (a + b) + d.
Proof. ring. Qed.
Lemma sheet_room s (m : metrics QcNum) : 0 <= m_height m + m_depth m ->
  (0 <= g_top (p_margins s))%Z -> (0 <= g_bottom (p_margins s))%Z ->
  let need := of_int (g_top (p_margins s)) + (m_height m + m_depth m) + of_int (g_bottom (p_margins s)) in
  let sheet := p_sheet (page_step (N := QcNum) Qc_trunc s (PBox m)) in
  need < of_int 16777215 -> need < of_int (sheet + 1) /\ (600 <= sheet)%Z.
Proof.
  intros Hm Ht Hb need sheet Hn. unfold sheet. rewrite sheet_eq.
  assert (E : nadd (n := QcNum) (nadd (n := QcNum) (totalHeight m) (nz (g_top (p_margins s)))) (nz (g_bottom (p_margins s))) = need).
  { unfold need, totalHeight. change (nz (N := QcNum)) with of_int. change (nadd (n := QcNum)) with Qcplus. apply swap_first. }
  rewrite E. clear E.
  assert (Nn : 0 <= need).
  { unfold need. pose proof (of_int_le 0 _ Ht) as A. pose proof (of_int_le 0 _ Hb) as B. change (of_int 0) with 0 in A, B.
    revert A B Hm. generalize (of_int (g_top (p_margins s))), (of_int (g_bottom (p_margins s))), (m_height m + m_depth m).
    intros a b c A B C. clear - A B C. qclra. }
  destruct (trunc_bound need Nn) as (L & G).
  assert (T : (Qc_trunc need < 16777215)%Z).
  { destruct (Z_lt_ge_dec (Qc_trunc need) 16777215) as [C|C]; [exact C|]. exfalso.
    pose proof (of_int_le 16777215 (Qc_trunc need) ltac:(lia)) as X.
    apply (Qclt_not_le _ _ Hn). eapply Qcle_trans; eassumption. }
  split; [|lia].
  eapply Qclt_le_trans; [exact G|]. apply of_int_le. lia.
Qed.
Lemma sheet_high s (m : metrics QcNum) : of_int 16777216 <= m_height m + m_depth m ->
  (0 <= g_top (p_margins s))%Z -> (0 <= g_bottom (p_margins s))%Z ->
  of_int (p_sheet (page_step (N := QcNum) Qc_trunc s (PBox m))) < of_int (g_top (p_margins s)) + (m_height m + m_depth m).
Proof.
  intros H T _. eapply Qcle_lt_trans; [apply (of_int_le _ 16777215); rewrite sheet_eq; lia|].
  eapply Qclt_le_trans; [|eapply Qcle_trans; [exact H|]]; [reflexivity|].
  pose proof (of_int_le 0 _ T) as A. change (of_int 0) with 0 in A. revert A.
  generalize (of_int (g_top (p_margins s))), (m_height m + m_depth m). intros a b A. clear - A. qclra.
Qed.
Local Open Scope Z_scope.
Lemma window_narrow ti w h : w < 780 -> exists c, 10 <= c < 790 /\
  forall s, used_page ti s -> p_width s = w -> p_height s = h -> ~ column_seen s c.
Proof.
  intros W. exists (if w =? 779 then 789 else 10). split; [destruct (w =? 779); lia|].
  intros s U Ew _. destruct (used_constant ti s U) as (P & _).
  assert (S0 : 2 * fst (p_at s) = w - 800 \/ 2 * fst (p_at s) = w - 799).
  { destruct (Z_le_gt_dec (p_sheet s) (p_height s + 20)) as [L|L].
    - destruct (settled_fits s (used_settled ti s U) L) as (_ & A). rewrite A. cbn [fst]. rewrite P, Ew.
      destruct (half_up_spec (w - 800)); lia.
    - destruct (settled_tall s (used_settled ti s U) ltac:(lia)) as (_ & _ & _ & _ & A). rewrite A. cbn [fst]. rewrite P, Ew.
      pose proof (Z.quot_rem' (w - 800) 2) as Q. pose proof (Z.rem_bound_abs (w - 800) 2 ltac:(lia)). pose proof (Z.rem_nonpos (w - 800) 2 ltac:(lia) ltac:(lia)). lia. }
  unfold column_seen. rewrite Ew. destruct (Z.eqb_spec w 779) as [->|Ne]; lia.
Qed.

(** the sheet, its margins and the room between them *)
Lemma window_sheet ti s : used_page ti s -> p_pagewidth s = 800 /\ p_margins s = mkMargins 10 10 10 10 /\ hsize s = 780.
Proof. intros U. destruct (used_constant ti s U) as (A & B). unfold hsize. rewrite A, B. auto. Qed.
(** until it is scrolled a page is shown from its top *)
Lemma step_value ti s (e : page_event QcNum) : match e with PScroll _ => False | _ => True end -> p_value s = 0 -> p_value (page_step ti s e) = 0.
Proof.
  intros E V. destruct e; try contradiction; cbn [page_step]; unfold setBox, resize, updateLayout; cbn [p_height p_sheet p_value];
    match goal with |- context [if ?c then _ else _] => destruct c eqn:C end; cbn [p_value]; try exact V; rewrite V;
    apply Z.ltb_lt in C; unfold bounded; lia.
Qed.
Lemma window_top ti w h sheet (es : list (page_event QcNum)) :
  Forall (fun e => match e with PScroll _ => False | _ => True end) es -> es <> [] ->
  let s := page_session ti w h sheet es in p_height s + 20 < p_sheet s -> free_top s = 0.
Proof.
  intros F NE s L. assert (V : p_value s = 0).
  { subst s. unfold page_session. clear NE L. assert (V0 : p_value (new_page_widget w h sheet) = 0) by reflexivity.
    revert V0. generalize (new_page_widget w h sheet). induction F as [|e es E F IH]; intros x V; cbn [fold_left]; [exact V|].
    apply IH. now apply step_value. }
  assert (U : used_page ti s).
  { subst s. destruct (exists_last NE) as (es' & e & ->). apply Forall_app in F as (_ & F). inversion F; subst.
    unfold page_session. rewrite fold_left_app. cbn [fold_left]. now apply up_event. }
  destruct (settled_tall s (used_settled ti s U) L) as (_ & _ & _ & _ & A). unfold free_top. rewrite A, V. reflexivity.
Qed.
