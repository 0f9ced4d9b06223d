From Coq Require Import List QArith Qcanon ZArith Bool Lqa Arith Lia.
From Verif.Base Require Import Result Num.
From Verif.Model Require Import Box Tfm.
From Verif.Spec Require Import TfmSpec.
Import ListNotations.

Lemma absolute_field (N : Num) (t : tfm N) k :
  t_dimen (to_absolute t) k = nmul (t_dimen t k) (design_size t).
Proof. destruct t as [s d]. destruct k; reflexivity. Qed.

Lemma relative_field (N : Num) (t : tfm N) k :
  t_dimen (to_relative t) k = ndiv (t_dimen t k) (design_size t).
Proof. destruct t as [s d]. destruct k; reflexivity. Qed.

Lemma roundtrip (t : tfm QcNum) : design_size t <> 0%Qc ->
  design_size (to_relative (to_absolute t)) = design_size t /\
  (forall k, t_dimen (to_relative (to_absolute t)) k = t_dimen t k) /\
  design_size (to_absolute (to_relative t)) = design_size t /\
  (forall k, t_dimen (to_absolute (to_relative t)) k = t_dimen t k).
Proof.
  intros H. repeat split.
  - intros k. rewrite relative_field, absolute_field.
    change (design_size (to_absolute t)) with (design_size t). cbn [num QcNum nmul ndiv].
    generalize dependent (design_size t). intros s Hs. generalize (t_dimen t k). intros x.
    cbn [num QcNum] in *. field. exact Hs.
  - intros k. rewrite absolute_field, relative_field.
    change (design_size (to_relative t)) with (design_size t). cbn [num QcNum nmul ndiv].
    generalize dependent (design_size t). intros s Hs. generalize (t_dimen t k). intros x.
    cbn [num QcNum] in *. field. exact Hs.
Qed.

(** * Stretching a sign *)
Lemma stretched_total (m : metrics QcNum) (h : Qc) :
  (0 < m_height m + m_depth m)%Qc ->
  let r := stretched m h in
  (m_height r + m_depth r)%Qc = nmax (N := QcNum) (m_height m + m_depth m)%Qc h /\
  (m_height r * m_depth m)%Qc = (m_height m * m_depth r)%Qc /\
  m_width r = m_width m.
Proof.
  intros Hp r. subst r. unfold stretched.
  set (a := (m_height m : Qc)) in *. set (b := (m_depth m : Qc)) in *. cbn [num QcNum nadd ndiv nmul nltb] in *.
  assert (a + b <> 0)%Qc as Hn by (intros E; rewrite E in Hp; discriminate).
  assert ((h / (a + b)) * (a + b) = h)%Qc as E by (field; exact Hn).
  unfold nmax. cbn [nltb QcNum].
  destruct (Qc_ltb (n1 (N := QcNum)) (h / (a + b))%Qc) eqn:L; cbn [m_height m_depth m_width].
  - assert (Qc_ltb (a + b)%Qc h = true) as ->.
    { unfold Qc_ltb in *. apply negb_true_iff in L. apply negb_true_iff.
      apply not_true_iff_false in L. apply not_true_iff_false. intros C. apply L.
      apply Qle_bool_iff. apply Qle_bool_iff in C. unfold n1. cbn [nlit QcNum].
      change (h / (a + b) <= Q2Qc 1)%Qc. change (h <= a + b)%Qc in C.
      rewrite <- E in C. generalize dependent (h / (a + b))%Qc. intros q _ _ C.
      destruct (Qclt_le_dec (Q2Qc 1) q) as [G|G]; [|exact G]. exfalso.
      apply (Qcmult_lt_compat_r _ _ (a + b) Hp) in G.
      change (Q2Qc 1) with 1%Qc in G. rewrite Qcmult_1_l in G.
      apply (Qclt_not_le _ _ G). exact C. }
    repeat split.
    + rewrite <- E at 3. ring.
    + ring.
  - assert (Qc_ltb (a + b)%Qc h = false) as ->.
    { unfold Qc_ltb in *. apply negb_false_iff in L. apply negb_false_iff.
      apply Qle_bool_iff. apply Qle_bool_iff in L. unfold n1 in L. cbn [nlit QcNum] in L.
      change (h <= a + b)%Qc. change (h / (a + b) <= Q2Qc 1)%Qc in L.
      apply (Qcmult_le_compat_r _ _ (a + b)) in L; [|apply Qclt_le_weak; exact Hp].
      change (Q2Qc 1) with 1%Qc in L. rewrite Qcmult_1_l, E in L. exact L. }
    repeat split.
Qed.

(** * The font table *)
Lemma init_all (N : Num) lh any mag l : forall fonts : list (efont N),
  fold_left (fun fs p => initFont lh mag fs (fst p) (font_tfm (snd p) any)) l fonts =
  fonts ++ map (fun p => mkEFont (nmul (nz (fst p)) mag)
    (t_dimen (to_absolute (mkTfm (lh (nmul (nz (fst p)) mag)) (t_dimen (font_tfm (snd p) any)))))) l.
Proof.
  induction l as [|p l IH]; intros fonts; [symmetry; apply app_nil_r|].
  cbn [fold_left map]. rewrite IH. unfold initFont at 1. rewrite <- app_assoc. reflexivity.
Qed.

Lemma reset_keeps (N : Num) lh any mag (fonts : list (efont N)) i :
  (i < length fonts)%nat -> nth_error (reset lh any fonts mag) i = nth_error fonts i.
Proof. intros H. unfold reset. rewrite init_all. apply nth_error_app1. exact H. Qed.
Lemma reset_length (N : Num) lh any mag (fonts : list (efont N)) :
  length (reset lh any fonts mag) = (length fonts + 12)%nat.
Proof. unfold reset. rewrite init_all, app_length, map_length. reflexivity. Qed.

Lemma first_fonts (N : Num) lh any mag fam s n : family_font fam s = Some n ->
  exists f : efont N, nth_error (reset lh any [] mag) (font_of s (mathfont fam)) = Some f /\
    e_size f = nmul (nz (points s)) mag /\ forall k, e_dimen f k = nmul (t_dimen (font_tfm n any) k) (lh (e_size f)).
Proof.
  intros H. unfold reset. rewrite init_all. cbn [app].
  do 4 (destruct fam as [|fam]; [injection H as <-; destruct s; eexists; (split; [reflexivity|]);
    (split; [reflexivity|]); intros k; apply absolute_field|]). discriminate.
Qed.

(** * Parameters *)
Lemma parameters (any : fontdimen QcNum) n k : t_dimen (font_tfm n any) k = Q2Qc (computer_modern n k # 1000000).
Proof. destruct n, k; apply Qc_is_canon; reflexivity. Qed.
Lemma parameters_float (any : fontdimen F32) n k :
  neqb (t_dimen (font_tfm n any) k) (nlit (computer_modern n k # 1000000)) = true.
Proof. destruct n, k; vm_compute; reflexivity. Qed.

(** * Space factors *)
Lemma sfcode_sweep french c : (0 <= c < 128)%Z ->
  ~ In c [41; 39; 93]%Z -> ~ (65 <= c <= 90)%Z -> sfcode french c = plain_sfcode french c.
Proof.
  intros R H1 H2. unfold plain_sfcode.
  replace (existsb (Z.eqb c) [41; 39; 93]%Z) with false.
  2:{ symmetry. apply not_true_iff_false. intros E. apply existsb_exists in E. destruct E as (x & Hx & E).
      apply Z.eqb_eq in E. subst x. contradiction. }
  replace ((65 <=? c)%Z && (c <=? 90)%Z) with false by lia.
  assert (In (Z.to_nat c) (seq 0 128)) as Hin by (apply in_seq; lia).
  rewrite <- (Z2Nat.id c) by lia. revert Hin. generalize (Z.to_nat c). clear. intros k Hk.
  assert (forallb (fun k => let c := Z.of_nat k in Z.eqb (sfcode french c) (if french then 1000 else match c with
       | 46 | 63 | 33 => 3000 | 58 => 2000 | 59 => 1500 | 44 => 1250 | _ => 1000 end)%Z) (seq 0 128) = true) as F
    by (destruct french; vm_compute; reflexivity).
  rewrite forallb_forall in F. apply Z.eqb_eq. apply F. exact Hk.
Qed.

(** * Parameters by number *)
Lemma sigma_numbers i : (5 <= i <= 22)%nat -> i <> 7%nat -> sigma i = nth_error symbol_params (i - 1).
Proof. intros H Hn. do 23 (destruct i as [|i]; [try lia; reflexivity|]). lia. Qed.
Lemma xi_numbers i : (8 <= i <= 13)%nat -> xi i = nth_error extension_params (i - 1).
Proof. intros H. do 14 (destruct i as [|i]; [try lia; reflexivity|]). lia. Qed.

(** * Initialisation *)
Lemma assigned_ext (N : Num) l : forall (d d' : fontdimen N) k,
  d k = d' k -> assigned d l k = assigned d' l k.
Proof.
  induction l as [|p l IH]; intros d d' k H; [exact H|].
  apply (IH (set d (fst p) (nlit (snd p))) (set d' (fst p) (nlit (snd p)))).
  unfold set. destruct (fd_eq_dec (fst p) k); [reflexivity|exact H].
Qed.
Lemma zero_all (N : Num) (any : fontdimen N) k : zerofontdimen any k = nlit 0.
Proof. destruct k; lazy -[nlit]; reflexivity. Qed.
Lemma initialised (N : Num) (any any' : fontdimen N) n k :
  t_dimen (font_tfm n any) k = t_dimen (font_tfm n any') k.
Proof. destruct n; apply assigned_ext; rewrite !zero_all; reflexivity. Qed.
