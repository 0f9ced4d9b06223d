(** C56, C76-C80: font dimensions and the engine of the applications. *)
From Coq Require Import List QArith Qcanon ZArith Bool.
From Verif.Base Require Import Result Num.
From Verif.Model Require Import Box Tfm.
From Verif.Spec Require Import TfmSpec.
From Verif.Proofs Require Import TfmProofs.
Import ListNotations.

(** C56: every dimension is multiplied, respectively divided, by the design size. *)
Theorem C56_fields :
  forall (N : Num) (t : tfm N) (k : fd),
    t_dimen (to_absolute t) k = nmul (t_dimen t k) (design_size t) /\
    t_dimen (to_relative t) k = ndiv (t_dimen t k) (design_size t).
Proof. exact (fun N t k => conj (absolute_field N t k) (relative_field N t k)). Qed.

(** C56: there and back, exact arithmetic. *)
Theorem C56_roundtrip :
  forall t : tfm QcNum, design_size t <> 0%Qc ->
    design_size (to_relative (to_absolute t)) = design_size t /\
    (forall k, t_dimen (to_relative (to_absolute t)) k = t_dimen t k) /\
    design_size (to_absolute (to_relative t)) = design_size t /\
    (forall k, t_dimen (to_absolute (to_relative t)) k = t_dimen t k).
Proof. exact roundtrip. Qed.

(** Not so in single precision: the x-height of cmr10 changes. *)
Theorem C56_float_refuted :
  exists (t : tfm F32) (k : fd), t = font_tfm cmr10 (fun _ => n0) /\
    neqb (t_dimen (to_relative (to_absolute t)) k) (t_dimen t k) = false.
Proof. exists (font_tfm cmr10 (fun _ => n0)), x_height. split; [reflexivity|vm_compute; reflexivity]. Qed.

(** C56: the design size of each font but one is that of its name. *)
Theorem C56_design_partial :
  forall (N : Num) (any : fontdimen N) (n : fontname), n <> cmsy5 ->
    design_size (font_tfm n any) = nlit (named_size n).
Proof. intros N any n H. destruct n; try reflexivity. contradiction. Qed.
Theorem C56_design_refuted :
  forall any : fontdimen QcNum, design_size (font_tfm cmsy5 any) <> nlit (named_size cmsy5).
Proof. intros any H. discriminate H. Qed.

(** No field of a built-in font is left uninitialised. *)
Theorem C56_initialised :
  forall (N : Num) (any any' : fontdimen N) (n : fontname) (k : fd),
    t_dimen (font_tfm n any) k = t_dimen (font_tfm n any') k.
Proof. exact initialised. Qed.

(** C76: a delimiter or radical sign of positive size is as high as asked, or
    has its own size if that is larger; its proportions and width are kept. *)
Theorem C76_stretched :
  forall (m : metrics QcNum) (h : Qc), (0 < m_height m + m_depth m)%Qc ->
    (m_height (stretched m h) + m_depth (stretched m h))%Qc = nmax (N := QcNum) (m_height m + m_depth m)%Qc h /\
    (m_height (stretched m h) * m_depth m)%Qc = (m_height m * m_depth (stretched m h))%Qc /\
    m_width (stretched m h) = m_width m.
Proof. exact stretched_total. Qed.
Example stretched_ex :
  let m := mkMetrics (N := QcNum) (Q2Qc 6) (Q2Qc 2) (Q2Qc 3) in
  let r := stretched m (Q2Qc 12) in
  m_height r = Q2Qc 9 /\ m_depth r = Q2Qc 3 /\ m_width r = Q2Qc 3 /\ stretched m (Q2Qc 5) = m.
Proof. vm_compute. repeat split; apply Qc_is_canon; reflexivity. Qed.

(** C77: a new engine has for the families 0 to 3 the fonts of plain TeX, of
    the sizes 10, 7 and 5 and with their parameters. *)
Theorem C77_new_partial :
  forall (N : Num) (lh : N -> N) (any : fontdimen N) (mag : N) (fam : nat) (s : at_size) (n : fontname),
    family_font fam s = Some n ->
    exists f, nth_error (reset lh any [] mag) (font_of s (mathfont fam)) = Some f /\
      e_size f = nmul (nz (points s)) mag /\
      forall k, e_dimen f k = nmul (t_dimen (font_tfm n any) k) (lh (e_size f)).
Proof. exact first_fonts. Qed.
Example new_ex : nth_error (reset (N := QcNum) (fun x => x) (fun _ => n0) [] (Q2Qc 2)) 7 <> None /\
  font_of at7 (mathfont 2) = 7%nat /\ family_font 2 at7 = Some cmsy7.
Proof. repeat split. discriminate. Qed.

(** The other families have no font: their ids are past the end of the table. *)
Theorem C77_family_refuted :
  forall (N : Num) (lh : N -> N) (any : fontdimen N) (mag : N) (fam : nat), (4 <= fam)%nat ->
    nth_error (reset lh any [] mag) (fst (fst (mathfont fam))) = None.
Proof.
  intros N lh any mag fam H. apply nth_error_None. rewrite reset_length. cbn [mathfont fst length].
  apply Nat.le_trans with (3 * 4)%nat; [apply Nat.leb_le; reflexivity|].
  apply Nat.mul_le_mono_l. exact H.
Qed.

(** [reset] with another magnification changes none of the math fonts. *)
Theorem C77_reset_refuted :
  forall (N : Num) (lh : N -> N) (any : fontdimen N) (mag mag' : N) (fam : nat), (fam < 4)%nat ->
    let fonts := reset lh any [] mag in
    nth_error (reset lh any fonts mag') (fst (fst (mathfont fam))) = nth_error fonts (fst (fst (mathfont fam))).
Proof.
  intros N lh any mag mag' fam H fonts. apply reset_keeps. unfold fonts. rewrite reset_length.
  cbn [mathfont fst length]. apply Nat.lt_le_trans with (3 * 4)%nat; [|apply Nat.leb_le; reflexivity].
  apply Nat.mul_lt_mono_pos_l; [apply Nat.ltb_lt; reflexivity|exact H].
Qed.

(** C78: lengths are scaled, and an upright font stays upright. *)
Theorem C78_lengths_partial :
  forall t : tfm QcNum,
    (forall k, is_length k -> t_dimen (to_absolute t) k = (t_dimen t k * design_size t)%Qc) /\
    (t_dimen t slant_per_pt = 0%Qc -> t_dimen (to_absolute t) slant_per_pt = 0%Qc).
Proof.
  intros t. split; [intros k _; apply absolute_field|]. intros H. rewrite absolute_field, H. apply Qcmult_0_l.
Qed.
(** C78: lengths are scaled; the slant, which is a ratio, is scaled too. *)
Theorem C78_refuted :
  forall t : tfm QcNum, design_size t <> 1%Qc -> t_dimen t slant_per_pt <> 0%Qc ->
    t_dimen (to_absolute t) slant_per_pt <> t_dimen t slant_per_pt.
Proof.
  intros t H1 H2. rewrite absolute_field. cbn [nmul QcNum num]. intros E. apply H1.
  generalize dependent (design_size t). generalize dependent (t_dimen t slant_per_pt).
  cbn [num QcNum]. intros x Hx s Hs E.
  assert (x * (s - 1) = 0)%Qc as Z by (replace (x * (s - 1))%Qc with (x * s - x)%Qc by ring; rewrite E; ring).
  destruct (Qcmult_integral _ _ Z) as [F|F]; [contradiction|].
  replace s with ((s - 1) + 1)%Qc by ring. rewrite F. ring.
Qed.
Example slant_ex : forall any : fontdimen QcNum,
  t_dimen (to_absolute (font_tfm cmmi10 any)) slant_per_pt = Q2Qc (5 # 2).
Proof. intros any. rewrite absolute_field. apply Qc_is_canon. reflexivity. Qed.

(** C79: the space factor codes are those of plain TeX except for capital
    letters and for ) ' ]. *)
Theorem C79_sfcode_partial :
  forall (french : bool) (c : Z), (0 <= c < 128)%Z ->
    ~ In c [41; 39; 93]%Z -> ~ (65 <= c <= 90)%Z -> sfcode french c = plain_sfcode french c.
Proof. exact sfcode_sweep. Qed.
(** For those it is wrong: [Dr.] is followed by the space after a sentence even
    if the period comes after a capital, and a closing parenthesis ends the sentence. *)
Theorem C79_refuted :
  forall (french : bool) (c : Z), In c [41; 39; 93]%Z \/ (65 <= c <= 90)%Z -> sfcode french c <> plain_sfcode french c.
Proof.
  intros french c H.
  assert (sfcode french c = 1000)%Z as ->.
  { unfold sfcode. destruct french; [reflexivity|].
    destruct H as [H|H].
    - simpl in H. repeat (destruct H as [<-|H]; [reflexivity|]). contradiction.
    - assert (c <> 46 /\ c <> 63 /\ c <> 33 /\ c <> 58 /\ c <> 59 /\ c <> 44)%Z as (? & ? & ? & ? & ? & ?)
        by (repeat split; intros ->; destruct H as [H H']; exact (H eq_refl) || exact (H' eq_refl)).
      repeat rewrite (proj2 (Z.eqb_neq _ _)) by assumption. reflexivity. }
  unfold plain_sfcode. destruct H as [H|[H H']].
  - simpl in H. repeat (destruct H as [<-|H]; [discriminate|]). contradiction.
  - destruct (existsb _ _); [discriminate|].
    rewrite (proj2 (Z.leb_le _ _) H), (proj2 (Z.leb_le _ _) H'). discriminate.
Qed.
Example sfcode_ex : map (sfcode false) [46; 58; 97; 65; 41]%Z = [3000; 2000; 1000; 1000; 1000]%Z /\
  map (plain_sfcode false) [46; 58; 97; 65; 41]%Z = [3000; 2000; 1000; 999; 0]%Z.
Proof. split; reflexivity. Qed.

(** C80: the parameters have the numbers of the TeXbook. *)
Theorem C80_numbers :
  (forall i, (5 <= i <= 22)%nat -> i <> 7%nat -> sigma i = nth_error symbol_params (i - 1)) /\
  (forall i, (8 <= i <= 13)%nat -> xi i = nth_error extension_params (i - 1)).
Proof. exact (conj sigma_numbers xi_numbers). Qed.

(** C92: the built-in fonts have the parameters of Computer Modern. *)
Theorem C92_parameters :
  forall (any : fontdimen QcNum) (n : fontname) (k : fd),
    t_dimen (font_tfm n any) k = Q2Qc (computer_modern n k # 1000000).
Proof. exact parameters. Qed.
Theorem C92_parameters_float :
  forall (any : fontdimen F32) (n : fontname) (k : fd),
    neqb (t_dimen (font_tfm n any) k) (nlit (computer_modern n k # 1000000)) = true.
Proof. exact parameters_float. Qed.
Example parameters_ex : computer_modern cmsy7 delim2 = 1157144%Z /\ computer_modern cmmi7 delim2 = 0%Z /\
  computer_modern cmsy7 quad = computer_modern cmmi7 quad.
Proof. repeat split. Qed.

(** the parameters of cmsy10 at 10pt *)
Example cmsy10_ex : forall any : fontdimen QcNum,
  t_dimen (to_absolute (font_tfm cmsy10 any)) axis_height = Q2Qc (5 # 2) /\
  t_dimen (to_absolute (font_tfm cmsy10 any)) sup1 = Q2Qc (412892 # 100000) /\
  t_dimen (to_absolute (font_tfm cmsy10 any)) big_op_spacing1 = Q2Qc 0 /\
  sigma 13 = Some sup1.
Proof. intros any. rewrite !absolute_field. repeat split; apply Qc_is_canon; reflexivity. Qed.

Print Assumptions C56_fields.
Print Assumptions C56_roundtrip.
Print Assumptions C56_float_refuted.
Print Assumptions C56_design_partial.
Print Assumptions C56_design_refuted.
Print Assumptions C56_initialised.
Print Assumptions C76_stretched.
Print Assumptions C77_new_partial.
Print Assumptions C77_family_refuted.
Print Assumptions C77_reset_refuted.
Print Assumptions C78_lengths_partial.
Print Assumptions C78_refuted.
Print Assumptions C79_sfcode_partial.
Print Assumptions C79_refuted.
Print Assumptions C80_numbers.
Print Assumptions C92_parameters.
Print Assumptions C92_parameters_float.
