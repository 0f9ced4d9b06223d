From Coq Require Import List ZArith Bool Lia.
From Verif.Base Require Import Result.
From Verif.Model Require Import Unicode.
From Verif.Spec Require Import UnicodeSpec.
Import ListNotations.
Local Open Scope Z_scope.

Local Arguments Z.add : simpl never.
Local Arguments Z.mul : simpl never.
Local Arguments Z.sub : simpl never.

Ltac zify_euclid := Z.to_euclidean_division_equations; lia.

Lemma sweep (f : Z -> bool) (n : nat) :
  forallb f (map Z.of_nat (seq 0 n)) = true -> forall z, 0 <= z < Z.of_nat n -> f z = true.
Proof.
  intros H z Hz. rewrite forallb_forall in H. apply H. apply in_map_iff.
  exists (Z.to_nat z). split; [lia|]. apply in_seq. lia.
Qed.

Lemma shifted_eq b n k : 0 <= n -> shifted b n = k <-> b / 2 ^ n = k.
Proof. intros Hn. unfold shifted. rewrite Z.shiftr_div_pow2 by lia. tauto. Qed.

Lemma sh7 b : 0 <= b -> (shifted b 7 =? 0) = (b <? 128).
Proof.
  intros H. unfold shifted. rewrite Z.shiftr_div_pow2 by lia. change (2 ^ 7) with 128.
  apply Bool.eq_iff_eq_true. rewrite Z.eqb_eq, Z.ltb_lt. zify_euclid.
Qed.
Lemma shk b n m : 0 <= n -> (shifted b n =? m) = ((m * 2 ^ n <=? b) && (b <? (m + 1) * 2 ^ n)).
Proof.
  intros Hn. unfold shifted. rewrite Z.shiftr_div_pow2 by lia.
  apply Bool.eq_iff_eq_true. rewrite Z.eqb_eq, andb_true_iff, Z.leb_le, Z.ltb_lt.
  pose proof (Z.pow_pos_nonneg 2 n ltac:(lia) Hn) as Hp.
  split.
  - intros <-. pose proof (Z.mul_div_le b (2 ^ n) Hp). pose proof (Z.mul_succ_div_gt b (2 ^ n) Hp). lia.
  - intros [H1 H2]. symmetry. apply Z.div_unique with (r := b - m * 2 ^ n); lia.
Qed.

Ltac sh := rewrite ?(shk _ 7 0), ?(shk _ 5 6), ?(shk _ 4 14), ?(shk _ 3 30), ?(shk _ 6 2) by lia;
           change (2 ^ 7) with 128; change (2 ^ 5) with 32; change (2 ^ 4) with 16;
           change (2 ^ 3) with 8; change (2 ^ 6) with 64.
Ltac shin H := rewrite ?(shk _ 7 0), ?(shk _ 5 6), ?(shk _ 4 14), ?(shk _ 3 30), ?(shk _ 6 2) in H by lia;
           change (2 ^ 7) with 128 in H; change (2 ^ 5) with 32 in H; change (2 ^ 4) with 16 in H;
           change (2 ^ 3) with 8 in H; change (2 ^ 6) with 64 in H.

Ltac bdec := repeat match goal with
  | |- context [if ?b then _ else _] => let E := fresh "E" in destruct b eqn:E
  | H : context [if ?b then _ else _] |- _ => let E := fresh "E" in destruct b eqn:E
  end.
Ltac bprop := repeat match goal with
  | H : _ && _ = true |- _ => apply andb_true_iff in H; destruct H
  | H : _ && _ = false |- _ => clear H
  | H : (_ <=? _) = true |- _ => apply Z.leb_le in H
  | H : (_ <? _) = true |- _ => apply Z.ltb_lt in H
  | H : (_ =? _) = true |- _ => apply Z.eqb_eq in H
  | H : (_ <=? _) = false |- _ => apply Z.leb_gt in H
  | H : (_ <? _) = false |- _ => apply Z.ltb_ge in H
  | H : (_ =? _) = false |- _ => apply Z.eqb_neq in H
  end.

(** * Validator *)
Lemma validate_shape s r :
  bytes s -> validate_char s = Ok (Some r) -> exists p c, s = p ++ r /\ utf8_shape p c.
Proof.
  intros Hb H. destruct s as [|b0 s]; [discriminate|]. simpl in H.
  inversion Hb as [|? ? H0 Hb']; subst. shin H.
  destruct ((0 * 128 <=? b0) && (b0 <? (0 + 1) * 128)) eqn:E7.
  { inversion H; subst. exists [b0], b0. split; [reflexivity|]. bprop. constructor. lia. }
  destruct ((6 * 32 <=? b0) && (b0 <? (6 + 1) * 32)) eqn:E5.
  { destruct s as [|b1 s]; [discriminate|]. inversion Hb' as [|? ? H1 ?]; subst.
    shin H. destruct ((2 * 64 <=? b1) && (b1 <? (2 + 1) * 64)) eqn:E1; [|discriminate].
    inversion H; subst. exists [b0; b1], (64 * (b0 - 192) + (b1 - 128)). split; [reflexivity|]. bprop.
    replace [b0; b1] with [192 + (b0 - 192); 128 + (b1 - 128)] by (repeat f_equal; lia).
    constructor; lia. }
  destruct ((14 * 16 <=? b0) && (b0 <? (14 + 1) * 16)) eqn:E4.
  { destruct s as [|b1 [|b2 s]]; try discriminate.
    inversion Hb' as [|? ? H1 Hb2]; subst. inversion Hb2 as [|? ? H2 ?]; subst.
    shin H.
    destruct (((2 * 64 <=? b1) && (b1 <? (2 + 1) * 64)) && ((2 * 64 <=? b2) && (b2 <? (2 + 1) * 64))) eqn:E1; [|discriminate].
    inversion H; subst. exists [b0; b1; b2], (4096 * (b0 - 224) + 64 * (b1 - 128) + (b2 - 128)).
    split; [reflexivity|]. bprop.
    replace [b0; b1; b2] with [224 + (b0 - 224); 128 + (b1 - 128); 128 + (b2 - 128)] by (repeat f_equal; lia).
    constructor; lia. }
  destruct ((30 * 8 <=? b0) && (b0 <? (30 + 1) * 8)) eqn:E3; [|discriminate].
  destruct s as [|b1 [|b2 [|b3 s]]]; try discriminate.
  inversion Hb' as [|? ? H1 Hb2]; subst. inversion Hb2 as [|? ? H2 Hb3]; subst. inversion Hb3 as [|? ? H3 ?]; subst.
  shin H.
  match type of H with context [if ?b then _ else _] => destruct b eqn:E1; [|discriminate] end.
  inversion H; subst.
  exists [b0; b1; b2; b3], (262144 * (b0 - 240) + 4096 * (b1 - 128) + 64 * (b2 - 128) + (b3 - 128)).
  split; [reflexivity|]. bprop.
  replace [b0; b1; b2; b3] with [240 + (b0 - 240); 128 + (b1 - 128); 128 + (b2 - 128); 128 + (b3 - 128)]
    by (repeat f_equal; lia).
  constructor; lia.
Qed.

Lemma eqb_decide (P : Prop) (b : bool) : (b = true <-> P) -> P -> b = true.
Proof. tauto. Qed.

Ltac boolgoal := repeat (rewrite ?andb_true_iff, ?Z.leb_le, ?Z.ltb_lt; try split); lia.

Ltac iftrue := match goal with |- context [if ?b then _ else _] =>
  replace b with true by (symmetry; boolgoal) end.
Ltac iffalse := match goal with |- context [if ?b then _ else _] =>
  replace b with false by (symmetry; apply not_true_iff_false; rewrite ?andb_true_iff, ?Z.leb_le, ?Z.ltb_lt; lia) end.

Lemma shape_validate p c r : utf8_shape p c -> validate_char (p ++ r) = Ok (Some r).
Proof.
  intros H; destruct H; simpl; sh; repeat first [iftrue|iffalse]; reflexivity.
Qed.

Lemma validate_never_ub s : s <> [] -> exists o, validate_char s = Ok o.
Proof.
  destruct s as [|b0 s]; [congruence|]. intros _. simpl.
  destruct (shifted b0 7 =? 0); [eauto|]. destruct (shifted b0 5 =? 6).
  { destruct s; eauto. }
  destruct (shifted b0 4 =? 14). { destruct s as [|? [|? ?]]; eauto. }
  destruct (shifted b0 3 =? 30). { destruct s as [|? [|? [|? ?]]]; eauto. }
  eauto.
Qed.

Lemma validate_consumes s r : validate_char s = Ok (Some r) -> (length r < length s)%nat.
Proof.
  destruct s as [|b0 s]; [discriminate|]. simpl.
  destruct (shifted b0 7 =? 0). { intros H; inversion H; subst; lia. }
  destruct (shifted b0 5 =? 6).
  { destruct s; try discriminate. destruct (_ =? _); try discriminate. intros H; inversion H; subst; simpl; lia. }
  destruct (shifted b0 4 =? 14).
  { destruct s as [|? [|? ?]]; try discriminate. destruct (_ && _); try discriminate. intros H; inversion H; subst; simpl; lia. }
  destruct (shifted b0 3 =? 30).
  { destruct s as [|? [|? [|? ?]]]; try discriminate. destruct (_ && _); try discriminate. intros H; inversion H; subst; simpl; lia. }
  discriminate.
Qed.

Lemma is_utf8_char_shape s : bytes s ->
  is_utf8_char s = Ok true <-> exists c, utf8_shape s c.
Proof.
  intros Hb. unfold is_utf8_char. split.
  - intros H. apply bind_Ok in H. destruct H as (o & Ho & Hr).
    destruct o as [[|]|]; try discriminate.
    destruct (validate_shape s [] Hb Ho) as (p & c & E & Hs). rewrite app_nil_r in E; subst. eauto.
  - intros (c & Hs). pose proof (shape_validate s c [] Hs) as H. rewrite app_nil_r in H. rewrite H. reflexivity.
Qed.

(** Every shape is: a code point encoding, or overlong. *)
Lemma shape_cases s c : utf8_shape s c -> utf8 c s \/ overlong s c.
Proof.
  intros H; destruct H as [c Hc|a b Ha Hb|a b c Ha Hb Hc|a b c d Ha Hb Hc Hd].
  - left. constructor; lia.
  - destruct (Z_lt_le_dec a 2).
    + right. exists [64 * a + b]. split; [constructor; lia|simpl; lia].
    + left. constructor; lia.
  - destruct (Z_lt_le_dec (4096 * a + 64 * b + c) 2048).
    + right. assert (a = 0) by lia. subst.
      destruct (Z_lt_le_dec (4096 * 0 + 64 * b + c) 128).
      * eexists [_]. split; [constructor; lia|simpl; lia].
      * exists [192 + b; 128 + c]. split; [|simpl; lia].
        replace (4096 * 0 + 64 * b + c) with (64 * b + c) by lia. constructor; lia.
    + left. constructor; lia.
  - destruct (Z_lt_le_dec (262144 * a + 4096 * b + 64 * c + d) 65536).
    + right. assert (a = 0) by lia. subst. assert (b < 16) by lia.
      destruct (Z_lt_le_dec (4096 * b + 64 * c + d) 2048).
      * assert (b = 0) by lia. subst.
        destruct (Z_lt_le_dec (64 * c + d) 128).
        -- eexists [_]. split; [constructor; lia|simpl; lia].
        -- exists [192 + c; 128 + d]. split; [|simpl; lia].
           replace (262144 * 0 + 4096 * 0 + 64 * c + d) with (64 * c + d) by lia. constructor; lia.
      * exists [224 + b; 128 + c; 128 + d]. split; [|simpl; lia].
        replace (262144 * 0 + 4096 * b + 64 * c + d) with (4096 * b + 64 * c + d) by lia. constructor; lia.
    + left. constructor; lia.
Qed.

Lemma utf8_is_shape c s : utf8 c s -> utf8_shape s c.
Proof. intros H; destruct H; constructor; lia. Qed.

Lemma utf8_bytes c s : utf8 c s -> bytes s.
Proof. intros H; destruct H; repeat constructor; lia. Qed.

Lemma utf8_range c s : utf8 c s -> 0 <= c < 2097152.
Proof. intros H; destruct H; lia. Qed.

Lemma validator_characterised s : bytes s ->
  (is_utf8_char s = Ok true <->
   exists c, utf8_shape s c /\
     ((scalar_value c /\ utf8 c s) \/ overlong s c \/ (surrogate c /\ utf8 c s) \/ (1114111 < c /\ utf8 c s))).
Proof.
  intros Hb. rewrite is_utf8_char_shape by exact Hb. split.
  - intros (c & Hs). exists c. split; [exact Hs|].
    destruct (shape_cases s c Hs) as [Hu|Ho]; [|auto].
    pose proof (utf8_range _ _ Hu).
    destruct (Z_lt_le_dec 1114111 c); [tauto|].
    destruct (Z_lt_le_dec c 55296).
    { left. split; [|exact Hu]. split; [lia|]. intros [? ?]; lia. }
    destruct (Z_lt_le_dec c 57344).
    { right; right; left. split; [|exact Hu]. split; lia. }
    left. split; [|exact Hu]. split; [lia|]. intros [? ?]; lia.
  - intros (c & Hs & _). eauto.
Qed.

Lemma validator_complete c s : utf8 c s -> is_utf8_char s = Ok true.
Proof.
  intros H. apply is_utf8_char_shape; [eapply utf8_bytes; eauto|]. exists c. apply utf8_is_shape. exact H.
Qed.

(** * Whole strings *)
Lemma is_utf8_string_loop_spec fuel : forall s, (length s <= fuel)%nat -> bytes s ->
  exists b, is_utf8_string_loop fuel s = Ok b /\
    (b = true <-> exists ps, s = concat ps /\ Forall (fun p => exists c, utf8_shape p c) ps).
Proof.
  induction fuel as [|n IH]; intros s Hl Hb.
  - destruct s; [|simpl in Hl; lia]. exists true. split; [reflexivity|]. split; [|reflexivity].
    intros _. exists []. split; [reflexivity|constructor].
  - destruct s as [|b0 s0] eqn:Es.
    { exists true. split; [reflexivity|]. split; [|reflexivity]. intros _. exists []. split; [reflexivity|constructor]. }
    rewrite <- Es in *. assert (Hne : s <> []) by (rewrite Es; discriminate).
    destruct (validate_never_ub s Hne) as (o & Ho).
    replace (is_utf8_string_loop (S n) s) with
      (do o <- validate_char s ; match o with Some r => is_utf8_string_loop n r | None => Ok false end)
      by (rewrite Es; reflexivity).
    rewrite Ho. simpl. destruct o as [r|].
    + pose proof (validate_consumes _ _ Ho). destruct (validate_shape s r Hb Ho) as (p & c & E & Hs).
      assert (Hbr : bytes r). { rewrite E in Hb. apply Forall_app in Hb. tauto. }
      destruct (IH r ltac:(lia) Hbr) as (b & Eb & Hib). exists b. split; [exact Eb|].
      rewrite Hib. split.
      * intros (ps & -> & Hp). exists (p :: ps). split; [exact E|]. constructor; eauto.
      * intros (ps & E2 & Hp). destruct ps as [|p' ps]; [rewrite Es in E2; discriminate|].
        inversion Hp as [|? ? (c' & Hc') Hps]; subst. simpl in E2.
        pose proof (shape_validate p' c' (concat ps) Hc') as Hv. rewrite <- E2 in Hv.
        rewrite Ho in Hv. inversion Hv; subst. eauto.
    + exists false. split; [reflexivity|]. split; [discriminate|].
      intros (ps & E2 & Hp). exfalso. destruct ps as [|p' ps]; [rewrite Es in E2; discriminate|].
      inversion Hp as [|? ? (c' & Hc') Hps]; subst. simpl in E2.
      pose proof (shape_validate p' c' (concat ps) Hc') as Hv. rewrite <- E2 in Hv. congruence.
Qed.

Lemma is_utf8_string_spec s : bytes s ->
  exists b, is_utf8_string s = Ok b /\
    (b = true <-> exists ps, s = concat ps /\ Forall (fun p => is_utf8_char p = Ok true) ps).
Proof.
  intros Hb. destruct (is_utf8_string_loop_spec (length s) s (le_n _) Hb) as (b & E & H).
  exists b. split; [exact E|]. rewrite H. split; intros (ps & Ec & Hp); exists ps; (split; [exact Ec|]).
  - rewrite Forall_forall in *. intros p Hin. destruct (Hp p Hin) as (c & Hc).
    pose proof (shape_validate p c [] Hc) as Hv. rewrite app_nil_r in Hv. unfold is_utf8_char. rewrite Hv. reflexivity.
  - assert (Hbs : Forall bytes ps).
    { clear -Hb Ec. subst s. induction ps; constructor; simpl in Hb; apply Forall_app in Hb; tauto. }
    rewrite Forall_forall in *. intros p Hin. apply is_utf8_char_shape; auto.
Qed.

(** * Bit operations *)
Lemma land_63 x : Z.land x 63 = x mod 64.
Proof. change 63 with (Z.ones 6). rewrite Z.land_ones by lia. reflexivity. Qed.
Lemma land_31 x : Z.land x 31 = x mod 32.
Proof. change 31 with (Z.ones 5). rewrite Z.land_ones by lia. reflexivity. Qed.
Lemma land_15 x : Z.land x 15 = x mod 16.
Proof. change 15 with (Z.ones 4). rewrite Z.land_ones by lia. reflexivity. Qed.
Lemma land_7 x : Z.land x 7 = x mod 8.
Proof. change 7 with (Z.ones 3). rewrite Z.land_ones by lia. reflexivity. Qed.

Lemma lor_shift x y : 0 <= y < 64 -> Z.lor (Z.shiftl x 6) y = 64 * x + y.
Proof.
  intros Hy. assert (Hd : Z.land (Z.shiftl x 6) y = 0).
  { apply Z.bits_inj'. intros n Hn. rewrite Z.land_spec, Z.bits_0.
    destruct (Z_lt_le_dec n 6).
    - rewrite Z.shiftl_spec_low by lia. reflexivity.
    - destruct (Z.eq_dec y 0) as [->|]; [rewrite Z.bits_0; apply andb_false_r|].
      rewrite (Z.bits_above_log2 y n); [apply andb_false_r|lia|].
      apply Z.log2_lt_pow2; [lia|]. apply Z.lt_le_trans with (2 ^ 6); [lia|].
      apply Z.pow_le_mono_r; lia. }
  rewrite <- Z.lxor_lor by exact Hd. rewrite <- Z.add_nocarry_lxor by exact Hd.
  rewrite Z.shiftl_mul_pow2 by lia. lia.
Qed.

(** * Decoder *)
Lemma cont_ok d sg ret b r : 0 <= b < 64 ->
  cont d sg ret (128 + b :: r) = Ok (64 * ret + b, r).
Proof.
  intros H. unfold cont, assert_. sh.
  replace ((2 * 64 <=? 128 + b) && (128 + b <? (2 + 1) * 64)) with true by (symmetry; boolgoal).
  cbn [negb]. rewrite andb_false_r. cbn [bind]. rewrite land_63, lor_shift by zify_euclid.
  do 3 f_equal. unfold char_value. destruct (sg && _); zify_euclid.
Qed.

Lemma cont4_ok d sg ret b r : (d = false \/ sg = false) -> 0 <= b < 64 ->
  cont4 d sg ret (128 + b :: r) = Ok (64 * ret + b, r).
Proof.
  intros Hds H. unfold cont4, assert_.
  assert (E : d && negb (Z.shiftr (char_value sg (128 + b)) 6 =? 2) = false).
  { destruct Hds as [->| ->]; [reflexivity|]. unfold char_value. simpl.
    change (Z.shiftr (128 + b) 6) with (shifted (128 + b) 6). sh.
    replace ((2 * 64 <=? 128 + b) && (128 + b <? (2 + 1) * 64)) with true by (symmetry; boolgoal).
    apply andb_false_r. }
  rewrite E. cbn [bind]. rewrite land_63, lor_shift by zify_euclid.
  do 3 f_equal. unfold char_value. destruct (sg && _); zify_euclid.
Qed.

Lemma char_low d b : 0 <= b < 128 -> char_value d b = b.
Proof. intros H. unfold char_value. destruct d; simpl; auto. destruct (Z.leb_spec 128 b); lia. Qed.

Lemma char_mod sg b m : 0 <= b < 256 -> (m = 8 \/ m = 16 \/ m = 32) -> char_value sg b mod m = b mod m.
Proof.
  intros H Hm. unfold char_value. destruct (_ && _); [|reflexivity].
  destruct Hm as [->|[->| ->]]; zify_euclid.
Qed.

Lemma decode_shape d sg p c r :
  (d = false \/ sg = false \/ (length p < 4)%nat) ->
  utf8_shape p c -> decode_char d sg (p ++ r) = Ok (c, r).
Proof.
  intros Hd H. destruct H as [c Hc|a b Ha Hb|a b c Ha Hb Hc|a b c e Ha Hb Hc He];
    unfold decode_char; cbn [app]; sh; repeat first [iftrue|iffalse].
  - rewrite char_low by lia. reflexivity.
  - rewrite cont_ok, land_31, char_mod by lia. do 2 f_equal. zify_euclid.
  - rewrite cont_ok, land_15, char_mod by lia. cbn [bind fst snd]. rewrite cont_ok by lia.
    do 2 f_equal. zify_euclid.
  - assert (Hds : d = false \/ sg = false) by (simpl in Hd; destruct Hd as [?|[?|?]]; auto; lia).
    rewrite cont4_ok, land_7, char_mod by (auto; lia). cbn [bind fst snd].
    rewrite cont4_ok by (auto; lia). cbn [bind fst snd]. rewrite cont4_ok by (auto; lia).
    do 2 f_equal. zify_euclid.
Qed.

Lemma decode_four_aborts a b c d r :
  0 <= a < 8 -> 0 <= b < 64 ->
  decode_char true true (240 + a :: 128 + b :: c :: d :: r) = Abort.
Proof.
  intros Ha Hb. unfold decode_char. sh. repeat first [iftrue|iffalse].
  unfold cont4 at 1, assert_.
  assert (E : (Z.shiftr (char_value true (128 + b)) 6 =? 2) = false).
  { unfold char_value. replace (128 <=? 128 + b) with true by (symmetry; apply Z.leb_le; lia). cbn [andb].
    apply Z.eqb_neq. rewrite Z.shiftr_div_pow2 by lia. change (2 ^ 6) with 64. zify_euclid. }
  rewrite E. reflexivity.
Qed.

Lemma decode_progress sg s c r : decode_char false sg s = Ok (c, r) ->
  (length r < length s)%nat \/ (r = s /\ c = 0).
Proof.
  destruct s as [|b0 s]; [discriminate|]. unfold decode_char.
  destruct (shifted b0 7 =? 0). { intros H; inversion H; subst; simpl; lia. }
  destruct (shifted b0 5 =? 6).
  { destruct s; [discriminate|]. simpl. intros H; inversion H; subst; simpl; lia. }
  destruct (shifted b0 4 =? 14).
  { destruct s as [|? [|? ?]]; try discriminate. simpl. intros H; inversion H; subst; simpl; lia. }
  destruct (shifted b0 3 =? 30).
  { destruct s as [|? [|? [|? ?]]]; try discriminate. simpl. intros H; inversion H; subst; simpl; lia. }
  simpl. intros H; inversion H; subst. right; auto.
Qed.

Lemma utf8_nonempty c s : utf8 c s -> s <> [].
Proof. intros H; destruct H; discriminate. Qed.

Lemma decode_all_utf8 d sg cs : forall ss fuel,
  (d = false \/ sg = false \/ Forall (fun c => c < 65536) cs) ->
  Forall2 utf8 cs ss -> (length (concat ss) <= fuel)%nat ->
  decode_all d sg fuel (concat ss) = Ok cs.
Proof.
  induction cs as [|c cs IH]; intros ss fuel Hd H Hf; inversion H; subst.
  - destruct fuel; reflexivity.
  - simpl in *. assert (Hl : (d = false \/ sg = false \/ (length y < 4)%nat)).
    { destruct Hd as [?|[?|Hd]]; auto. right; right. inversion Hd; subst.
      destruct H2; simpl; lia. }
    destruct fuel as [|n].
    + exfalso. apply (utf8_nonempty _ _ H2). rewrite app_length in Hf. destruct y; [reflexivity|simpl in Hf; lia].
    + pose proof (decode_shape d sg y c (concat l') Hl (utf8_is_shape _ _ H2)) as Hdec.
      pose proof (utf8_nonempty _ _ H2) as Hne.
      destruct y as [|y0 y]; [congruence|]. cbn [app] in *. cbn [decode_all]. rewrite Hdec. cbn [bind fst snd].
      rewrite (IH l' n); [reflexivity| |assumption|].
      * destruct Hd as [?|[?|Hd]]; auto. right; right. inversion Hd; assumption.
      * simpl in Hf. rewrite app_length in Hf. lia.
Qed.

(** * Encoder *)
Lemma lor_sweep k n : forallb (fun y => Z.lor k y =? k + y) (map Z.of_nat (seq 0 n)) = true ->
  forall y, 0 <= y < Z.of_nat n -> Z.lor k y = k + y.
Proof. intros H y Hy. apply Z.eqb_eq. exact (sweep _ n H y Hy). Qed.

Lemma lor_192 y : 0 <= y < 32 -> Z.lor 192 y = 192 + y.
Proof. apply (lor_sweep 192 32). vm_compute. reflexivity. Qed.
Lemma lor_128 y : 0 <= y < 64 -> Z.lor 128 y = 128 + y.
Proof. apply (lor_sweep 128 64). vm_compute. reflexivity. Qed.
Lemma lor_224 y : 0 <= y < 16 -> Z.lor 224 y = 224 + y.
Proof. apply (lor_sweep 224 16). vm_compute. reflexivity. Qed.
Lemma lor_240 y : 0 <= y < 8 -> Z.lor 240 y = 240 + y.
Proof. apply (lor_sweep 240 8). vm_compute. reflexivity. Qed.

Lemma encode_lemma c : 0 <= c <= 2097151 ->
  exists s, utf8 c s /\
    utf8_size (utf8_chars c) = Z.of_nat (length s) /\
    firstn (length s) (utf8_chars c) = s /\
    nth (length s) (utf8_chars c) 1 = 0 /\
    utf8_chars c = s ++ repeat 0 (4 - length s) ++ [4 - Z.of_nat (length s)] /\
    (0 < c -> cstring (utf8_chars c) = s).
Proof.
  intros Hc. unfold utf8_chars, to_byte.
  change (Z.shiftl 3 6) with 192. change (Z.shiftl 1 7) with 128.
  change (Z.shiftl 7 5) with 224. change (Z.shiftl 15 4) with 240.
  rewrite !Z.shiftr_div_pow2 by lia. rewrite !land_63.
  change (2 ^ 6) with 64. change (2 ^ 12) with 4096. change (2 ^ 18) with 262144.
  destruct (Z.leb_spec c 127).
  { rewrite Z.mod_small by lia. exists [c]. repeat split.
    - constructor; lia.
    - intros ?. simpl. destruct (Z.eqb_spec c 0); [lia|reflexivity]. }
  destruct (Z.leb_spec c 2047).
  { rewrite lor_192, lor_128 by zify_euclid. rewrite !Z.mod_small by zify_euclid.
    exists [192 + c / 64; 128 + c mod 64]. split.
    - replace c with (64 * (c / 64) + c mod 64) at 1 by zify_euclid. constructor; zify_euclid.
    - repeat split.
      intros _. simpl. repeat (match goal with |- context [?x =? 0] => destruct (Z.eqb_spec x 0); [zify_euclid|] end). reflexivity. }
  destruct (Z.leb_spec c 65535).
  { rewrite lor_224, !lor_128 by zify_euclid. rewrite (Z.mod_small (c / 4096)) by zify_euclid.
    rewrite !(Z.mod_small (_ + _)) by zify_euclid.
    exists [224 + c / 4096; 128 + (c / 64) mod 64; 128 + c mod 64]. split.
    - replace c with (4096 * (c / 4096) + 64 * ((c / 64) mod 64) + c mod 64) at 1 by zify_euclid.
      constructor; zify_euclid.
    - repeat split.
      intros _. simpl. repeat (match goal with |- context [?x =? 0] => destruct (Z.eqb_spec x 0); [zify_euclid|] end). reflexivity. }
  rewrite lor_240, !lor_128 by zify_euclid. rewrite (Z.mod_small (c / 262144)) by zify_euclid.
  rewrite !(Z.mod_small (_ + _)) by zify_euclid.
  exists [240 + c / 262144; 128 + (c / 4096) mod 64; 128 + (c / 64) mod 64; 128 + c mod 64]. split.
  - replace c with (262144 * (c / 262144) + 4096 * ((c / 4096) mod 64) + 64 * ((c / 64) mod 64) + c mod 64) at 1 by zify_euclid.
    constructor; zify_euclid.
  - repeat split.
    intros _. simpl. repeat (match goal with |- context [?x =? 0] => destruct (Z.eqb_spec x 0); [zify_euclid|] end). reflexivity.
Qed.

Lemma utf8_det c s s' : utf8 c s -> utf8 c s' -> s = s'.
Proof.
  intros H1 H2. inversion H1; inversion H2; subst; try lia; try reflexivity;
    repeat f_equal; lia.
Qed.

Lemma utf8_short c s : utf8 c s -> c < 65536 -> (length s < 4)%nat.
Proof. intros H; destruct H; simpl; lia. Qed.

Lemma decode_four_aborts_utf8 c s r :
  utf8 c s -> 65536 <= c -> decode_char true true (s ++ r) = Abort.
Proof.
  intros H; destruct H; intros Hc; try lia. apply decode_four_aborts; lia.
Qed.

Lemma validator_refuted_lemma :
  is_utf8_char [192; 128] = Ok true /\ is_utf8_char [237; 160; 128] = Ok true /\
  is_utf8_char [247; 191; 191; 191] = Ok true /\ is_utf8_char [] = UB /\
  (forall c, scalar_value c -> ~ utf8 c [192; 128]) /\
  (forall c, scalar_value c -> ~ utf8 c [237; 160; 128]) /\
  (forall c, scalar_value c -> ~ utf8 c [247; 191; 191; 191]).
Proof.
  repeat split; try (vm_compute; reflexivity).
  - intros c [_ _] H. inversion H; lia.
  - intros c [_ Hs] H. inversion H; subst. apply Hs. unfold surrogate. lia.
  - intros c [Hc _] H. inversion H; subst. lia.
Qed.

Lemma decode_all_stuck sg fuel r : decode_all false sg fuel (128 :: r) = Fuel.
Proof. induction fuel as [|n IH]; [reflexivity|]. cbn. cbn in IH. rewrite IH. reflexivity. Qed.
