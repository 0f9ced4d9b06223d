From Coq Require Import List Ascii String QArith Qcanon ZArith Bool Arith Lia Lqa.
From Verif.Base Require Import Result Num.
From Verif.Model Require Import Token Glue Dimen DimenParser.
From Verif.Spec Require Import DimenSpec.
Import ListNotations.
Local Open Scope char_scope.

(** * Characters *)
Lemma is_digit_iff c : is_digit c = true <-> digit c.
Proof.
  unfold is_digit, digit, code. rewrite andb_true_iff, !Nat.leb_le. tauto.
Qed.
Lemma is_digit_false c : is_digit c = false <-> ~ digit c.
Proof. rewrite <- not_true_iff_false, is_digit_iff. tauto. Qed.
Lemma is_lower_iff c : is_lowercase_letter c = true <-> lower c.
Proof.
  unfold is_lowercase_letter, lower, code. rewrite andb_true_iff, !Nat.leb_le. tauto.
Qed.
Lemma is_lower_false c : is_lowercase_letter c = false <-> ~ lower c.
Proof. rewrite <- not_true_iff_false, is_lower_iff. tauto. Qed.
Lemma ceq_iff a b : ceq a b = true <-> a = b.
Proof. apply Ascii.eqb_eq. Qed.
Lemma ceq_false a b : ceq a b = false <-> a <> b.
Proof. apply Ascii.eqb_neq. Qed.
Lemma ceq_refl a : ceq a a = true.
Proof. apply ceq_iff. reflexivity. Qed.
Lemma is_sep_iff c : is_sep c = true <-> sep c.
Proof. unfold is_sep, sep. rewrite orb_true_iff, !ceq_iff. tauto. Qed.
Lemma is_sep_false c : is_sep c = false <-> ~ sep c.
Proof. rewrite <- not_true_iff_false, is_sep_iff. tauto. Qed.

Lemma digit_not_lower c : digit c -> ~ lower c.
Proof. unfold digit, lower. lia. Qed.
Lemma digit_not_sep c : digit c -> ~ sep c.
Proof. unfold digit, sep, code. intros D [E|E]; subst; cbn in D; lia. Qed.
Lemma sep_not_digit c : sep c -> ~ digit c.
Proof. intros S D. exact (digit_not_sep _ D S). Qed.
Lemma sep_not_lower c : sep c -> ~ lower c.
Proof. unfold sep, lower, code. intros [E|E]; subst; cbn; lia. Qed.
Lemma sign_not_digit c : sign c -> ~ digit c.
Proof. unfold sign, digit, code. intros [E|E]; subst; cbn; lia. Qed.
Lemma sign_not_sep c : sign c -> ~ sep c.
Proof. unfold sign, sep. intros [E|E] [F|F]; subst; discriminate. Qed.
Lemma digit_dec c : {digit c} + {~ digit c}.
Proof. destruct (is_digit c) eqn:E; [left; apply is_digit_iff|right; apply is_digit_false]; exact E. Qed.
Lemma lower_dec c : {lower c} + {~ lower c}.
Proof. destruct (is_lowercase_letter c) eqn:E; [left; apply is_lower_iff|right; apply is_lower_false]; exact E. Qed.
Lemma sep_dec c : {sep c} + {~ sep c}.
Proof. destruct (is_sep c) eqn:E; [left; apply is_sep_iff|right; apply is_sep_false]; exact E. Qed.
Lemma sign_dec c : {sign c} + {~ sign c}.
Proof.
  unfold sign. destruct (ascii_dec c "+"); [left; auto|].
  destruct (ascii_dec c "-"); [left; auto|right; tauto].
Qed.

(** * Unit keywords *)
Definition no_nul (s : name) : Prop := Forall (fun c => c <> NUL) s.

Lemma lower_no_nul s : Forall lower s -> no_nul s.
Proof.
  unfold no_nul. apply Forall_impl. intros c L E. subst. unfold lower, code in L. cbn in L. lia.
Qed.

Lemma comp_iff a b : no_nul a -> no_nul b -> comp a b = true <-> a = b.
Proof.
  unfold no_nul. revert b; induction a as [|x a IH]; intros [|y b] Ha Hb.
  - cbn. tauto.
  - apply Forall_inv in Hb. cbn [comp]. rewrite ceq_iff. split; [congruence|discriminate].
  - apply Forall_inv in Ha. cbn [comp]. rewrite ceq_iff. split; [congruence|discriminate].
  - pose proof (Forall_inv Ha) as Hx. pose proof (Forall_inv Hb) as Hy.
    apply Forall_inv_tail in Ha, Hb. cbn [comp].
    apply ceq_false in Hx, Hy. rewrite Hx, Hy. cbn [negb andb]. rewrite !andb_true_r.
    destruct (ceq x y) eqn:E.
    + apply ceq_iff in E. subst y. rewrite IH by assumption. split; congruence.
    + apply ceq_false in E. split; congruence.
Qed.

Definition phy_kw (u : phyunit) : name :=
  match u with
  | Point => str "pt" | Pica => str "pc" | Inch => str "in" | BigPoint => str "bp"
  | Centimeter => str "cm" | Millimeter => str "mm" | DidotPoint => str "dd" | Cicero => str "cc"
  end.
Definition unit_kw (u : unit_t) : name :=
  match u with
  | UPt => str "pt" | UEm => str "em" | UEx => str "ex" | UFil => str "fil"
  | UFill => str "fill" | UFilll => str "filll"
  end.

Lemma str2phyunit_iff s u : no_nul s -> str2phyunit s = Some u <-> s = phy_kw u.
Proof.
  intros Hs. split.
  - unfold str2phyunit; cbv zeta beta. destruct s as [|a [|b [|c s]]].
    + cbn. discriminate.
    + unfold cat_at; cbn [nth]. rewrite (ceq_refl NUL), orb_true_r. cbn. discriminate.
    + unfold cat_at; cbn [nth]. rewrite (ceq_refl NUL). cbn [negb]. rewrite orb_false_r.
      destruct (ceq a NUL || ceq b NUL); [discriminate|].
      repeat match goal with
      | |- context [ceq a ?x && ceq b ?y] =>
          let E := fresh "E" in let E1 := fresh "E" in let E2 := fresh "E" in
          destruct (ceq a x && ceq b y) eqn:E;
          [apply andb_true_iff in E; destruct E as [E1 E2]; apply ceq_iff in E1, E2;
           subst; intros H; injection H as <-; reflexivity|]
      end.
      discriminate.
    + unfold cat_at; cbn [nth]. inversion_clear Hs as [|? ? Ha Hs1]. inversion_clear Hs1 as [|? ? Hb Hs2].
      inversion_clear Hs2 as [|? ? Hc Hs3]. apply ceq_false in Hc. rewrite Hc. cbn [negb].
      rewrite orb_true_r. discriminate.
  - intros ->. destruct u; reflexivity.
Qed.

Lemma str2unit_iff s u : no_nul s -> str2unit s = Some u <-> s = unit_kw u.
Proof.
  intros Hs. split.
  - unfold str2unit, unit_table. cbn [unit_lookup].
    repeat match goal with
    | |- context [comp s ?k] =>
        let E := fresh "E" in destruct (comp s k) eqn:E;
        [apply comp_iff in E;
         [subst; intros H; injection H as <-; reflexivity
         |exact Hs
         |repeat constructor; discriminate]|]
    end.
    discriminate.
  - intros ->. destruct u; reflexivity.
Qed.

Lemma keyword_lower kw u k : keyword kw u k -> Forall lower kw /\ kw <> [].
Proof.
  intros H. split.
  - destruct H; repeat constructor; unfold code; cbn; lia.
  - destruct H; discriminate.
Qed.

(** what the tests of [hasResult] accept *)
Lemma keyword_found s :
  no_nul s ->
  (str2phyunit s <> None \/ str2unit s <> None) <-> exists u k, keyword s u k.
Proof.
  intros Hs. split.
  - intros [H|H].
    + destruct (str2phyunit s) as [u|] eqn:E; [|congruence].
      apply str2phyunit_iff in E; [|exact Hs]. subst. destruct u; eexists _, _; constructor.
    + destruct (str2unit s) as [u|] eqn:E; [|congruence].
      apply str2unit_iff in E; [|exact Hs]. subst. destruct u; eexists _, _; constructor.
  - intros (u & k & H). destruct H; ((left; cbn; discriminate) || (right; cbn; discriminate)).
Qed.

(** * The scanner *)
Definition pS (n : bool) : dparser := mkDP ParseOptionalSign n [] false [].
Definition pF (n : bool) (f : name) (d : bool) : dparser := mkDP ParsingFactor n f d [].
Definition pU (n : bool) (f : name) (d : bool) (u : name) : dparser := mkDP ParsingUnit n f d u.
Definition pE (n : bool) (f : name) (d : bool) (u : name) : dparser := mkDP DFinished n f d u.

Lemma writes_signs s n : Forall sign s -> dp_writes (pS n) s = Ok (pS (xorb n (negative s))).
Proof.
  unfold dp_writes. revert n; induction s as [|c s IH]; intros n H; cbn [foldM negative].
  - rewrite xorb_false_r. reflexivity.
  - pose proof (Forall_inv H) as Hc. apply Forall_inv_tail in H. destruct Hc as [->| ->].
    + cbn. apply IH. exact H.
    + unfold dp_write at 1. cbn [pS dp_st ceq Ascii.eqb]. cbn. fold (pS (negb n)). rewrite IH by exact H.
      f_equal. f_equal. destruct n, (negative s); reflexivity.
Qed.

(** the characters the parser keeps *)
Definition keep (s : name) : name := filter is_digit s.

Lemma keep_digits s : Forall digit (keep s).
Proof.
  apply Forall_forall. intros c H. apply filter_In in H. apply is_digit_iff. tauto.
Qed.

Lemma writes_plain s n f d : plain s -> dp_writes (pF n f d) s = Ok (pF n (f ++ keep s) d).
Proof.
  unfold dp_writes. revert f; induction s as [|c s IH]; intros f H; cbn [foldM keep filter].
  - rewrite app_nil_r. reflexivity.
  - pose proof (Forall_inv H) as [Hl Hs]. apply Forall_inv_tail in H.
    apply is_lower_false in Hl. apply is_sep_false in Hs.
    unfold dp_write at 1. cbn [pF dp_st]. unfold dp_write_factor.
    destruct (is_digit c) eqn:E; cbn [bind dp_neg dp_factor dp_decimal dp_unit pF pU].
    + fold (pF n (f ++ [c]) d). rewrite IH by exact H. fold (keep s). rewrite <- app_assoc. reflexivity.
    + rewrite Hs, Hl. cbn [bind pF dp_neg dp_factor dp_decimal dp_unit]. fold (pF n f d). rewrite IH by exact H. reflexivity.
Qed.

Lemma writes_sep c n f : sep c -> dp_write (pF n f false) c = Ok (pF n (f ++ ["."]) true).
Proof.
  intros H. pose proof (sep_not_digit _ H) as Hd. apply is_digit_false in Hd. apply is_sep_iff in H.
  unfold dp_write; cbn [pF dp_st]. unfold dp_write_factor. rewrite Hd, H. reflexivity.
Qed.
Lemma writes_sep2 c n f : sep c -> dp_write (pF n f true) c = Throw.
Proof.
  intros H. pose proof (sep_not_digit _ H) as Hd. apply is_digit_false in Hd. apply is_sep_iff in H.
  unfold dp_write; cbn [pF dp_st]. unfold dp_write_factor. rewrite Hd, H. reflexivity.
Qed.

Lemma writes_unit1 c n f d : lower c -> dp_write (pF n f d) c = Ok (pU n f d [c]).
Proof.
  intros H. assert (Hd : ~ digit c) by (intros D; exact (digit_not_lower _ D H)).
  assert (Hs : ~ sep c) by (intros D; exact (sep_not_lower _ D H)).
  apply is_digit_false in Hd. apply is_sep_false in Hs. apply is_lower_iff in H.
  unfold dp_write; cbn [pF dp_st]. unfold dp_write_factor. rewrite Hd, Hs, H. reflexivity.
Qed.
Lemma writes_units s n f d u : Forall lower s -> dp_writes (pU n f d u) s = Ok (pU n f d (u ++ s)).
Proof.
  unfold dp_writes. revert u; induction s as [|c s IH]; intros u H; cbn [foldM].
  - rewrite app_nil_r. reflexivity.
  - pose proof (Forall_inv H) as Hc. apply Forall_inv_tail in H. apply is_lower_iff in Hc.
    unfold dp_write at 1. cbn [pU dp_st]. rewrite Hc. cbn [bind dp_neg dp_factor dp_decimal dp_unit pF pU].
    fold (pU n f d (u ++ [c])). rewrite IH by exact H. rewrite <- app_assoc. reflexivity.
Qed.
Lemma writes_unit s n f d : Forall lower s -> s <> [] -> dp_writes (pF n f d) s = Ok (pU n f d s).
Proof.
  destruct s as [|c s]; [congruence|]. intros H _. pose proof (Forall_inv H) as Hc.
  apply Forall_inv_tail in H. unfold dp_writes; cbn [foldM]. rewrite writes_unit1 by exact Hc.
  cbn [bind]. apply (writes_units s n f d [c] H).
Qed.
Lemma writes_end s p : dp_st p = DFinished -> dp_writes p s = Ok p.
Proof.
  intros H. unfold dp_writes. induction s as [|c s IH]; [reflexivity|].
  cbn [foldM]. unfold dp_write. rewrite H. cbn [bind]. exact IH.
Qed.

(** The text handed to [stof] for a factor *)
Definition factor_stored (f : factor) : name :=
  match f_whole f with [] => ["0"] | _ => keep (f_whole f) end
  ++ match f_frac f with None => [] | Some (_, b) => "." :: keep b end.
Definition has_frac (f : factor) : bool := match f_frac f with None => false | Some _ => true end.

Lemma writes_factor f n : factor_ok f ->
  dp_writes (pS n) (factor_text f) = Ok (pF n (factor_stored f) (has_frac f)).
Proof.
  intros (Hw & Hf & Hs). unfold factor_text, factor_stored, has_frac in *.
  destruct f as [w fr]; cbn [f_whole f_frac] in *.
  destruct w as [|c w].
  - destruct fr as [[c b]|]; [|destruct Hs]. destruct Hf as [Hc Hb].
    cbn [app]. unfold dp_writes. cbn [foldM].
    assert (E : dp_write (pS n) c = Ok (pF n ["0"; "."] true)) by (destruct Hc as [->| ->]; reflexivity).
    rewrite E. cbn [bind]. change (foldM dp_write b (pF n ["0"; "."] true)) with (dp_writes (pF n ["0"; "."] true) b).
    rewrite writes_plain by exact Hb. reflexivity.
  - pose proof (Forall_inv Hw) as [Hl Hsep]. cbn [app] in Hs. destruct Hs as [Hd|Hs]; [|tauto].
    pose proof (Forall_inv_tail Hw) as Hw'.
    assert (E : dp_write (pS n) c = Ok (pF n [c] false)).
    { pose proof Hd as Hd2. apply is_digit_iff in Hd2. unfold dp_write; cbn [pS dp_st].
      destruct (ceq c "+") eqn:E1; [apply ceq_iff in E1; subst; discriminate|].
      destruct (ceq c "-") eqn:E2; [apply ceq_iff in E2; subst; discriminate|].
      rewrite Hd2. unfold dp_write_factor. rewrite Hd2. reflexivity. }
    unfold dp_writes. cbn [app foldM]. rewrite E. cbn [bind].
    assert (K : keep (c :: w) = c :: keep w).
    { cbn [keep filter]. apply is_digit_iff in Hd. rewrite Hd. reflexivity. }
    rewrite K. rewrite foldM_app.
    change (foldM dp_write w (pF n [c] false)) with (dp_writes (pF n [c] false) w).
    rewrite writes_plain by exact Hw'. cbn [bind app].
    destruct fr as [[x b]|].
    + destruct Hf as [Hx Hb]. cbn [foldM]. rewrite writes_sep by exact Hx. cbn [bind].
      change (foldM dp_write b ?p) with (dp_writes p b).
      rewrite writes_plain by exact Hb. rewrite <- app_assoc. reflexivity.
    + cbn [foldM]. rewrite app_nil_r. reflexivity.
Qed.

(** * Numbers *)
Lemma stof_int_spec s acc r : Forall digit s -> (forall c, hd_error r = Some c -> is_digit c = false) ->
  stof_int acc (s ++ r) = ((acc * 10 ^ Z.of_nat (List.length s) + whole (digits_in s))%Z, r).
Proof.
  revert acc; induction s as [|c s IH]; intros acc H Hr; cbn [app].
  - cbn [digits_in whole List.length]. rewrite Z.mul_1_r, Z.add_0_r.
    destruct r as [|x r]; [reflexivity|]. cbn [stof_int]. rewrite (Hr x eq_refl). reflexivity.
  - pose proof (Forall_inv H) as Hc. apply Forall_inv_tail in H. apply is_digit_iff in Hc.
    cbn [stof_int]. rewrite Hc. rewrite IH by assumption. f_equal.
    cbn [digits_in]. unfold is_digit in Hc. fold (code c) in Hc. rewrite Hc. cbn [whole].
    assert (L : List.length (digits_in s) = List.length s).
    { clear -H. induction s as [|x s IHs]; [reflexivity|]. pose proof (Forall_inv H) as Hx.
      apply Forall_inv_tail in H. apply is_digit_iff in Hx. unfold is_digit in Hx. fold (code x) in Hx.
      cbn [digits_in]. rewrite Hx. cbn [List.length]. rewrite IHs by exact H. reflexivity. }
    rewrite L. unfold digit_of, code. cbn [List.length]. rewrite Nat2Z.inj_succ, Z.pow_succ_r by lia. ring.
Qed.

Lemma stof_frac_spec s acc sc : Forall digit s ->
  (stof_frac acc sc s == acc + (inject_Z 10) * sc * fraction (digits_in s))%Q.
Proof.
  revert acc sc; induction s as [|c s IH]; intros acc sc H.
  - cbn. ring.
  - pose proof (Forall_inv H) as Hc. apply Forall_inv_tail in H. apply is_digit_iff in Hc.
    cbn [stof_frac]. rewrite Hc. rewrite IH by assumption.
    cbn [digits_in]. unfold is_digit in Hc. fold (code c) in Hc. rewrite Hc. cbn [fraction].
    unfold digit_of, code. change (inject_Z 10) with (10 # 1)%Q. field.
Qed.

Lemma digits_in_keep s : digits_in (keep s) = digits_in s.
Proof.
  induction s as [|c s IH]; [reflexivity|]. cbn [keep filter digits_in].
  destruct (is_digit c) eqn:E; unfold is_digit in E; fold (code c) in E.
  - cbn [digits_in]. rewrite E. fold (keep s). rewrite IH. reflexivity.
  - rewrite E. exact IH.
Qed.

Lemma stof_q_factor f : factor_ok f ->
  exists q, stof_q (factor_stored f) = Some q /\ (q == factor_value f)%Q.
Proof.
  intros (Hw & Hf & Hs). unfold factor_stored, factor_value, stof_q.
  destruct f as [w fr]; cbn [f_whole f_frac] in *.
  assert (W : exists a, match w with [] => ["0"] | _ => keep w end = a /\ Forall digit a
                        /\ has_digit a = true /\ whole (digits_in a) = whole (digits_in w)).
  { destruct w as [|c w].
    - exists ["0"]. repeat split. repeat constructor; cbn; lia.
    - exists (keep (c :: w)). repeat split.
      + apply keep_digits.
      + cbn [factor_text f_whole app starts_ok] in Hs. pose proof (Forall_inv Hw) as [_ Hsep].
        destruct Hs as [Hd|Hd]; [|tauto]. apply is_digit_iff in Hd. cbn [keep filter]. rewrite Hd.
        cbn [has_digit existsb]. rewrite Hd. reflexivity.
      + rewrite digits_in_keep. reflexivity. }
  destruct W as (a & -> & Ha & Hda & Hva).
  assert (Hh : has_digit (a ++ match fr with None => [] | Some (_, b) => "." :: keep b end) = true).
  { unfold has_digit in *. rewrite existsb_app, Hda. reflexivity. }
  rewrite Hh. destruct fr as [[x b]|].
  - rewrite stof_int_spec; [|exact Ha|intros c E; injection E as <-; reflexivity].
    cbn [ceq Ascii.eqb]. cbn [Bool.eqb]. eexists. split; [reflexivity|].
    rewrite stof_frac_spec by apply keep_digits. rewrite digits_in_keep, Hva. cbn [Z.mul].
    rewrite Z.add_0_l. change (inject_Z 10) with (10 # 1)%Q. field.
  - rewrite stof_int_spec; [|exact Ha|intros c E; discriminate].
    eexists. split; [reflexivity|]. rewrite Hva, Z.mul_0_l, Z.add_0_l. ring.
Qed.

(** * Reading a dimension *)
Section Dim.
  Context (in_range : Q -> bool).

  Lemma stof_factor {N : Num} f : factor_ok f ->
    stof (N := N) in_range (factor_stored f)
    = if in_range (Qred (factor_value f)) then Ok (nlit (Qred (factor_value f))) else Throw.
  Proof.
    intros H. destruct (stof_q_factor f H) as (q & E & V). unfold stof. rewrite E.
    rewrite (Qred_complete _ _ V). reflexivity.
  Qed.

  Lemma finish_keyword p f kw u k :
    factor_ok f -> dp_factor p = factor_stored f -> dp_unit p = kw -> keyword kw u k ->
    dp_finish (N := QcNum) in_range p =
    if in_range (Qred (factor_value f))
    then Ok (mkDimen (N := QcNum) (Q2Qc ((if dp_neg p then -1 else 1) * factor_value f * k)%Q) u) else Throw.
  Proof.
    intros Hf Ef Eu Hk. unfold dp_finish. rewrite Ef, Eu, stof_factor by exact Hf.
    destruct (in_range (Qred (factor_value f))); [|reflexivity]. cbn [bind].
    set (v := factor_value f). clearbody v.
    assert (B : @nmul QcNum (nlit (Qred v)) (nz (if dp_neg p then (-1)%Z else 1%Z))
                = Q2Qc ((if dp_neg p then -1 else 1) * v)%Q).
    { cbn. apply Qc_is_canon. rewrite this_mult, !this_lit.
      destruct (dp_neg p); unfold inject_Z; rewrite Qred_correct; ring. }
    rewrite B. set (w := ((if dp_neg p then -1 else 1) * v)%Q). clearbody w. clear B v Hf Ef Eu.
    assert (M : forall a b : Q, (Q2Qc a * Q2Qc b)%Qc = Q2Qc (a * b)%Q).
    { intros a b. apply Qc_is_canon. rewrite this_mult, !this_lit. ring. }
    assert (O : Q2Qc w = Q2Qc (w * 1)) by (apply Qc_is_canon; rewrite !this_lit; ring).
    destruct Hk; cbn [str2phyunit str2unit str list_ascii_of_string];
      match goal with |- match ?x with _ => _ end = _ => let y := eval cbv in x in change x with y end;
      cbv iota; try (match goal with |- context [match ?x with Some u => u | None => _ end] =>
        let y := eval cbv in x in change x with y end; cbv iota);
      unfold dimen_phy; cbn [phy_factor];
      first [exact (f_equal (fun x => Ok (mkDimen (N := QcNum) x _)) O) | f_equal; f_equal].
    all: unfold PointPerPica, PointPerInch, CentimeterPerInch; cbn [nmul ndiv nlit QcNum];
      rewrite <- M; f_equal; apply Qc_is_canon; vm_compute; reflexivity.
  Qed.

  Lemma keyword_hasResult p :
    dp_st p = ParsingUnit -> Forall lower (dp_unit p) ->
    dp_hasResult p = true <-> exists u k, keyword (dp_unit p) u k.
  Proof.
    intros Hs Hl. rewrite <- keyword_found by (apply lower_no_nul; exact Hl).
    unfold dp_hasResult. rewrite Hs.
    destruct (str2phyunit (dp_unit p)); [split; [left; discriminate|reflexivity]|].
    destruct (str2unit (dp_unit p)); split; try (right; discriminate); try reflexivity; try discriminate.
    intros [H|H]; congruence.
  Qed.

  (** state after a dimension text *)
  Lemma writes_dim s f kw u k w :
    Forall sign s -> factor_ok f -> keyword kw u k -> ends w ->
    dp_writes dp_init ((s ++ factor_text f ++ kw) ++ w)
    = Ok (match w with [] => pU | _ => pE end (negative s) (factor_stored f) (has_frac f) kw).
  Proof.
    intros Hs Hf Hk Hw. destruct (keyword_lower _ _ _ Hk) as [Hl Hn].
    unfold dp_writes. rewrite !foldM_app.
    change (foldM dp_write s dp_init) with (dp_writes (pS false) s).
    rewrite writes_signs by exact Hs. cbn [bind]. rewrite xorb_false_l, foldM_app.
    change (foldM dp_write (factor_text f) ?p) with (dp_writes p (factor_text f)).
    rewrite writes_factor by exact Hf. cbn [bind].
    change (foldM dp_write kw ?p) with (dp_writes p kw).
    rewrite writes_unit by assumption. cbn [bind].
    destruct w as [|c w]; [reflexivity|]. cbn [foldM ends] in *.
    apply is_lower_false in Hw. unfold dp_write at 1. cbn [pU dp_st]. rewrite Hw.
    assert (R : dp_hasResult (pU (negative s) (factor_stored f) (has_frac f) kw) = true).
    { apply keyword_hasResult; [reflexivity|exact Hl|]. eauto. }
    rewrite R. cbn [bind].
    apply (writes_end w). reflexivity.
  Qed.

  (** * Every text *)
  Definition reach (t : name) (p : dparser) : Prop :=
    match dp_st p with
    | ParseOptionalSign => Forall sign t /\ p = pS (negative t)
    | ParsingFactor => exists s f, t = s ++ factor_text f /\ Forall sign s /\ factor_ok f
                                   /\ p = pF (negative s) (factor_stored f) (has_frac f)
    | ParsingUnit => exists s f kw, t = s ++ factor_text f ++ kw /\ Forall sign s /\ factor_ok f
                                   /\ Forall lower kw /\ kw <> []
                                   /\ p = pU (negative s) (factor_stored f) (has_frac f) kw
    | DFinished => exists s f kw u k w, t = (s ++ factor_text f ++ kw) ++ w /\ Forall sign s /\ factor_ok f
                                   /\ keyword kw u k /\ ends w /\ w <> []
                                   /\ p = pE (negative s) (factor_stored f) (has_frac f) kw
    end.

  Lemma negative_snoc t c : negative (t ++ [c]) = xorb (negative t) (if ascii_dec c "-" then true else false).
  Proof.
    induction t as [|x t IH]; cbn [app negative].
    - destruct (ascii_dec c "-"); reflexivity.
    - destruct (ascii_dec x "-"); rewrite IH; destruct (negative t); destruct (ascii_dec c "-"); reflexivity.
  Qed.

  Lemma starts_app a b : starts_ok a -> starts_ok (a ++ b).
  Proof. destruct a; [intros []|exact (fun H => H)]. Qed.

  Lemma keep_app a b : keep (a ++ b) = keep a ++ keep b.
  Proof. apply filter_app. Qed.

  Lemma factor_snoc_plain f c : factor_ok f -> ~ lower c -> ~ sep c ->
    exists f', factor_ok f' /\ factor_text f' = factor_text f ++ [c]
               /\ factor_stored f' = factor_stored f ++ keep [c] /\ has_frac f' = has_frac f.
  Proof.
    intros (Hw & Hf & Hs) Hl Hsep. destruct f as [w [[x b]|]]; unfold factor_text in *; cbn [f_whole f_frac] in *.
    - exists (mkFactor w (Some (x, b ++ [c]))). unfold factor_ok, factor_text, factor_stored, has_frac.
      cbn [f_whole f_frac]. destruct Hf as [Hx Hb]. repeat split; try assumption.
      + apply Forall_app. split; [exact Hb|]. constructor; [tauto|constructor].
      + change (x :: b ++ [c]) with ((x :: b) ++ [c]). rewrite app_assoc. apply starts_app. exact Hs.
      + rewrite <- app_assoc. reflexivity.
      + rewrite keep_app, <- app_assoc. reflexivity.
    - exists (mkFactor (w ++ [c]) None). unfold factor_ok, factor_text, factor_stored, has_frac.
      cbn [f_whole f_frac]. rewrite !app_nil_r in *. destruct w as [|y w]; [destruct Hs|].
      repeat split.
      + apply Forall_app. split; [exact Hw|]. constructor; [tauto|constructor].
      + exact Hs.
      + cbn [app]. change (y :: w ++ [c]) with ((y :: w) ++ [c]). rewrite keep_app. reflexivity.
  Qed.

  Lemma factor_snoc_sep f c : factor_ok f -> sep c -> has_frac f = false ->
    exists f', factor_ok f' /\ factor_text f' = factor_text f ++ [c]
               /\ factor_stored f' = factor_stored f ++ ["."] /\ has_frac f' = true.
  Proof.
    intros (Hw & Hf & Hs) Hsep Hn. destruct f as [w [[x b]|]]; [discriminate|].
    unfold factor_text in *; cbn [f_whole f_frac] in *. rewrite app_nil_r in Hs.
    exists (mkFactor w (Some (c, []))). unfold factor_ok, factor_text, factor_stored, has_frac.
    cbn [f_whole f_frac]. rewrite !app_nil_r. repeat split; try assumption.
    - constructor.
    - apply starts_app. exact Hs.
  Qed.

  Lemma reach_step t p c p' : reach t p -> dp_write p c = Ok p' -> reach (t ++ [c]) p'.
  Proof.
    unfold reach at 1. destruct (dp_st p) eqn:Est.
    - intros (Hs & ->) W. unfold dp_write in W. cbn [pS dp_st] in W.
      destruct (ceq c "+") eqn:E1.
      { apply ceq_iff in E1. subst c. injection W as <-. unfold reach; cbn [pS dp_st]. split.
        - apply Forall_app. split; [exact Hs|]. constructor; [left; reflexivity|constructor].
        - rewrite negative_snoc. cbn [ascii_dec]. change (if ascii_dec "+" "-" then true else false) with false.
          rewrite xorb_false_r. reflexivity. }
      destruct (ceq c "-") eqn:E2.
      { apply ceq_iff in E2. subst c. injection W as <-. unfold reach; cbn [pS dp_st]. split.
        - apply Forall_app. split; [exact Hs|]. constructor; [right; reflexivity|constructor].
        - rewrite negative_snoc. change (if ascii_dec "-" "-" then true else false) with true.
          rewrite xorb_true_r. reflexivity. }
      destruct (is_digit c) eqn:E3.
      { unfold dp_write_factor in W. rewrite E3 in W. injection W as <-. cbn [reach dp_st].
        exists t, (mkFactor [c] None). unfold factor_text, factor_stored, has_frac, factor_ok; cbn [f_whole f_frac app].
        repeat split; try assumption.
        - apply is_digit_iff in E3. constructor; [|constructor]. split; [apply digit_not_lower|apply digit_not_sep]; exact E3.
        - left. apply is_digit_iff. exact E3.
        - cbn [keep filter]. rewrite E3. reflexivity. }
      destruct (is_sep c) eqn:E4; [|discriminate].
      injection W as <-. cbn [reach dp_st]. apply is_sep_iff in E4.
      exists t, (mkFactor [] (Some (c, []))). unfold factor_text, factor_stored, has_frac, factor_ok; cbn [f_whole f_frac app].
      repeat split; try assumption; try apply Forall_nil. right. exact E4.
    - intros (s & f & -> & Hs & Hf & ->) W. unfold dp_write in W. cbn [pF dp_st] in W.
      unfold dp_write_factor in W. cbn [pF dp_factor dp_neg dp_decimal dp_unit] in W.
      destruct (is_digit c) eqn:E1.
      { injection W as <-. apply is_digit_iff in E1 as D.
        destruct (factor_snoc_plain f c Hf (digit_not_lower _ D) (digit_not_sep _ D)) as (f' & Hf' & Et & Es & Eh).
        cbn [reach dp_st]. exists s, f'. rewrite Et, Es, Eh, app_assoc. repeat split; try assumption; try apply Hf'.
        cbn [keep filter]. rewrite E1. reflexivity. }
      destruct (is_sep c) eqn:E2.
      { destruct (has_frac f) eqn:Eh; [discriminate|]. injection W as <-. apply is_sep_iff in E2.
        destruct (factor_snoc_sep f c Hf E2 Eh) as (f' & Hf' & Et & Es & Eh').
        cbn [reach dp_st]. exists s, f'. rewrite Et, Es, Eh', app_assoc. repeat split; try assumption; try apply Hf'. }
      destruct (is_lowercase_letter c) eqn:E3.
      { injection W as <-. cbn [reach dp_st app]. exists s, f, [c]. rewrite <- app_assoc.
        repeat split; try assumption; try apply Hf; try discriminate.
        constructor; [apply is_lower_iff; exact E3|constructor]. }
      injection W as <-. apply is_sep_false in E2. apply is_lower_false in E3.
      destruct (factor_snoc_plain f c Hf E3 E2) as (f' & Hf' & Et & Es & Eh).
      cbn [reach dp_st]. exists s, f'. rewrite Et, Es, Eh, app_assoc. repeat split; try assumption; try apply Hf'.
      cbn [keep filter]. rewrite E1, app_nil_r. reflexivity.
    - intros (s & f & kw & -> & Hs & Hf & Hl & Hn & ->) W. unfold dp_write in W. cbn [pU dp_st] in W.
      destruct (is_lowercase_letter c) eqn:E1.
      + injection W as <-. cbn [reach dp_st]. exists s, f, (kw ++ [c]). rewrite !app_assoc.
        repeat split; try assumption; try apply Hf.
        * apply Forall_app. split; [exact Hl|]. constructor; [apply is_lower_iff; exact E1|constructor].
        * destruct kw; discriminate.
      + destruct (dp_hasResult _) eqn:E2 in W; [|discriminate]. injection W as <-.
        apply keyword_hasResult in E2; [|reflexivity|exact Hl]. destruct E2 as (u & k & Hk). cbn [pU dp_unit] in Hk.
        cbn [reach dp_st]. exists s, f, kw, u, k, [c]. repeat split; try assumption; try apply Hf; try discriminate.
        apply is_lower_false. exact E1.
    - intros (s & f & kw & u & k & w & -> & Hs & Hf & Hk & He & Hn & ->) W.
      unfold dp_write in W. cbn [pE dp_st] in W. injection W as <-. cbn [reach pE dp_st].
      exists s, f, kw, u, k, (w ++ [c]). rewrite <- app_assoc. repeat split; try assumption; try apply Hf.
      + destruct w; [congruence|exact He].
      + destruct w; discriminate.
  Qed.

  Lemma reach_all t p : dp_writes dp_init t = Ok p -> reach t p.
  Proof.
    revert p. induction t as [|c t IH] using rev_ind; intros p H.
    - injection H as <-. split; [constructor|reflexivity].
    - unfold dp_writes in H. rewrite foldM_app in H. apply bind_Ok in H. destruct H as (q & Hq & Hc).
      cbn [foldM] in Hc. apply bind_Ok in Hc. destruct Hc as (q' & Hw & E). injection E as <-.
      exact (reach_step _ _ _ _ (IH q Hq) Hw).
  Qed.

  (** what [finish] returns, as a function of the text *)
  Definition read_as (q : Q) (u : unit_t) (v : Q) : result (dimen QcNum) :=
    if in_range (Qred v) then Ok (mkDimen (N := QcNum) (Q2Qc q) u) else Throw.

  Lemma finish_dim n f d kw u k st :
    factor_ok f -> keyword kw u k ->
    dp_finish (N := QcNum) in_range (mkDP st n (factor_stored f) d kw)
    = read_as ((if n then -1 else 1) * factor_value f * k)%Q u (factor_value f).
  Proof. intros Hf Hk. exact (finish_keyword (mkDP st n (factor_stored f) d kw) f kw u k Hf eq_refl eq_refl Hk). Qed.

  Theorem dim_complete d w q u v :
    dim_text d q u v -> ends w ->
    exists p, dp_writes dp_init (d ++ w) = Ok p /\ dp_hasResult p = true
              /\ dp_isFinished p = match w with [] => false | _ => true end
              /\ dp_finish (N := QcNum) in_range p = read_as q u v.
  Proof.
    intros H Hw. destruct H as [s f kw u k Hs Hf Hk].
    eexists. split; [apply writes_dim with (u := u) (k := k); assumption|].
    destruct w as [|c w].
    - split; [|split; [reflexivity|apply finish_dim; assumption]].
      apply keyword_hasResult; [reflexivity| |cbn [pU dp_unit]; eauto]. cbn [pU dp_unit]. eapply keyword_lower; eauto.
    - split; [reflexivity|split; [reflexivity|apply finish_dim; assumption]].
  Qed.

  Theorem dim_sound t p :
    dp_writes dp_init t = Ok p -> dp_hasResult p = true ->
    exists d w q u v, t = d ++ w /\ dim_text d q u v /\ ends w
      /\ dp_isFinished p = match w with [] => false | _ => true end
      /\ dp_finish (N := QcNum) in_range p = read_as q u v.
  Proof.
    intros H R. apply reach_all in H. unfold reach in H. destruct (dp_st p) eqn:Est.
    - unfold dp_hasResult in R. rewrite Est in R. discriminate.
    - unfold dp_hasResult in R. rewrite Est in R. discriminate.
    - destruct H as (s & f & kw & -> & Hs & Hf & Hl & Hn & ->).
      apply keyword_hasResult in R; [|reflexivity|exact Hl]. destruct R as (u & k & Hk). cbn [pU dp_unit] in Hk.
      exists (s ++ factor_text f ++ kw), [], ((if negative s then -1 else 1) * factor_value f * k)%Q, u, (factor_value f).
      rewrite app_nil_r. split; [reflexivity|]. split; [constructor; assumption|]. split; [exact I|].
      split; [reflexivity|]. apply finish_dim; assumption.
    - destruct H as (s & f & kw & u & k & w & -> & Hs & Hf & Hk & He & Hn & ->).
      exists (s ++ factor_text f ++ kw), w, ((if negative s then -1 else 1) * factor_value f * k)%Q, u, (factor_value f).
      split; [reflexivity|]. split; [constructor; assumption|]. split; [exact He|].
      split; [destruct w; [congruence|reflexivity]|]. apply finish_dim; assumption.
  Qed.

  (** [finish] on an unfinished text never gives a finite unit *)
  Lemma finish_unfinished t p :
    dp_writes dp_init t = Ok p -> dp_hasResult p = false ->
    forall d, dp_finish (N := QcNum) in_range p = Ok d -> d_unit d = UFilll.
  Proof.
    intros H R d F. apply reach_all in H. unfold reach in H. destruct (dp_st p) eqn:Est.
    - destruct H as (_ & ->). discriminate.
    - destruct H as (s & f & _ & _ & _ & ->). unfold dp_finish in F. apply bind_Ok in F.
      destruct F as (v & _ & E). cbn [pF dp_unit] in E. change (str2phyunit []) with (@None phyunit) in E.
      change (str2unit []) with (@None unit_t) in E. injection E as <-. reflexivity.
    - unfold dp_hasResult in R. rewrite Est in R. unfold dp_finish in F. apply bind_Ok in F.
      destruct F as (v & _ & E). destruct (str2phyunit (dp_unit p)); [discriminate|].
      destruct (str2unit (dp_unit p)); [discriminate|]. injection E as <-. reflexivity.
    - unfold dp_hasResult in R. rewrite Est in R. discriminate.
  Qed.
End Dim.
