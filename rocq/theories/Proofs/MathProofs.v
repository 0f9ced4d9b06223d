(** Styles, math codes, uniqueness of readings, subscripts, matrices. *)
From Coq Require Import List Ascii ZArith Bool Arith Lia.
From Verif.Base Require Import Result.
From Verif.Model Require Import MathList MathParser.
From Verif.Spec Require Import MathSpec.
From Verif.Proofs Require Import FormulaProofs.
Import ListNotations.

(** * Styles *)
Lemma describe_inj : forall a b, describe a = describe b -> a = b.
Proof. intros [] []; cbn; congruence. Qed.
Theorem style_fields : forall s,
  describe (sup s) = (script_size (size_of s), cramped s) /\
  describe (sub s) = (script_size (size_of s), true) /\
  describe (fracNum s) = (frac_size (size_of s), cramped s) /\
  describe (fracDen s) = (frac_size (size_of s), true) /\
  describe (cramp s) = (size_of s, true) /\ isCramped s = cramped s.
Proof. intros []; repeat split. Qed.
Theorem style_order : forall a b,
  (style_ltb a b = true <-> below a b) /\ (style_leb a b = true <-> below a b \/ a = b) /\
  (style_gtb a b = true <-> below b a) /\ (style_geb a b = true <-> below b a \/ a = b) /\
  (style_eqb a b = true <-> a = b).
Proof.
  intros [] []; unfold below; cbn; repeat split; intros; try discriminate; try reflexivity; auto;
    repeat match goal with
    | H : _ \/ _ |- _ => destruct H
    | H : _ /\ _ |- _ => destruct H
    end; try discriminate; try lia; auto.
Qed.
Theorem style_from_id : forall s, fromId (Z.of_nat (style_id s)) = Ok s.
Proof. intros []; reflexivity. Qed.
Theorem style_ids : forall z s, fromId z = Ok s <-> z = Z.of_nat (style_id s).
Proof.
  intros z s; split; [|intros ->; apply style_from_id].
  unfold fromId. destruct (Z.ltb_spec z 0); [discriminate|].
  destruct (nth_error style_table (Z.to_nat z)) as [t|] eqn:E; [|discriminate]. intros H'; injection H' as ->.
  rewrite <- (Z2Nat.id z) by auto. f_equal. revert E. generalize (Z.to_nat z). intros k E.
  assert (B : k < 8) by (change 8 with (length style_table); apply nth_error_Some; congruence).
  do 8 (destruct k as [|k]; [injection E as <-; reflexivity|]). lia.
Qed.
(** any nesting *)
Theorem style_nesting : forall l s, let r := fold_left enter_field l s in
  cramped r = (cramped s || existsb goes_low l)%bool /\
  size_nat (size_of r) <= size_nat (size_of s) /\
  (3 <= length l -> size_of r = ScriptScript).
Proof.
  assert (A : forall l s, cramped (fold_left enter_field l s) = (cramped s || existsb goes_low l)%bool).
  { induction l as [|f l IH]; intros s; cbn [fold_left existsb]; [rewrite orb_false_r; auto|].
    rewrite IH, orb_assoc. f_equal. destruct s, f; reflexivity. }
  assert (B : forall l s, size_nat (size_of (fold_left enter_field l s)) <= size_nat (size_of s) - length l).
  { induction l as [|f l IH]; intros s; cbn [fold_left length]; [lia|].
    specialize (IH (enter_field s f)).
    assert (size_nat (size_of (enter_field s f)) <= size_nat (size_of s) - 1) by (destruct s, f; cbn; lia). lia. }
  intros l s r. unfold r. split; [apply A|]. specialize (B l s). split; [lia|]. intros Len.
  assert (size_nat (size_of s) <= 3) by (destruct s; cbn; lia).
  destruct (size_of (fold_left enter_field l s)); cbn in *; auto; lia.
Qed.

(** * Math codes *)
Local Open Scope Z_scope.
Theorem mathcode_parts : forall m, 0 <= m ->
  m = mc_class m * 4096 + mc_family m * 256 + mc_position m /\
  0 <= mc_class m /\ 0 <= mc_family m < 16 /\ 0 <= mc_position m < 256.
Proof.
  intros m H. unfold mc_class, mc_family, mc_position.
  rewrite (Z.quot_div_nonneg m 4096), (Z.rem_mod_nonneg m 4096), (Z.rem_mod_nonneg m 256) by lia.
  pose proof (Z.mod_pos_bound m 4096 ltac:(lia)).
  rewrite Z.quot_div_nonneg by lia.
  pose proof (Z.div_mod m 4096 ltac:(lia)). pose proof (Z.div_mod (m mod 4096) 256 ltac:(lia)).
  assert (E : (m mod 4096) mod 256 = m mod 256).
  { symmetry. rewrite (Z.div_mod m 4096) at 1 by lia.
    replace (4096 * (m / 4096) + m mod 4096) with (m mod 4096 + (m / 4096 * 16) * 256) by lia.
    apply Z.mod_add; lia. }
  pose proof (Z.mod_pos_bound m 256 ltac:(lia)).
  assert (0 <= m / 4096) by (apply Z.div_pos; lia).
  assert (0 <= m mod 4096 / 256 < 16).
  { split; [apply Z.div_pos; lia|apply Z.div_lt_upper_bound; lia]. }
  repeat split; lia.
Qed.
Theorem mathcode_unique : forall c f a, 0 <= c -> 0 <= f < 16 -> 0 <= a < 256 ->
  mc_class (c * 4096 + f * 256 + a) = c /\ mc_family (c * 4096 + f * 256 + a) = f /\
  mc_position (c * 4096 + f * 256 + a) = a.
Proof.
  intros c f a Hc Hf Ha. set (m := c * 4096 + f * 256 + a).
  destruct (mathcode_parts m ltac:(lia)) as [E [A [B C]]]. lia.
Qed.
Definition byte_ok (n : nat) : bool :=
  let c := ascii_of_nat n in
  let m := mathcode c in
  let z := Z.of_nat n in
  if (((65 <=? z) && (z <=? 90)) || ((97 <=? z) && (z <=? 122)))%bool then m =? 7 * 4096 + 256 + z
  else if ((48 <=? z) && (z <=? 57))%bool then m =? 7 * 4096 + z
  else ((0 <=? mc_class m) && (negb (mc_class m =? 7)) && (mc_class m <=? 8) && (0 <=? m))%bool.
Lemma bytes_ok : forallb byte_ok (seq 0 256) = true.
Proof. vm_compute. reflexivity. Qed.
Lemma byte_all : forall c, byte_ok (nat_of_ascii c) = true.
Proof.
  intros c. pose proof bytes_ok as B. rewrite forallb_forall in B. apply B. apply in_seq.
  pose proof (nat_ascii_bounded c). lia.
Qed.
Theorem default_letters : forall c, let z := Z.of_nat (nat_of_ascii c) in
  (65 <= z <= 90 \/ 97 <= z <= 122 ->
     mc_class (mathcode c) = 7 /\ mc_family (mathcode c) = 1 /\ mc_position (mathcode c) = z) /\
  (48 <= z <= 57 ->
     mc_class (mathcode c) = 7 /\ mc_family (mathcode c) = 0 /\ mc_position (mathcode c) = z) /\
  (mc_class (mathcode c) = 7 -> 65 <= z <= 90 \/ 97 <= z <= 122 \/ 48 <= z <= 57) /\
  0 <= mathcode c /\ mc_class (mathcode c) <= 8.
Proof.
  intros c z. pose proof (byte_all c) as B. unfold byte_ok in B. rewrite ascii_nat_embedding in B. fold z in B.
  pose proof (nat_ascii_bounded c) as Bd.
  destruct ((65 <=? z) && (z <=? 90) || (97 <=? z) && (z <=? 122))%bool eqn:L.
  - apply Z.eqb_eq in B. apply orb_prop in L.
    assert (Lz : 65 <= z <= 90 \/ 97 <= z <= 122) by (destruct L as [L|L]; apply andb_prop in L; lia).
    destruct (mathcode_unique 7 1 z ltac:(lia) ltac:(lia) ltac:(lia)) as [A1 [A2 A3]].
    replace (mathcode c) with (7 * 4096 + 1 * 256 + z) by lia. rewrite A1, A2, A3. repeat split; lia.
  - apply orb_false_elim in L. destruct L as [L1 L2]. apply andb_false_iff in L1, L2.
    assert (Nl : ~ (65 <= z <= 90 \/ 97 <= z <= 122)) by lia.
    destruct ((48 <=? z) && (z <=? 57))%bool eqn:Dg.
    + apply Z.eqb_eq in B. apply andb_prop in Dg.
      destruct (mathcode_unique 7 0 z ltac:(lia) ltac:(lia) ltac:(lia)) as [A1 [A2 A3]].
      replace (mathcode c) with (7 * 4096 + 0 * 256 + z) by lia. rewrite A1, A2, A3. repeat split; lia.
    + apply andb_false_iff in Dg.
      apply andb_prop in B. destruct B as [B B4]. apply andb_prop in B. destruct B as [B B3].
      apply andb_prop in B. destruct B as [B1 B2]. apply negb_true_iff in B2. apply Z.eqb_neq in B2.
      repeat split; try lia.
Qed.
Theorem math_char_family : forall fam c code, 0 <= code ->
  let s := writeMathChar fam c code in
  s_char s = c /\
  (mc_class code <> 7 -> s_class s = mc_class code /\ s_fam s = mc_family code) /\
  (mc_class code = 7 -> s_class s = Ord /\ s_fam s = if Z.eq_dec fam (-1) then mc_family code else fam).
Proof.
  intros fam c code H. unfold writeMathChar. destruct (Z.eqb_spec (mc_class code) 7) as [E|E]; cbn.
  - repeat split; try congruence. destruct (Z.eq_dec fam (-1)) as [Ef|Ef].
    + subst fam. reflexivity.
    + apply Z.eqb_neq in Ef. rewrite Ef. reflexivity.
  - repeat split; congruence.
Qed.
Close Scope Z_scope.

(** * A store says one thing *)
Scheme r_node_i := Minimality for r_node Sort Prop
with r_ref_i := Minimality for r_ref Sort Prop
with r_list_i := Minimality for r_list Sort Prop
with r_lists_i := Minimality for r_lists Sort Prop.
Combined Scheme r_ind from r_node_i, r_ref_i, r_list_i, r_lists_i.
Lemma reads_once : forall h,
  (forall n t, r_node h n t -> forall t', r_node h n t' -> t = t') /\
  (forall n t, r_ref h n t -> forall t', r_ref h n t' -> t = t') /\
  (forall n t, r_list h n t -> forall t', r_list h n t' -> t = t') /\
  (forall n t, r_lists h n t -> forall t', r_lists h n t' -> t = t').
Proof.
  intros h. apply r_ind; intros; match goal with H : _ |- _ = ?t => inversion H; subst; clear H end; f_equal; auto.
Qed.
Theorem formula_unique : forall e ts ts', group e ts -> group e ts' -> ts = ts'.
Proof.
  intros e ts ts' G G'. destruct (formula_parsed e ts G) as [m [E R]]. destruct (formula_parsed e ts' G') as [m' [E' R']].
  rewrite E in E'. injection E' as <-. exact (proj1 (proj2 (proj2 (reads_once (mp_heap m)))) _ _ R _ R').
Qed.

(** * Braced subscripts *)
Theorem braced_subscript : forall x g ts, group g ts ->
  exists m, calls (CSym x :: CSub :: CBegin :: g ++ [CEnd; CFinish]) mp_init = Ok m /\
    output_is m [TAtom (s_class x) (Sym x) (Formula ts) Nothing].
Proof.
  intros x g ts G. destruct parses as [_ [_ [_ [_ [_ [Hg _]]]]]].
  set (h1 := hset (fun _ => []) 1 []).
  set (b := mkB (s_class x) (Some (RSym x)) (Some (RList 1)) None).
  destruct (Hg g ts G PSub [PAtom; PMList] [] h1 2 [b] [] 1) as [h' [n' [E [N [F Q]]]]]; [auto|auto|reflexivity|].
  exists (mk [PMList] [] (hset h' 0 (h' 0 ++ [build b])) n' [] []). split.
  - rewrite !calls_cons. cbn -[calls hset].
    change (calls (g ++ [CEnd; CFinish]) (mk [PSub; PAtom; PMList] [1] h1 2 [b] []) =
      Ok (mk [PMList] [] (hset h' 0 (h' 0 ++ [build b])) n' [] [])).
    replace (g ++ [CEnd; CFinish]) with ((g ++ [CEnd]) ++ [CFinish]) by (rewrite <- app_assoc; reflexivity).
    rewrite calls_app, E. reflexivity.
  - unfold output_is. cbn [mp_heap]. rewrite hset_same, F by lia. cbn.
    constructor; [|constructor]. constructor; [constructor| |constructor]. constructor.
    apply (q_reads _ (between 1 n')). rewrite hset_other by lia.
    eapply q_frame_list; [exact Q|]. unfold between. intros i I1. split; [lia|]. apply hset_other; lia.
Qed.

(** * Matrices *)
Lemma table_rows_nonempty : forall e rows, table e rows -> rows <> [] /\ Forall (fun r => r <> []) rows.
Proof.
  assert (R : forall e r, row e r -> r <> []) by (intros e r H; destruct H; discriminate).
  induction 1 as [e r H|e r es rs H H1 IH]; (split; [discriminate|]); constructor; try apply IH; eauto.
Qed.
Lemma widest_spec : forall rows, (forall r, In r rows -> length r <= widest rows) /\
  (rows <> [] -> exists r, In r rows /\ length r = widest rows).
Proof.
  unfold widest. induction rows as [|r rows [IH1 IH2]]; [split; [intros r []|congruence]|].
  cbn [map list_max fold_right]. fold (list_max (map (@length (list tree)) rows)). split.
  - intros x [<-|X]; [lia|]. specialize (IH1 x X). lia.
  - intros _. destruct (le_lt_dec (list_max (map (@length (list tree)) rows)) (length r)).
    + exists r. split; [left; auto|lia].
    + destruct rows as [|r' rows]; [cbn in l; lia|]. destruct (IH2 ltac:(discriminate)) as [x [X1 X2]].
      exists x. split; [right; auto|]. rewrite X2. lia.
Qed.
Lemma pad_length : forall w r, length r <= w -> length (pad w r) = w.
Proof. intros w r H. unfold pad. rewrite app_length, repeat_length. lia. Qed.
Lemma nth_repeat_nil : forall {A} k i, nth i (repeat (@nil A) k) [] = [].
Proof. intros A k; induction k; intros [|i]; cbn; auto. Qed.
Lemma padded : forall w rows, (forall r, In r rows -> length r <= w) ->
  length (concat (map (pad w) rows)) = length rows * w /\
  forall r c, r < length rows -> c < w -> nth (c + r * w) (concat (map (pad w) rows)) [] = cell rows r c.
Proof.
  intros w; induction rows as [|x rows IH]; intros H; [split; [reflexivity|cbn; lia]|].
  destruct IH as [IH1 IH2]; [intros; apply H; right; auto|].
  assert (Hx : length (pad w x) = w) by (apply pad_length, H; left; auto).
  cbn [map concat length]. split; [rewrite app_length, Hx, IH1; cbn; lia|].
  intros r c Hr Hc. unfold cell. destruct r as [|r]; cbn [nth].
  - rewrite Nat.add_0_r, app_nth1 by lia. unfold pad.
    destruct (le_lt_dec (length x) c).
    + rewrite app_nth2, nth_repeat_nil by lia. symmetry. apply nth_overflow; auto.
    + apply app_nth1; auto.
  - rewrite app_nth2 by (rewrite Hx; cbn; lia). rewrite Hx.
    replace (c + Datatypes.S r * w - w) with (c + r * w) by (cbn; lia). apply IH2; lia.
Qed.
Theorem matrix_parsed : forall e rows, table e rows ->
  exists m cells cols, calls (CMatrix :: CBegin :: e ++ [CEnd; CFinish]) mp_init = Ok m /\
    output_is m [TMatrix cells cols] /\
    (forall r, In r rows -> length r <= cols) /\ (exists r, In r rows /\ length r = cols) /\ 0 < cols /\
    length cells = length rows * cols /\ mat_rows cells cols = length rows /\
    (forall r c, r < length rows -> c < cols -> mat_at cells cols r c = Ok (cell rows r c)) /\
    (forall r c, length rows <= r -> mat_at cells cols r c = Throw).
Proof.
  intros e rows T. destruct (table_rows_nonempty e rows T) as [Ne Nr]. destruct (widest_spec rows) as [W1 W2].
  specialize (W2 Ne).
  assert (Pos : 0 < widest rows).
  { destruct W2 as [r [R1 R2]]. rewrite Forall_forall in Nr. specialize (Nr r R1). destruct r; [congruence|cbn in R2; lia]. }
  destruct (padded (widest rows) rows W1) as [P1 P2].
  set (cells := concat (map (pad (widest rows)) rows)) in *.
  assert (G : group (CMatrix :: CBegin :: e ++ [CEnd]) [TMatrix cells (widest rows)]).
  { apply group_body, body_items. rewrite <- (app_nil_r (CMatrix :: _)). constructor; [|constructor].
    apply item_matrix. auto. }
  destruct (formula_parsed _ _ G) as [m [E R]]. exists m, cells, (widest rows).
  split; [|split; [auto|split; [auto|split; [auto|split; [auto|split; [auto|split; [|split]]]]]]].
  - rewrite <- E. cbn [app]. rewrite <- app_assoc. reflexivity.
  - unfold mat_rows. rewrite P1. apply Nat.div_mul. lia.
  - intros r c Hr Hc. unfold mat_at.
    assert (c + r * widest rows < length cells).
    { rewrite P1. assert (Datatypes.S r * widest rows <= length rows * widest rows) by (apply Nat.mul_le_mono_r; lia).
      cbn in *. lia. }
    rewrite (nth_error_nth' cells [] H), P2 by auto. reflexivity.
  - intros r c Hr. unfold mat_at. replace (nth_error cells (c + r * widest rows)) with (@None (list tree)); auto.
    symmetry. apply nth_error_None. rewrite P1.
    assert (length rows * widest rows <= r * widest rows) by (apply Nat.mul_le_mono_r; lia). lia.
Qed.

Lemma default_plain c k f a : In (c, (k, f, a)) plain_codes ->
  mc_class (mathcode c) = k /\ mc_family (mathcode c) = f /\ mc_position (mathcode c) = a.
Proof.
  intros H. unfold plain_codes in H.
  repeat (destruct H as [H|H]; [injection H as <- <- <- <-; vm_compute; repeat split|]). destruct H.
Qed.

Lemma default_others_sweep : forallb (fun n =>
    let c := ascii_of_nat n in
    let z := Z.of_nat n in
    (existsb (fun p => Ascii.eqb (fst p) c) plain_codes ||
    ((65 <=? z) && (z <=? 90) || (97 <=? z) && (z <=? 122) || (48 <=? z) && (z <=? 57)) ||
    (mathcode c =? if (33 <=? z) && (z <=? 127) then z else 0))%Z%bool) (seq 0 256) = true.
Proof. vm_compute. reflexivity. Qed.
Lemma default_others c : let z := Z.of_nat (nat_of_ascii c) in (
  ~ (65 <= z <= 90 \/ 97 <= z <= 122 \/ 48 <= z <= 57) -> (forall x, ~ In (c, x) plain_codes) ->
  mathcode c = if (33 <=? z) && (z <=? 127) then z else 0)%Z.
Proof.
  intros z H1 H2. pose proof default_others_sweep as F. rewrite forallb_forall in F.
  assert (Hn : (nat_of_ascii c < 256)%nat) by apply nat_ascii_bounded.
  specialize (F (nat_of_ascii c)). rewrite in_seq in F. specialize (F ltac:(lia)). cbv zeta in F.
  rewrite ascii_nat_embedding in F. fold z in F. apply orb_true_iff in F. destruct F as [F|F]; [|apply Z.eqb_eq; exact F].
  apply orb_true_iff in F. destruct F as [F|F].
  - apply existsb_exists in F. destruct F as ([c' x] & HI & E). apply Ascii.eqb_eq in E. cbn [fst] in E. subst c'. destruct (H2 x HI).
  - exfalso. apply H1. lia.
Qed.
