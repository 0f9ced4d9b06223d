(** Math styles, math codes and the math parser: C44 to C49. *)
From Coq Require Import List Ascii ZArith Bool Arith Lia.
From Verif.Base Require Import Result.
From Verif.Model Require Import MathList MathParser.
From Verif.Spec Require Import MathSpec.
From Verif.Proofs Require Import FormulaProofs MathParserSafe MathParserCareful MathProofs.
Import ListNotations.

(** C44: the styles of the parts of a formula *)
Theorem C44_fields : forall s,
  describe (sup s) = (script_size (size_of s), cramped s) /\
  describe (sub s) = (script_size (size_of s), true) /\
  describe (fracNum s) = (frac_size (size_of s), cramped s) /\
  describe (fracDen s) = (frac_size (size_of s), true) /\
  describe (cramp s) = (size_of s, true) /\ isCramped s = cramped s.
Proof. exact style_fields. Qed.
(** C44: comparison is by size; of two styles of a size the cramped one is smaller *)
Theorem C44_order : forall a b,
  (style_ltb a b = true <-> below a b) /\ (style_leb a b = true <-> below a b \/ a = b) /\
  (style_gtb a b = true <-> below b a) /\ (style_geb a b = true <-> below b a \/ a = b) /\
  (style_eqb a b = true <-> a = b).
Proof. exact style_order. Qed.
(** C44: any nesting of fields *)
Theorem C44_nesting : forall l s, let r := fold_left enter_field l s in
  cramped r = (cramped s || existsb goes_low l)%bool /\
  size_nat (size_of r) <= size_nat (size_of s) /\
  (3 <= length l -> size_of r = ScriptScript).
Proof. exact style_nesting. Qed.
Theorem C44_ids : forall z s, fromId z = Ok s <-> z = Z.of_nat (style_id s).
Proof. exact style_ids. Qed.
Example C44_case :
  fold_left enter_field [FNum; FSup; FDen] D = SSc /\ fold_left enter_field [FSup; FNum] T = SS /\
  below Sc T /\ below Tc T /\ style_ltb T Tc = false /\ fromId 8 = UB.
Proof. unfold below; cbn; repeat split; auto. Qed.

(** C45 *)
Theorem C45_parts : forall m, (0 <= m)%Z ->
  (m = mc_class m * 4096 + mc_family m * 256 + mc_position m)%Z /\
  (0 <= mc_class m)%Z /\ (0 <= mc_family m < 16)%Z /\ (0 <= mc_position m < 256)%Z.
Proof. exact mathcode_parts. Qed.
Theorem C45_unique : forall c f a, (0 <= c)%Z -> (0 <= f < 16)%Z -> (0 <= a < 256)%Z ->
  mc_class (c * 4096 + f * 256 + a) = c /\ mc_family (c * 4096 + f * 256 + a) = f /\
  mc_position (c * 4096 + f * 256 + a) = a.
Proof. exact mathcode_unique. Qed.
(** C45: by default exactly letters and digits change with the current family;
    letters are in family 1, digits in family 0, at their own position *)
Theorem C45_default : forall c, let z := Z.of_nat (nat_of_ascii c) in
  ((65 <= z <= 90 \/ 97 <= z <= 122)%Z ->
     mc_class (mathcode c) = 7%Z /\ mc_family (mathcode c) = 1%Z /\ mc_position (mathcode c) = z) /\
  ((48 <= z <= 57)%Z ->
     mc_class (mathcode c) = 7%Z /\ mc_family (mathcode c) = 0%Z /\ mc_position (mathcode c) = z) /\
  (mc_class (mathcode c) = 7%Z -> (65 <= z <= 90 \/ 97 <= z <= 122 \/ 48 <= z <= 57)%Z) /\
  (0 <= mathcode c)%Z /\ (mc_class (mathcode c) <= 8)%Z.
Proof. exact default_letters. Qed.
(** C45: and the other characters of plain TeX's table are as there *)
Theorem C45_plain : forall c k f a, In (c, (k, f, a)) plain_codes ->
  mc_class (mathcode c) = k /\ mc_family (mathcode c) = f /\ mc_position (mathcode c) = a.
Proof. exact default_plain. Qed.
(** C45: a visible character that is in neither list stands for itself, and what is
    not a visible character has no code *)
Theorem C45_others : forall c, let z := Z.of_nat (nat_of_ascii c) in
  ~ (65 <= z <= 90 \/ 97 <= z <= 122 \/ 48 <= z <= 57)%Z -> (forall x, ~ In (c, x) plain_codes) ->
  mathcode c = (if (33 <=? z) && (z <=? 127) then z else 0)%Z.
Proof. exact default_others. Qed.
Example C45_others_case : mathcode "%"%char = 37%Z /\ forall x, ~ In ("%"%char, x) plain_codes.
Proof. split; [reflexivity|]. intros x H. repeat (destruct H as [H|H]; [discriminate H|]). destruct H. Qed.
Theorem C45_family : forall fam c code, (0 <= code)%Z ->
  let s := writeMathChar fam c code in
  s_char s = c /\
  (mc_class code <> 7%Z -> s_class s = mc_class code /\ s_fam s = mc_family code) /\
  (mc_class code = 7%Z -> s_class s = Ord /\ s_fam s = if Z.eq_dec fam (-1) then mc_family code else fam).
Proof. exact math_char_family. Qed.
Example C45_case :
  mathcode "x"%char = 0x7178%Z /\ writeMathChar (-1) 120 (mathcode "x"%char) = mkSym 120 0 1 /\
  writeMathChar 6 120 (mathcode "x"%char) = mkSym 120 0 6 /\
  writeMathChar 6 43 (mathcode "+"%char) = mkSym 43 2 0 /\ mathcode "="%char = 0x303D%Z.
Proof. vm_compute. repeat split. Qed.

(** C46: the parser rebuilds every formula of the grammar [group]. Missing: the
    grammar has no braced subscripts (C48) and no \over inside the arguments of
    \frac and of roots with a degree, inside \left..\right or in matrix cells,
    which the parser does not read as TeX does (see the refutations). *)
Theorem C46_formula_partial : forall e ts, group e ts ->
  exists m, calls (e ++ [CFinish]) mp_init = Ok m /\ output_is m ts.
Proof. exact formula_parsed. Qed.
(** C46: a sequence of calls is at most one formula *)
Theorem C46_unique : forall e ts ts', group e ts -> group e ts' -> ts = ts'.
Proof. exact formula_unique. Qed.
Definition a_sym : sym := mkSym 97 0 1.
Definition b_sym : sym := mkSym 98 0 1.
Definition plus_sym : sym := mkSym 43 2 0.
(* \frac{a+b^a}a_b *)
Definition frac_calls : list call :=
  [CFrac; CBegin; CSym a_sym; CSym plus_sym; CSym b_sym; CSup; CSym a_sym; CEnd; CSym a_sym; CSym b_sym; CSub; CSym b_sym].
Definition atom (s : sym) : tree := TAtom (s_class s) (Sym s) Nothing Nothing.
Definition frac_tree : list tree :=
  [TFrac [atom a_sym; atom plus_sym; TAtom Ord (Sym b_sym) (Sym a_sym) Nothing] [atom a_sym];
   TAtom Ord (Sym b_sym) Nothing (Sym b_sym)].
Lemma one : forall deg s, s_char s <> rbracket -> item deg [CSym s] (atom s).
Proof. intros. apply item_sym; [auto|constructor]. Qed.
Example C46_case : group frac_calls frac_tree.
Proof.
  apply group_body, body_items.
  change frac_calls with ((CFrac :: (CBegin :: ([CSym a_sym] ++ [CSym plus_sym] ++ (CSym b_sym :: [CSup; CSym a_sym]) ++ []) ++ [CEnd]) ++ [CSym a_sym]) ++
     ((CSym b_sym :: [CSub; CSym b_sym]) ++ [])).
  constructor; [|constructor; [apply item_sym; [discriminate|constructor]|constructor]].
  apply item_frac; [|apply argument_sym].
  apply argument_group, body_items.
  constructor; [apply one; discriminate|]. constructor; [apply one; discriminate|].
  constructor; [|constructor]. apply item_sym; [discriminate|]. constructor. constructor.
Qed.
(* {a \over b}: list 0 has an atom with list 1, list 1 the fraction of lists 2 and 3 *)
Definition store (l : list call) : result (list (list hnode)) :=
  do m <- calls l mp_init; Ok (map (mp_heap m) (seq 0 (mp_next m))).
Definition h_atom (s : sym) : hnode := HAtom (s_class s) (Some (RSym s)) None None.
Example C46_case_over :
  store [CBegin; CSym a_sym; COver; CSym b_sym; CEnd; CFinish] =
  Ok [[HAtom Ord (Some (RList 1)) None None]; [HFrac 2 3]; [h_atom a_sym]; [h_atom b_sym]].
Proof. vm_compute. reflexivity. Qed.
(* \frac{a\over b}a: the brace ends the inner fraction only *)
Theorem C46_frac_over_refuted :
  calls [CFrac; CBegin; CSym a_sym; COver; CSym b_sym; CEnd; CSym a_sym; CFinish] mp_init = Throw.
Proof. reflexivity. Qed.
(* \left( a\over b \right) is refused *)
Theorem C46_left_over_refuted : forall l r,
  calls [CLeft; CSym l; CSym a_sym; COver; CSym b_sym; CRight; CSym r; CFinish] mp_init = Throw.
Proof. reflexivity. Qed.
(* \matrix{^a} is refused: a cell cannot begin with a superscript *)
Theorem C46_cell_script_refuted : calls [CMatrix; CBegin; CSup; CSym a_sym; CEnd; CFinish] mp_init = Throw.
Proof. reflexivity. Qed.

(** C47: whatever the calls, no assertion fails, and undefined behaviour comes
    only from a symbol or a brace where an argument is awaited. *)
Theorem C47_only_arguments : forall l k m, calls l mp_init = Ok m ->
  do_call m k <> Abort /\ do_call m k <> Fuel /\
  (do_call m k = UB -> waiting m = true /\ (k = CBegin \/ exists s, k = CSym s)).
Proof. exact parser_stacks. Qed.
(** C47: without commands where an argument is awaited, the parser throws or
    continues. Missing: the other sequences, see C47_refuted. *)
Theorem C47_careful_partial : forall l, careful l mp_init ->
  (exists m, calls l mp_init = Ok m) \/ calls l mp_init = Throw.
Proof. exact parser_safe. Qed.
(* \frac\textstyle a: the last node is not the fraction *)
Theorem C47_refuted : calls [CFrac; CTextstyle; CSym a_sym] mp_init = UB.
Proof. reflexivity. Qed.
Example C47_case :
  careful [CFrac; CSym a_sym; CBegin; CSqrt; CSym (mkSym 91 4 0); CSym a_sym; CSym (mkSym 93 5 0); CSym b_sym; CEnd; CEnd] mp_init /\
  calls [CFrac; CSym a_sym; CBegin; CSqrt; CSym (mkSym 91 4 0); CSym a_sym; CSym (mkSym 93 5 0); CSym b_sym; CEnd; CEnd] mp_init = Throw /\
  ~ careful [CFrac; CTextstyle; CSym a_sym] mp_init.
Proof. cbn. repeat split; auto. intros [_ [H _]]. discriminate (H eq_refl). Qed.

(** C48: a braced subscript always becomes the superscript *)
Theorem C48_refuted : forall x g ts, group g ts ->
  exists m, calls (CSym x :: CSub :: CBegin :: g ++ [CEnd; CFinish]) mp_init = Ok m /\
    output_is m [TAtom (s_class x) (Sym x) (Formula ts) Nothing].
Proof. exact braced_subscript. Qed.
(* a^b_{+}: the superscript b is lost *)
Example C48_case :
  store [CSym a_sym; CSup; CSym b_sym; CSub; CBegin; CSym plus_sym; CEnd; CFinish] =
  Ok [[HAtom Ord (Some (RSym a_sym)) (Some (RList 1)) None]; [h_atom plus_sym]].
Proof. vm_compute. reflexivity. Qed.

(** C49 *)
Theorem C49_matrix : forall e rows, table e rows ->
  exists m cells cols, calls (CMatrix :: CBegin :: e ++ [CEnd; CFinish]) mp_init = Ok m /\
    output_is m [TMatrix cells cols] /\
    (forall r, In r rows -> length r <= cols) /\ (exists r, In r rows /\ length r = cols) /\ 0 < cols /\
    length cells = length rows * cols /\ mat_rows cells cols = length rows /\
    (forall r c, r < length rows -> c < cols -> mat_at cells cols r c = Ok (cell rows r c)) /\
    (forall r c, length rows <= r -> mat_at cells cols r c = Throw).
Proof. exact matrix_parsed. Qed.
(* a & b \cr + \cr : three rows, the last of them empty *)
Example C49_case :
  table [CSym a_sym; CTab; CSym b_sym; CCr; CSym plus_sym; CCr] [[[atom a_sym]; [atom b_sym]]; [[atom plus_sym]]; [[]]].
Proof.
  change [CSym a_sym; CTab; CSym b_sym; CCr; CSym plus_sym; CCr]
    with ((([CSym a_sym] ++ []) ++ CTab :: ([CSym b_sym] ++ [])) ++ CCr :: (([CSym plus_sym] ++ []) ++ CCr :: [])).
  repeat first [apply table_rows | apply table_row | apply row_cells | apply row_cell].
  - constructor; [apply one; discriminate|constructor].
  - constructor; [apply one; discriminate|constructor].
  - constructor; [apply one; discriminate|constructor].
  - constructor.
Qed.

Print Assumptions C44_fields.
Print Assumptions C44_order.
Print Assumptions C44_nesting.
Print Assumptions C44_ids.
Print Assumptions C45_parts.
Print Assumptions C45_unique.
Print Assumptions C45_default.
Print Assumptions C45_plain.
Print Assumptions C45_others.
Print Assumptions C45_family.
Print Assumptions C46_formula_partial.
Print Assumptions C46_unique.
Print Assumptions C46_frac_over_refuted.
Print Assumptions C46_left_over_refuted.
Print Assumptions C46_cell_script_refuted.
Print Assumptions C47_only_arguments.
Print Assumptions C47_careful_partial.
Print Assumptions C47_refuted.
Print Assumptions C48_refuted.
Print Assumptions C49_matrix.
