(** C107: the font that a specification names. *)
From Coq Require Import List ZArith Bool QArith Qcanon Ascii String Lia.
From Verif.Base Require Import Result Num.
From Verif.Model Require Import Token Box Tfm FontLoad LineBreaks PageEditor.
From Verif.Spec Require Import FontLoadSpec.
From Verif.Proofs Require Import FontLoadProofs FontLoadPage PageFindings.
From Verif.Properties Require Import PageEditorProps.
Import ListNotations.
Local Open Scope string_scope.
Local Open Scope nat_scope.
Local Open Scope list_scope.

(** the parts of the text *)
Theorem C107_parts : forall t l, parts t l <-> split_commas [] t = l.
Proof. exact parts_are. Qed.
(** the font is as the parts say *)
Theorem C107_font : forall (N : Num) to_float to_int (mag : N) spec f, font_of to_float to_int mag spec = Ok f ->
  exists fam opts, parts spec (fam :: opts) /\ q_family f = fam /\ says to_float to_int mag opts f.
Proof. exact (fun N => font_says). Qed.
(** which is no other font *)
Theorem C107_one : forall (N : Num) to_float to_int (mag : N) l f g,
  says to_float to_int mag l f -> says to_float to_int mag l g -> q_family f = q_family g -> f = g.
Proof. exact (fun N => says_one). Qed.
(** there is one unless the behaviour is undefined *)
Theorem C107_total : forall (N : Num) to_float to_int (mag : N) spec,
  font_of to_float to_int mag spec = UB \/ exists f, font_of to_float to_int mag spec = Ok f.
Proof. exact (fun N => font_total). Qed.
Theorem C107_crash : forall (N : Num) to_float to_int (mag : N) spec, font_of to_float to_int mag spec = UB <->
  Forall (fun c => c = ","%char) spec \/ exists fam opts, parts spec (fam :: opts) /\ Exists (too_large to_float to_int mag) opts.
Proof. exact (fun N => font_crash). Qed.
(** the table: the fonts that were there stay, and the new one has the
    parameters of cmr10 *)
Theorem C107_table : forall (N : Num) to_float to_int (line_height : qfont -> N) mag any fonts n spec fonts' id,
  loadFont to_float to_int line_height mag any fonts n spec = Ok (fonts', id) ->
  exists f e, font_of to_float to_int mag spec = Ok f /\ fonts' = fonts ++ [e] /\ id = Z.of_nat (List.length fonts) /\
    f_name e = n /\ f_font e = f /\ forall k, f_dimen e k = nmul (t_dimen (cmr10_tfm any) k) (line_height f).
Proof. exact (fun N => load_table). Qed.

(** In the page editor a specification is written in braces, and the family
    begins with a brace then. *)
Theorem C107_brace_refuted : forall (N : Num) to_float to_int (mag : N) n fam rest p f,
  ~ In "}"%char (fam ++ rest) -> no_comma fam -> rest = [] \/ (exists r, rest = ","%char :: r) ->
  (do p <- fp_write_cs fp_init n; foldM fp_write ("="%char :: "{"%char :: (fam ++ rest) ++ ["}"%char]) p) = Ok p ->
  font_of to_float to_int mag (fp_spec p) = Ok f -> q_family f = "{"%char :: fam /\ q_family f <> fam.
Proof.
  intros N to_float to_int mag n fam rest p f NB NC R H E. rewrite (font_braced n (fam ++ rest) NB) in H. injection H as <-.
  cbn [fp_spec] in E. rewrite (brace_family to_float to_int mag fam rest f NC R E). split; [reflexivity|].
  intros X. apply (f_equal (@List.length ascii)) in X. cbn [List.length] in X. lia.
Qed.
(** An empty specification crashes the page editor, whatever follows. *)
Theorem C107_empty_refuted : forall (N : Num) (K : host N) to_float to_int (mag : N) base,
  (forall l n spec, k_load K l n spec = do f <- font_of to_float to_int mag spec; Ok (base l)) ->
  forall f h s rest n, machine_new K f h = Ok s -> typeset K (22 + n) s (list_ascii_of_string "\font\x=}" ++ rest) = UB.
Proof. exact (fun N => empty_font_crashes). Qed.
(** An option with a blank before it is none. *)
Theorem C107_blank_refuted : forall (N : Num) to_float to_int (mag : N) spec f o g, spec <> [] -> no_comma spec -> no_comma o ->
  to_float (" "%char :: o) = None -> font_of to_float to_int mag spec = Ok f ->
  font_of to_float to_int mag (spec ++ ","%char :: " "%char :: o) = Ok g -> g = f.
Proof.
  intros N to_float to_int mag spec f o g NE NC NO NF. apply no_option; try assumption.
  - intros [X|X]; [discriminate X|exact (NO X)].
  - discriminate.
  - intros [X|[X|X]]; discriminate X.
Qed.

(** * examples: numbers of one digit *)
Definition digit (t : name) : option QcNum :=
  match t with
  | [c] => if (48 <=? N_of_ascii c)%N && (N_of_ascii c <=? 57)%N then Some (Q2Qc (inject_Z (Z.of_N (N_of_ascii c) - 48))) else None
  | _ => None
  end.
Definition whole (x : QcNum) : option Z := let z := Z.quot (Qnum x) (Zpos (Qden x)) in if (z <=? 20)%Z then Some z else None.
Definition shows (t : string) : option (string * bool * qstyle * qsize) :=
  match font_of (N := QcNum) digit whole (Q2Qc (5 # 2)) (list_ascii_of_string t) with
  | Ok f => Some (string_of_list_ascii (q_family f), q_bold f, q_style f, q_size f)
  | _ => None
  end.
Example spec_ex : shows "Times,bold,slanted,3,italic,,5" = Some ("Times", true, StyleItalic, Pixels 12) /\
  shows ",Times,0,x" = Some ("Times", false, StyleNormal, DefaultSize) /\
  shows "Times, bold" = Some ("Times", false, StyleNormal, DefaultSize) /\
  shows "{Times,bold" = Some ("{Times", true, StyleNormal, DefaultSize) /\ shows ",," = None /\ shows "" = None /\ shows "Times,9" = None.
Proof. vm_compute. repeat split. Qed.
Example parts_ex : parts (list_ascii_of_string ",Times,,bold") [list_ascii_of_string "Times"; list_ascii_of_string "bold"].
Proof. apply parts_are. reflexivity. Qed.
Definition load_two : option (nat * Z * Z) :=
  let load := loadFont (N := QcNum) digit whole (fun _ => Q2Qc 12) (Q2Qc 1) (fun _ => Q2Qc 0) in
  match load [] (list_ascii_of_string "a") (list_ascii_of_string "Times,9") with
  | Ok (l, i) => match load l (list_ascii_of_string "b") (list_ascii_of_string "Arial") with
                 | Ok (l', j) => Some (List.length l', i, j) | _ => None end
  | _ => None
  end.
Example table_ex : load_two = Some (2, 0%Z, 1%Z).
Proof. vm_compute. reflexivity. Qed.
(** a host that loads fonts so *)
Definition loading_host : host F32 :=
  mkHost toy_font (fun _ => toy_metrics) (fun _ => fl 10) (fun _ => fl 4) toy_engine
    (fun l _ spec => do f <- font_of (N := F32) (fun _ => None) (fun _ => None) (fl 1) spec; Ok (Z.of_nat (12 + List.length l)))
    (LineBreaks.mkPows (fun _ => 0%Z) (fun _ _ => true)) (fun _ => true) false true 20.
Definition loads_text (t : string) : nat :=
  outcome (do s <- machine_new loading_host 0 (fl 100); typeset loading_host 1000 s (txt t)).
Example empty_ex : map loads_text ["\font\x=}"; "\font\x=,,} a"; "\font\x={Times,bold}\x a"; "\font\x=Times}\x a"] = [2; 2; 0; 0].
Proof. vm_compute. reflexivity. Qed.

Print Assumptions C107_parts.
Print Assumptions C107_font.
Print Assumptions C107_one.
Print Assumptions C107_total.
Print Assumptions C107_crash.
Print Assumptions C107_table.
Print Assumptions C107_brace_refuted.
Print Assumptions C107_empty_refuted.
Print Assumptions C107_blank_refuted.
