(** C85: the symbols of plain TeX. *)
From Coq Require Import List Ascii String ZArith Bool.
From Verif.Base Require Import Result.
From Verif.Model Require Import Token Lexer MathList MathParser MathFrontend.
From Verif.Spec Require Import SymbolSpec.
From Verif.Proofs Require Import SymbolProofs.
Import ListNotations.
Local Open Scope Z_scope.

(** Every symbol of plain TeX that is known has the class and the family of
    plain TeX; it has its character unless it is one of 18. *)
Theorem C85_meaning_partial : forall k code, In (k, code) plain_codes ->
  ~ In k ["heartsuit"; "intop"; "ointop"; "smallint"; "nearrow"; "searrow"; "nwarrow"; "swarrow"; "Leftrightarrow";
   "Leftarrow"; "Rightarrow"; "not"; "leftrightarrow"; "leftarrow"; "rightarrow"; "mapstochar";
   "leftharpoonup"; "leftharpoondown"; "rightharpoonup"; "rightharpoondown"]%string ->
  exists x, cs_call (list_ascii_of_string k) = Ok (CSym x) /\
    s_class x = (if code / 4096 =? 7 then 0 else code / 4096) /\ s_fam x = code / 256 mod 16 /\
    (In (k, s_char x) unicode_symbols <->
     ~ In k ["sum"; "prod"; "bigcap"; "bigcup"; "bigsqcup"; "bigvee"; "bigwedge"; "bigodot"; "bigotimes"; "bigoplus"; "biguplus";
             "cdot"; "circ"; "bullet"; "triangleleft"; "amalg"; "sqsupseteq"; "ni"]%string).
Proof. exact symbol_meaning. Qed.
(** Different names give different symbols, except for three pairs. *)
Theorem C85_distinct_partial : forall a b x,
  cs_call (list_ascii_of_string a) = Ok (CSym x) -> cs_call (list_ascii_of_string b) = Ok (CSym x) -> a = b \/
  existsb (fun p => (String.eqb (fst p) a && String.eqb (snd p) b) || (String.eqb (fst p) b && String.eqb (snd p) a))
    [("cdot", "odot"); ("circ", "bigcirc"); ("sqsubseteq", "sqsupseteq")]%string = true.
Proof. exact symbols_distinct. Qed.
Theorem C85_refuted :
  In ("cdot", 0x2201)%string plain_codes /\
  (exists x, cs_call (list_ascii_of_string "cdot") = Ok (CSym x) /\ cs_call (list_ascii_of_string "odot") = Ok (CSym x) /\
     ~ In ("cdot"%string, s_char x) unicode_symbols /\ In ("odot"%string, s_char x) unicode_symbols) /\
  In ("rightarrow", 0x3221)%string plain_codes /\ cs_call (list_ascii_of_string "rightarrow") = Throw.
Proof.
  split; [vm_compute; tauto|]. split.
  - exists (mkSym 8857 2 2). split; [reflexivity|]. split; [reflexivity|].
    rewrite <- !inb_In. split; [vm_compute; discriminate|vm_compute; reflexivity].
  - split; [vm_compute; tauto|reflexivity].
Qed.
Theorem C85_unknown : forall n,
  (forall k, In k (List.map fst symbolsmap ++ List.map fst csmap) -> n <> list_ascii_of_string k) -> cs_call n = Throw.
Proof. exact unknown_throws. Qed.
Example symbols_ex :
  cs_call (list_ascii_of_string "alpha") = Ok (CSym (mkSym 945 0 1)) /\
  cs_call (list_ascii_of_string "Gamma") = Ok (CSym (mkSym 915 0 0)) /\
  cs_call (list_ascii_of_string "leq") = Ok (CSym (mkSym 8804 3 2)) /\
  cs_call (list_ascii_of_string "frac") = Ok CFrac /\
  cs_call (list_ascii_of_string "begin") = Throw /\
  List.length plain_codes = 157%nat /\ List.length symbolsmap = 137%nat.
Proof. repeat split. Qed.

Print Assumptions C85_meaning_partial.
Print Assumptions C85_distinct_partial.
Print Assumptions C85_refuted.
Print Assumptions C85_unknown.
