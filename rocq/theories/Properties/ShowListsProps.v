(** C55: showlists. *)
From Coq Require Import List String ZArith Bool QArith Qcanon.
From Verif.Base Require Import Result Num.
From Verif.Model Require Import Glue Box ShowLists.
From Verif.Spec Require Import ShowListsSpec.
From Verif.Proofs Require Import ShowListsProofs.
Import ListNotations.
Local Open Scope Z_scope.
Local Open Scope list_scope.

(** C55: the text is the outline of the list, one line after the other, and the
    prefix is empty again at the end. Every list whose characters are code points
    and whose matrices have a column has an outline. *)
Theorem C55_outline :
  forall (N : Num) (fmt : N -> list Z) (l : list (snode N)),
    (forall ls, outlines fmt [] l ls ->
       showlists_state fmt l = Ok (mkS [] (joined (without_empty_start (map rendered ls))))) /\
    (sounds l -> exists ls, outlines fmt [] l ls).
Proof. exact (fun N fmt l => conj (showlists_text fmt l) (fun H => outlines_exist fmt l H [])). Qed.

(** C55: the lines of the text are those of the outline, if no character is a
    newline and the first line is not empty. What is missing is false: see
    [C55_refuted], [C55_newline_refuted]. *)
Theorem C55_lines_partial :
  forall (N : Num) (fmt : N -> list Z), (forall x, ~ In 10 (fmt x)) ->
  forall (l : list (snode N)) (ls : list line) (x : line) (r : list line),
    outlines fmt [] l ls -> plains l -> ls = x :: r -> rendered x <> [] ->
    exists t, showlists fmt l = Ok t /\ text_lines t = map rendered ls.
Proof. exact (fun N fmt H l ls x r => showlists_lines fmt H l ls x r). Qed.

(** False in general: an operator has no name, so at the beginning of the text
    it has no line at all: two nodes, one line. *)
Theorem C55_refuted :
  exists (l : list (snode QcNum)) (ls : list line) (t : list Z),
    sounds l /\ plains l /\ outlines (fun _ => []) [] l ls /\
    showlists (fun _ => []) l = Ok t /\ List.length ls = 2%nat /\ List.length (text_lines t) = 1%nat.
Proof.
  exists [SAtom 1 (Some (SSym 1 120)) None None].
  exists [([], []); (bytes_of ".", bytes_of "\fam1 x")]. exists (bytes_of ".\fam1 x").
  split; [simpl; repeat split; discriminate|].
  split; [simpl; repeat split; discriminate|].
  split; [|repeat split; reflexivity].
  apply (os_cons _ [] _ [] [([], []); (bytes_of ".", bytes_of "\fam1 x")] []); [|constructor].
  apply (o_atom _ [] 1 (Some (SSym 1 120)) None None [] [(bytes_of ".", bytes_of "\fam1 x")] [] []).
  - apply ct_none. simpl; auto.
  - apply of_some. apply (o_sym _ (bytes_of ".") 1 120 (bytes_of "x")). right. split; [discriminate|].
    apply UnicodeSpec.utf8_1. split; [discriminate|reflexivity].
  - constructor.
  - constructor.
Qed.

(** A newline character breaks its line. *)
Theorem C55_newline_refuted :
  exists (l : list (snode QcNum)) (ls : list line) (t : list Z),
    sounds l /\ outlines (fun _ => []) [] l ls /\
    showlists (fun _ => []) l = Ok t /\ List.length ls = 1%nat /\ List.length (text_lines t) = 2%nat.
Proof.
  exists [SChar 10]. exists [([], [10])]. exists [10].
  split; [simpl; repeat split; discriminate|].
  split; [|repeat split; reflexivity].
  apply (os_cons _ [] _ [] [([], [10])] []); [|constructor].
  apply o_char. right. split; [discriminate|]. apply UnicodeSpec.utf8_1. split; [discriminate|reflexivity].
Qed.

(** A matrix without columns is undefined behaviour: a division by zero. *)
Theorem C55_no_columns_refuted :
  forall (N : Num) (fmt : N -> list Z) (cells : list (list (snode N))) (s : sstate),
    write fmt (SMatrix cells 0) s = UB.
Proof. exact (fun N fmt cells s => eq_refl). Qed.

(** A fraction over a power, a box and a matrix of two columns. *)
Definition zero (x : QcNum) : list Z := bytes_of "0.0".
Definition ord (c : Z) (sup sub : option (snode QcNum)) : snode QcNum := SAtom 0 (Some (SSym 1 c)) sup sub.
Definition shown : list (snode QcNum) :=
  [SFrac [ord 97 None None; SAtom 2 (Some (SSym 0 43)) None None]
         [ord 98 (Some (SList [ord 99 None None; SKern (N := QcNum) 0%Qc])) (Some (SSym 0 50))];
   SHBox (N := QcNum) (mkMetrics (N := QcNum) 0%Qc 0%Qc 0%Qc) 1%Qc [SChar 65; SGlue (mkGlue (N := QcNum) 0%Qc 1%Qc 1%Qc Normal Fil)];
   SMatrix [[ord 97 None None]; []; [SAlien]; [SBox (mkMetrics (N := QcNum) 0%Qc 0%Qc 0%Qc)]; [SAlien]] 2].
Definition shown_text : list string := [
  "\fraction, thickness = default";
  "\\mathord";
  "\.\fam1 a";
  "\\mathbin";
  "\.\fam0 +";
  "/\mathord";
  "/.\fam1 b";
  "/^\mathord";
  "/^.\fam1 c";
  "/^\kern 0.0";
  "/_\fam0 2";
  "\hbox(0.0+0.0)x0.0, glue set 0.0";
  ".A";
  ".\glue 0.0 0.0fil 0.0";
  "\matrix 2cols";
  ".\mathord";
  "..\fam1 a";
  ".&";
  ".cr";
  ".\alien";
  ".&";
  ".(0.0+0.0)x0.0";
  ".cr"]%string.
Example shown_ex : showlists zero shown = Ok (joined (map bytes_of shown_text)) /\ sounds shown /\ plains shown.
Proof.
  split; [vm_compute; reflexivity|].
  split; simpl; repeat split; try discriminate; try exact I; auto with arith.
Qed.

Print Assumptions C55_outline.
Print Assumptions C55_lines_partial.
Print Assumptions C55_refuted.
Print Assumptions C55_newline_refuted.
Print Assumptions C55_no_columns_refuted.
