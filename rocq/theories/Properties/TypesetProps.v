(** C50-C54, C66-C75: the math typesetter. *)
From Coq Require Import List ZArith QArith Qcanon Bool Arith.
From Verif.Base Require Import Result Num.
From Verif.Model Require Import Glue Box MathList MathTypeset.
From Verif.Spec Require Import BoxSpec MathSpec TypesetSpec GeometrySpec.
From Verif.Proofs Require Import TypesetEmit TypesetTotal TypesetMono TypesetTypes TypesetBoxes TypesetGeometry
  TypesetAlone TypesetCorollaries.
Import ListNotations.
Local Open Scope nat_scope.

(** * An engine for the examples, in single precision *)
Definition f (z : Z) : F32 := nz z.
Definition ex_params (fam : Z) (z : fsize) : fparams F32 :=
  let u := match z with TextFont => f 10 | ScriptFont => f 7 | SSFont => f 5 end in
  let k q := nmul u (nlit q) in
  mkFP (k (43 # 100)) (nmul u (f 18)) (k (68 # 100)) (k (39 # 100)) (k (69 # 100)) (k (35 # 100))
       (k (41 # 100)) (k (36 # 100)) (k (29 # 100)) (k (15 # 100)) (k (25 # 100)) (k (39 # 100)) (k (5 # 100))
       (k (25 # 100)) (k (4 # 100)) (k (11 # 100)) (k (17 # 100)) (k (20 # 100)) (k (60 # 100)) (k (10 # 100)).
Definition ex_metrics (y : sym) (fam : Z) (z : fsize) : metrics F32 :=
  let u := match z with TextFont => f 8 | ScriptFont => f 6 | SSFont => f 4 end in mkMetrics u (f 2) u.
Definition ex_engine : engine F32 :=
  mkEngine ex_params ex_metrics (fun _ _ _ => f 0)
    (fun y fam z => NChar (s_char y) (ex_metrics y fam z))
    (fun y h => NBox (mkMetrics h (f 0) (f 3))) (fun h => NBox (mkMetrics h (f 0) (f 5)))
    (fun y => NBox (mkMetrics (f 14) (f 0) (f 12))).
Definition symb (t : Z) (c : Z) : sym := mkSym c t 0.
Definition at_ (t c : Z) : mnode F32 := MAtom (mkAtom t (Some (FSym (symb t c))) None None None NoLimits).
Definition scripts (t c : Z) (sb sp : option (mfield F32)) : mnode F32 :=
  MAtom (mkAtom t (Some (FSym (symb t c))) sb sp None NoLimits).
Definition run (s : style) (l : list (mnode F32)) := mlist2hlist ex_engine 20 default_penalties s l.
Definition letter (s : style) (c : Z) : node F32 := NChar c (ex_metrics (symb 0 c) 0 (fsize_of s)).

(** the horizontal list; the empty list if there is none *)
Definition list_of (r : result (list (node F32) * list (mnode F32))) : list (node F32) :=
  match r with Ok (out, _) => out | _ => [] end.
Ltac same := match goal with |- _ = ?r => vm_cast_no_check (eq_refl r) end.
Ltac shape := match goal with |- match ?e with _ => _ end => let v := eval vm_compute in e in replace e with v by same; repeat split; reflexivity end.
Definition succeeds {A} (r : result A) : bool := match r with Ok _ => true | _ => false end.

(** C50, C51, C52, C75: the horizontal list of a formula. The classes of the
    atoms are [classes (delimited (expected s l))]; the spaces between them those
    of TeX's table for the style [s] of the formula; each box is that of its node
    typeset alone in the style at its place. *)
Theorem C50_layout : forall (N : Num) (E : engine N) n p s l out l', mlist2hlist E n p s l = Ok (out, l') ->
  exists inner boxes,
    Forall2 (fun q b => exists x, mlist2hlist E n p (fst q) [snd q] = Ok ([b], x)) (parts s l) inner /\
    all_boxes E (end_style s l) (expected s l) inner boxes /\
    length boxes = length (classes (delimited (expected s l))) /\
    out = render E Op p s None (delimited (expected s l)) boxes.
Proof. exact @typeset_boxes. Qed.
(** C50: the table, for any two classes *)
Theorem C50_table : forall (N : Num) (E : engine N) s t u, type_ok t -> type_ok u ->
  insertSpace E s t u = Ok (tex_space E s t u).
Proof. exact @space_table. Qed.
(* a=b+c, as x = y: two thick spaces, two medium ones *)
Definition eq_formula : list (mnode F32) := [at_ 0 97; at_ 3 61; at_ 0 98; at_ 2 43; at_ 0 99].
Example C50_case :
  list_of (run T eq_formula) =
    [letter T 97; NGlue (muskip ex_engine T 5 0 5); letter T 61; NPenalty 500;
     NGlue (muskip ex_engine T 5 0 5); letter T 98; NGlue (muskip ex_engine T 4 4 2); letter T 43;
     NGlue (muskip ex_engine T 4 4 2); letter T 99] /\
  expected T eq_formula = [SAtom 0; SAtom 3; SAtom 0; SAtom 2; SAtom 0]%Z.
Proof. split; [same|reflexivity]. Qed.
(* a \scriptstyle = b: the spaces are those of text style *)
Theorem C50_refuted :
  list_of (run T [at_ 0 97; MStyle MathList.S; at_ 3 61; at_ 0 98]) =
        [letter T 97; NGlue (muskip ex_engine T 5 0 5); letter MathList.S 61; NPenalty 500;
         NGlue (muskip ex_engine T 5 0 5); letter MathList.S 98] /\
  tex_space ex_engine MathList.S Ord Rel = [].
Proof. split; [same|reflexivity]. Qed.

(** C51: the final class of every atom: a binary operator becomes ordinary when
    the next atom (not counting fractions and delimiters) is a relation, a closing
    or a punctuation; otherwise never. *)
Theorem C51_after_partial : forall (N : Num) (l : list (mnode N)) s i u,
  forallb no_fraction l = true ->
  nth_error (classes (expected s l)) i = Some Bin -> nth_error (classes (expected s l)) (Datatypes.S i) = Some u ->
  ~ In u [Rel; Close; Punct].
Proof.
  intros N l s i u Hf H1 H2. pose proof (bin_not_before_closing l s i u Hf H1 H2) as H.
  intros [<-|[<-|[<-|[]]]]; discriminate H.
Qed.
Theorem C51_class : forall (N : Num) (E : engine N) n p s l out l', mlist2hlist E n p s l = Ok (out, l') ->
  exists boxes, length boxes = length (classes (delimited (expected s l))) /\
    out = render E Op p s None (delimited (expected s l)) boxes.
Proof. exact @typeset_layout. Qed.
(* +=a: the + becomes ordinary *)
Example C51_case : expected (N := F32) T [at_ 2 43; at_ 3 61; at_ 0 97] = [SAtom 0; SAtom 3; SAtom 0]%Z /\
  succeeds (run T [at_ 2 43; at_ 3 61; at_ 0 97]) = true /\
  forallb no_fraction [at_ 2 43; at_ 3 61; at_ 0 97] = true.
Proof. split; [reflexivity|]. split; [same|reflexivity]. Qed.
(* +a, a+ and =+a: a binary operator at the beginning, at the end and after a relation *)
Theorem C51_refuted :
  list_of (run T [at_ 2 43; at_ 0 97]) = [letter T 43; NGlue (muskip ex_engine T 4 4 2); letter T 97] /\
  ~ bins_between (classes (expected T [at_ 2 43; at_ 0 97])) /\
  ~ bins_between (classes (expected T [at_ 0 97; at_ 2 43])) /\
  ~ bins_between (classes (expected T [at_ 3 61; at_ 2 43; at_ 0 97])).
Proof.
  split; [same|]. split; [|split].
  - intros H. destruct (H 0 eq_refl) as [(j & t & Hj & _) _]. discriminate.
  - intros H. destruct (H 1 eq_refl) as [_ (u & Hu & _)]. discriminate.
  - intros H. destruct (H 1 eq_refl) as [(j & t & Hj & Ht & Hn) _]. injection Hj as <-. injection Ht as <-.
    apply Hn. cbn. tauto.
Qed.
(* a+\frac ab=b: the + loses its class although the fraction follows it *)
Theorem C51_fraction_refuted :
  expected T [at_ 0 97; at_ 2 43; MFrac [at_ 0 97] [at_ 0 98]; at_ 3 61; at_ 0 98] =
    [SAtom 0; SAtom 0; SAtom 7; SAtom 3; SAtom 0]%Z /\
  succeeds (run T [at_ 0 97; at_ 2 43; MFrac [at_ 0 97] [at_ 0 98]; at_ 3 61; at_ 0 98]) = true.
Proof. split; [reflexivity|same]. Qed.

(** C52: penalties as TeX's in formulas without operators; in all formulas see
    [C50_layout]: [binoppenalty] after large operators instead of binary ones. *)
Theorem C52_no_operator_partial : forall (N : Num) (E : engine N) n p s l out l', mlist2hlist E n p s l = Ok (out, l') ->
  ~ In Op (classes (delimited (expected s l))) -> ~ In Bin (classes (delimited (expected s l))) ->
  exists boxes, length boxes = length (classes (delimited (expected s l))) /\
    out = render E Bin p s None (delimited (expected s l)) boxes.
Proof. exact @penalties_without_bin. Qed.
Example C52_case : list_of (run T [at_ 0 97; at_ 3 61; at_ 0 98]) =
  [letter T 97; NGlue (muskip ex_engine T 5 0 5); letter T 61; NPenalty 500; NGlue (muskip ex_engine T 5 0 5); letter T 98] /\
  classes (delimited (expected T [at_ 0 97; at_ 3 61; at_ 0 98])) = [0; 3; 0]%Z.
Proof. split; [same|reflexivity]. Qed.
(* a+b: no penalty after +; \sum b: a penalty after the sum *)
Theorem C52_refuted :
  list_of (run T [at_ 0 97; at_ 2 43; at_ 0 98]) =
    [letter T 97; NGlue (muskip ex_engine T 4 4 2); letter T 43; NGlue (muskip ex_engine T 4 4 2); letter T 98] /\
  list_of (run T [at_ 1 80; at_ 0 98]) =
    [letter T 80; NPenalty 700; NGlue (muskip ex_engine T 3 0 0); letter T 98].
Proof. split; same. Qed.

(** C53: on a list of nodes that may stand in a math list (no boxes outside of
    atoms), whatever they hold, the typesetter stops *)
Theorem C53_terminates_partial : forall (N : Num) (E : engine N) n p s l,
  list_size l < n -> math_list l = true -> mlist2hlist E n p s l <> Fuel.
Proof. exact @typeset_terminates. Qed.
Theorem C53_fuel : forall (N : Num) (E : engine N) n m p s l r, n <= m -> r <> Fuel ->
  mlist2hlist E n p s l = r -> mlist2hlist E m p s l = r.
Proof. exact @typeset_mono. Qed.
(** a box in the list: the loop never ends *)
Theorem C53_refuted : forall (N : Num) (E : engine N) e l p s, stays e -> forall n, mlist2hlist E n p s (e :: l) = Fuel.
Proof. exact @typeset_diverges. Qed.
Theorem C53_stuck_refuted : forall (N : Num) (E : engine N) l p s, Exists stays l -> forall n r, mlist2hlist E n p s l <> Ok r.
Proof. exact @typeset_stuck. Qed.
Example C53_case :
  math_list [at_ 0 97; MRoot [at_ 0 98] [scripts 0 99 None (Some (FList [at_ 0 97]))]; MNode (NKern (f 1))] = true /\
  list_size [at_ 0 97; MRoot [at_ 0 98] [scripts 0 99 None (Some (FList [at_ 0 97]))]; MNode (NKern (f 1))] = 7 /\
  stays (MNode (letter T 97)).
Proof. repeat split. Qed.

(** C54: with two scripts, the box does not depend on the subscript *)
Theorem C54_refuted : forall (N : Num) (E : engine N) n p s nu sp sb sb' ac li,
  rmap fst (mlist2hlist E n p s [MAtom (mkAtom Ord nu (Some sb) (Some sp) ac li)]) =
  rmap fst (mlist2hlist E n p s [MAtom (mkAtom Ord nu (Some sb') (Some sp) ac li)]).
Proof. exact @two_scripts_output. Qed.
(* a_b^c: the c is above another c *)
Fixpoint letters (n : node F32) : list Z :=
  match n with NChar c _ => [c] | NList _ _ _ _ _ l => flat_map letters l | _ => [] end.
Example C54_case :
  flat_map letters (list_of (run T [scripts 0 97 (Some (FList [at_ 0 98])) (Some (FList [at_ 0 99]))])) = [97; 99; 99]%Z.
Proof. same. Qed.

(** C54: one script is placed by rule 18 *)
Theorem C54_super : forall (E : engine QcNum) n p s t g sp ac li out x, simple_class t = true ->
  mlist2hlist E n p s [atom_with t g None (Some sp) ac li] = Ok (out, x) ->
  exists nuc u, field_box E s g nuc /\ field_box E (sup_style s) sp u /\
    (is_box u -> exists v w up, out = [hnode (hbox [nuc; w])] /\
       spaced u (half * f_rule (extension E s))%Qc v /\ shifted v (- up)%Qc w /\
       let sg := symbols E s in
       greatest [ if isCharacterBox nuc then 0 else hgt nuc - f_supDrop (symbols E (sup_style s));
                  if cramped s then f_sup3 sg else if in_display s then f_sup1 sg else f_sup2 sg;
                  dep w + four_fifths * absolute (f_xHeight sg) ]%Qc up).
Proof. exact super_alone. Qed.
Theorem C54_sub : forall (E : engine QcNum) n p s t g sb ac li out x, simple_class t = true ->
  mlist2hlist E n p s [atom_with t g (Some sb) None ac li] = Ok (out, x) ->
  exists nuc u, field_box E s g nuc /\ field_box E (sub_style s) sb u /\
    (is_box u -> exists v w down, out = [hnode (hbox [nuc; w])] /\
       spaced u (half * f_rule (extension E s))%Qc v /\ shifted v down w /\
       let sg := symbols E s in
       greatest [ if isCharacterBox nuc then 0 else dep nuc + f_subDrop (symbols E (sub_style s));
                  f_sub1 sg;
                  hgt w - four_fifths * absolute (f_xHeight sg) ]%Qc down).
Proof. exact sub_alone. Qed.
(* a^b: b is raised *)
Example C54_super_case :
  match list_of (run T [scripts 0 97 None (Some (FSym (symb 0 98)))]) with
  | [NList Horizontal _ _ _ _ [a; NList Horizontal _ sh _ _ [b; NKern _]]] => letters a ++ letters b = [97; 98]%Z /\ nltb sh (f 0) = true
  | _ => False
  end.
Proof. shape. Qed.

(** C66 *)
Theorem C66_fraction : forall (E : engine QcNum) n p s y z out x, mlist2hlist E n p s [MFrac y z] = Ok (out, x) ->
  exists u v b, out = [vnode b] /\ formula_box E (num_style s) y u /\ formula_box E (den_style s) z v /\
    let theta := f_rule (extension E s) in
    fraction (f_axis (symbols E s)) theta
      (if in_display s then f_num1 (symbols E s) else f_num2 (symbols E s))
      (if in_display s then f_denom1 (symbols E s) else f_denom2 (symbols E s))
      (if in_display s then int 3 * theta else theta)%Qc u v b.
Proof. exact frac_alone. Qed.
Example C66_case :
  match list_of (run D [MFrac [at_ 0 97; at_ 0 98] [at_ 0 99]]) with
  | [NList Vertical _ _ _ _ [x; NKern _; NRule _; NKern _; z]] => letters x = [97; 98]%Z /\ letters z = [99]%Z
  | _ => False
  end.
Proof. shape. Qed.

(** C67 *)
Theorem C67_over : forall (E : engine QcNum) n p s g sb sp ac li out x,
  mlist2hlist E n p s [atom_with Over g sb sp ac li] = Ok (out, x) ->
  exists u b, field_box E (low_style s) g u /\ (is_box u -> overlined (f_rule (extension E s)) u b) /\
    mlist2hlist E n p s [atom_with Ord (FBox (vnode b)) sb sp ac li] = Ok (out, x).
Proof. exact over_alone. Qed.
Theorem C67_under : forall (E : engine QcNum) n p s g sb sp ac li out x,
  mlist2hlist E n p s [atom_with Under g sb sp ac li] = Ok (out, x) ->
  exists u b, field_box E (low_style s) g u /\ (is_box u -> underlined (f_rule (extension E s)) u b) /\
    mlist2hlist E n p s [atom_with Ord (FBox (vnode b)) sb sp ac li] = Ok (out, x).
Proof. exact under_alone. Qed.
Theorem C67_nucleus : forall (E : engine QcNum) n p s t g ac li out x, simple_class t = true ->
  mlist2hlist E n p s [atom_with t g None None ac li] = Ok (out, x) -> exists u, field_box E s g u /\ out = [u].
Proof. exact nucleus_alone. Qed.
Example C67_case :
  match list_of (run T [at_ Over 97]), list_of (run T [at_ Under 97]) with
  | [NList Vertical _ _ _ _ [NKern _; NRule _; NKern _; x]], [NList Vertical _ _ _ _ [y; NKern _; NRule _]] =>
      letters x = [97]%Z /\ letters y = [97]%Z
  | _, _ => False
  end.
Proof. shape. Qed.

(** C68 *)
Theorem C68_centred : forall (E : engine QcNum) n p s g sb sp ac li out x,
  mlist2hlist E n p s [atom_with Vcent g sb sp ac li] = Ok (out, x) ->
  exists u b, field_box E s g u /\
    on_axis (f_axis (symbols E s)) (b_metrics b) 0%Qc /\
    (is_box u -> m_height (b_metrics b) + m_depth (b_metrics b) = hgt u + dep u)%Qc /\
    match u with NList Vertical _ _ _ _ l => b_list b = l | _ => b_list b = [u] end /\
    (is_box u -> 0 <= wid u -> m_width (b_metrics b) = wid u)%Qc /\
    mlist2hlist E n p s [atom_with Ord (FBox (vnode b)) sb sp ac li] = Ok (out, x).
Proof. exact vcent_alone. Qed.
Theorem C68_delimiter : forall (E : engine QcNum) s y h b, delimiter E s y h b ->
  exists m sh r o l, b = NList Horizontal m sh r o l /\ on_axis (f_axis (symbols E s)) m sh.
Proof. exact delimiter_on_axis. Qed.
Example C68_case :
  match list_of (run T [MBoundary (Some (symb 4 40)); at_ 0 97; MBoundary None]) with
  | [NList Horizontal m sh _ _ [NBox m']; x; NList Horizontal _ _ _ _ [NList _ _ _ _ _ l]] =>
      letters x = [97]%Z /\ l = [] /\ nltb (f 0) sh = true
  | _ => False
  end.
Proof. shape. Qed.

(** C69 *)
Theorem C69_radical : forall (E : engine QcNum) n p s g sb sp ac li out x,
  mlist2hlist E n p s [atom_with Rad g sb sp ac li] = Ok (out, x) ->
  exists u sign b, field_box E (low_style s) g u /\ (is_box u -> under_radical sign u b) /\
    mlist2hlist E n p s [atom_with Ord (FBox (hnode (hbox [vnode sign; vnode b]))) sb sp ac li] = Ok (out, x).
Proof. exact radical_alone. Qed.
Example C69_case :
  match list_of (run T [at_ Rad 97]) with
  | [NList Horizontal _ _ _ _ [NList Vertical _ sh _ _ [_]; NList Vertical _ _ _ _ [NKern _; NRule _; NKern _; x]]] =>
      letters x = [97]%Z /\ nltb sh (f 0) = true
  | _ => False
  end.
Proof. shape. Qed.

(** C70 *)
Theorem C70_limits : forall (E : engine QcNum) n p s g sb sp ac li out x, limits_in li s = true ->
  mlist2hlist E n p s [atom_with Op g sb sp ac li] = Ok (out, x) ->
  exists top y bottom slant b,
    operator_box E s g y slant /\ script_box E (sup_style s) sp top /\ script_box E (sub_style s) sb bottom /\
    out = [vnode b] /\
    ((forall x, top = Some x -> is_box x) -> is_box y -> (forall x, bottom = Some x -> is_box x) ->
     let xi := extension E s in
     limits_box (f_big1 xi) (f_big3 xi) (f_big2 xi) (f_big4 xi) (f_big5 xi) slant top y bottom b).
Proof. exact limits_alone. Qed.
Example C70_case :
  match list_of (run D [MAtom (mkAtom Op (Some (FSym (symb 1 80)))
    (Some (FList [at_ 0 97])) (Some (FList [at_ 0 98])) None DisplayLimits)]) with
  | [NList Vertical _ _ _ _ [NKern _; x; NKern _; y; NKern _; z; NKern _]] => letters x = [98]%Z /\ letters z = [97]%Z
  | _ => False
  end.
Proof. shape. Qed.

(** C71: the list is changed: typeset again, it gives something else *)
Definition again (r : result (list (node F32) * list (mnode F32))) : result (list (node F32) * list (mnode F32)) :=
  match r with Ok (_, l') => run T l' | _ => UB end.
Theorem C71_refuted : exists l, flat_map letters (list_of (run T l)) = [97; 98]%Z /\
  flat_map letters (list_of (again (run T l))) = [97; 98; 98]%Z.
Proof. exists [scripts 0 97 None (Some (FSym (symb 0 98)))]. split; same. Qed.

(** C72: glue of a formula is not in the list *)
Theorem C72_refuted : forall (N : Num) (E : engine N) n p s g,
  mlist2hlist E (Datatypes.S (Datatypes.S n)) p s [MNode (NGlue g)] = Ok ([], [MNode (NGlue g)]).
Proof. exact @glue_lost. Qed.

(** C73: the delimiters around three letters are larger than around one of them *)
Definition parens (l : list (mnode F32)) : list (mnode F32) :=
  MBoundary (Some (symb 4 40)) :: l ++ [MBoundary (Some (symb 5 41))].
Definition first_height (r : result (list (node F32) * list (mnode F32))) : F32 :=
  match r with Ok (NList _ m _ _ _ _ :: _, _) => m_height m | _ => f 0 end.
Theorem C73_refuted : nltb (first_height (run T (parens [at_ 0 97]))) (first_height (run T (parens [at_ 0 97; at_ 0 97; at_ 0 97]))) = true.
Proof. same. Qed.

(** C74: in the second column, the cell with two letters is wider than the other *)
Definition second_cell (n : node F32) : list F32 :=
  match n with
  | NList Vertical _ _ _ _ l =>
      flat_map (fun r => match r with
                         | NList Horizontal _ _ _ _ [_; NList Horizontal m _ _ _ c] => [m_width m]
                         | _ => [] end) l
  | _ => []
  end.
Theorem C74_refuted :
  flat_map second_cell (list_of (run T [MMatrix [[at_ 0 97]; [at_ 0 98; at_ 0 98]; [at_ 0 97]; [at_ 0 98]] 2])) =
    [f 196; f 188].
Proof. same. Qed.

Print Assumptions C50_layout.
Print Assumptions C50_table.
Print Assumptions C50_refuted.
Print Assumptions C51_after_partial.
Print Assumptions C51_class.
Print Assumptions C51_refuted.
Print Assumptions C51_fraction_refuted.
Print Assumptions C52_no_operator_partial.
Print Assumptions C52_refuted.
Print Assumptions C53_terminates_partial.
Print Assumptions C53_fuel.
Print Assumptions C53_refuted.
Print Assumptions C53_stuck_refuted.
Print Assumptions C54_refuted.
Print Assumptions C54_super.
Print Assumptions C54_sub.
Print Assumptions C66_fraction.
Print Assumptions C67_over.
Print Assumptions C67_under.
Print Assumptions C67_nucleus.
Print Assumptions C68_centred.
Print Assumptions C68_delimiter.
Print Assumptions C69_radical.
Print Assumptions C70_limits.
Print Assumptions C71_refuted.
Print Assumptions C72_refuted.
Print Assumptions C73_refuted.
Print Assumptions C74_refuted.
