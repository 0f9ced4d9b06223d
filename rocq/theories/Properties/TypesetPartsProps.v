(** C54, C69, C71-C74, C86-C89: parts of formulas. *)
From Coq Require Import List ZArith QArith Qcanon Bool Arith.
From Verif.Base Require Import Result Num.
From Verif.Model Require Import Glue Box MathList MathTypeset.
From Verif.Spec Require Import BoxSpec MathSpec TypesetSpec GeometrySpec.
From Verif.Proofs Require Import TypesetEmit TypesetTypes TypesetBoxes TypesetGeometry TypesetAlone TypesetMore
  TypesetAgain TypesetFacts.
From Verif.Properties Require Import TypesetProps.
Import ListNotations.
Local Open Scope nat_scope.

(** C54: with two scripts: the superscript twice, the lower one not where TeX has it,
    [down] below the baseline, but lower by its own height and the depth of the upper one *)
Theorem C54_both : forall (E : engine QcNum) n p s t g sb sp ac li out x,
  simple_class t = true -> (forall b, sp <> FBox b) ->
  mlist2hlist E n p s [atom_with t g (Some sb) (Some sp) ac li] = Ok (out, x) ->
  exists nuc u1 u2, field_box E s g nuc /\ twice E (sup_style s) (sub_style s) sp u1 u2 /\
    (is_box u1 -> is_box u2 -> exists v w b up0 down0 up down,
       let theta := f_rule (extension E s) in
       let sg := symbols E s in
       spaced u1 (half * theta) v /\ spaced u2 (half * theta) w /\
       greatest [ if isCharacterBox nuc then 0 else hgt nuc - f_supDrop (symbols E (sup_style s));
                  if cramped s then f_sup3 sg else if in_display s then f_sup1 sg else f_sup2 sg;
                  dep v + four_fifths * absolute (f_xHeight sg) ] up0 /\
       greatest [ if isCharacterBox nuc then 0 else dep nuc + f_subDrop (symbols E (sub_style s)); f_sub2 sg ] down0 /\
       separated theta (f_xHeight sg) v w up0 down0 up down /\
       out = [hnode (hbox [nuc; vnode b])] /\
       b_list b = [v; kern (up + down); w] /\
       m_height (b_metrics b) = hgt v + up /\ m_depth (b_metrics b) = dep w + down /\
       largest [wid v; wid w] (m_width (b_metrics b)))%Qc.
Proof. exact two_scripts. Qed.
Theorem C54_low : forall (b : lbox QcNum) v w up down, is_box v ->
  b_list b = [v; kern (up + down); w]%Qc -> m_height (b_metrics b) = (hgt v + up)%Qc ->
  baseline b [v; kern (up + down)%Qc] w = (- (down + dep v + hgt w))%Qc.
Proof. exact lower_script. Qed.
Example C54_both_case :
  match list_of (run T [scripts 0 97 (Some (FSym (symb 0 98))) (Some (FSym (symb 0 99)))]) with
  | [NList Horizontal _ _ _ _ [a; NList Vertical _ _ _ _ [b; NKern _; c]]] => letters a ++ letters b ++ letters c = [97; 99; 99]%Z
  | _ => False
  end.
Proof. shape. Qed.

(** C69: how far the bar is from the radicand, and how large the sign is asked to be *)
Theorem C69_clearance : forall (E : engine QcNum) n p s g sb sp ac li out x, (0 <= f_rule (extension E s))%Qc ->
  mlist2hlist E n p s [atom_with Rad g sb sp ac li] = Ok (out, x) ->
  exists u sign b, field_box E (low_style s) g u /\
    (is_box u -> radical_sign E s (clearance E s) sign u b /\ under_radical sign u b) /\
    mlist2hlist E n p s [atom_with Ord (FBox (hnode (hbox [vnode sign; vnode b]))) sb sp ac li] = Ok (out, x).
Proof. exact radical_clearance. Qed.

(** C86: the radicand is centred under a sign that is not too deep, but not under a
    deeper one: the gap is always the smallest one *)
Theorem C86_gap_partial : forall (E : engine QcNum) n p s g sb sp ac li out x, (0 <= f_rule (extension E s))%Qc ->
  mlist2hlist E n p s [atom_with Rad g sb sp ac li] = Ok (out, x) ->
  exists u (sign b : lbox QcNum), field_box E (low_style s) g u /\
    (is_box u -> (m_depth (b_metrics sign) <= hgt u + dep u + clearance E s)%Qc ->
     radical_sign E s (centred_gap (clearance E s) (m_depth (b_metrics sign)) (hgt u + dep u)%Qc) sign u b) /\
    mlist2hlist E n p s [atom_with Ord (FBox (hnode (hbox [vnode sign; vnode b]))) sb sp ac li] = Ok (out, x).
Proof.
  intros E n p s g sb sp ac li out x Hr H. destruct (radical_clearance E n p s g sb sp ac li out x Hr H) as (u & sign & b & H1 & H2 & H3).
  exists u, sign, b. split; [exact H1|]. split; [|exact H3]. intros Hb Hd. rewrite gap_same by exact Hd. apply H2. exact Hb.
Qed.
Theorem C86_refuted : forall (E : engine QcNum) n p s g sb sp ac li out x, (0 <= f_rule (extension E s))%Qc ->
  mlist2hlist E n p s [atom_with Rad g sb sp ac li] = Ok (out, x) ->
  exists u (sign b : lbox QcNum), field_box E (low_style s) g u /\
    (is_box u -> (hgt u + dep u + clearance E s < m_depth (b_metrics sign))%Qc ->
     ~ radical_sign E s (centred_gap (clearance E s) (m_depth (b_metrics sign)) (hgt u + dep u)%Qc) sign u b) /\
    mlist2hlist E n p s [atom_with Ord (FBox (hnode (hbox [vnode sign; vnode b]))) sb sp ac li] = Ok (out, x).
Proof.
  intros E n p s g sb sp ac li out x Hr H. destruct (radical_clearance E n p s g sb sp ac li out x Hr H) as (u & sign & b & H1 & H2 & H3).
  exists u, sign, b. split; [exact H1|]. split; [|exact H3]. intros Hb Hd (_ & _ & Hs & _).
  destruct (H2 Hb) as [(_ & _ & Hs' & _) _]. destruct (gap_apart _ _ _ Hd) as [Hn _]. apply Hn.
  rewrite Hs in Hs'. exact (shift_gap _ _ _ Hs').
Qed.
(* a sign 100 below the bar over a letter of total height 10: the gap is less than 1 *)
Definition deep_engine : engine F32 :=
  mkEngine ex_params ex_metrics (fun _ _ _ => f 0) (e_typeset ex_engine) (e_delimiter ex_engine)
    (fun h => NBox (mkMetrics h (f 100) (f 5))) (e_largeop ex_engine).
Example C86_case :
  match list_of (mlist2hlist deep_engine 20 default_penalties T [at_ Rad 97]) with
  | [NList Horizontal _ _ _ _ [NList Vertical m _ _ _ [_]; NList Vertical _ _ _ _ [NKern _; NRule _; NKern k; _]]] =>
      nltb (f 100) (m_depth m) = true /\ nltb k (f 1) = true
  | _ => False
  end.
Proof. shape. Qed.

(** C87: accents *)
Theorem C87_accent : forall (E : engine QcNum) n p s g sb sp y li out x, (forall q, g <> FSym q) ->
  mlist2hlist E n p s [atom_with Acc g sb sp (Some y) li] = Ok (out, x) ->
  exists u b, field_box E (low_style s) g u /\
    (is_box u -> accented (smaller (hgt u) (f_xHeight (symbols E s))) (wid u) (accent_of E s y) u b) /\
    mlist2hlist E n p s [atom_with Ord (FBox (vnode b)) sb sp (Some y) li] = Ok (out, x).
Proof. exact accent_alone. Qed.
(** over a symbol: the drop is measured from the top of the symbol with its scripts
    and is smaller the higher they are: the bottom of the accent is not at
    [hgt u - drop], as in TeX, but higher by twice what the scripts add *)
Theorem C87_symbol : forall (E : engine QcNum) n p s q sb sp y li out x,
  mlist2hlist E n p s [atom_with Acc (FSym q) sb sp (Some y) li] = Ok (out, x) ->
  exists nuc x' b, let u := accent_of E s q in
    mlist2hlist E n p s [atom_with Ord (FSym q) sb sp (Some y) li] = Ok ([nuc], x') /\ out = [vnode b] /\
    (is_box nuc ->
     accented (smaller (hgt u) (f_xHeight (symbols E s)) - (hgt nuc - hgt u))%Qc (wid u) (accent_of E s y) nuc b).
Proof. exact accent_symbol. Qed.
Definition over_letter (sp : option (mfield F32)) : mnode F32 :=
  MAtom (mkAtom Acc (Some (FSym (symb 0 97))) None sp (Some (symb 0 94)) NoLimits).
(* the height of the bottom of the accent above the baseline *)
Definition accent_bottom (l : list (node F32)) : F32 :=
  match l with
  | [NList Vertical _ _ _ _ [NList _ _ _ _ _ _; NKern k; x]] =>
      match box_metrics x with Some m => nadd (m_height m) k | None => f 0 end
  | _ => f 0
  end.
Theorem C87_refuted :
  letters (hd NOther (list_of (run T [over_letter None]))) = [94; 97]%Z /\
  letters (hd NOther (list_of (run T [over_letter (Some (FSym (symb 0 98)))]))) = [94; 97; 98]%Z /\
  nltb (accent_bottom (list_of (run T [over_letter None])))
       (accent_bottom (list_of (run T [over_letter (Some (FSym (symb 0 98)))]))) = true.
Proof. split; [same|]. split; same. Qed.
Example C87_case :
  match list_of (run T [MAtom (mkAtom Acc (Some (FList [at_ 0 97; at_ 0 98])) None None (Some (symb 0 94)) NoLimits)]) with
  | [NList Vertical _ _ _ _ [a; NKern k; x]] => letters a = [94]%Z /\ letters x = [97; 98]%Z /\ nltb k (f 0) = true
  | _ => False
  end.
Proof. shape. Qed.

(** C88: the degree of a root *)
Theorem C88_root : forall (E : engine QcNum) n p s deg rad out x, (0 <= f_rule (extension E s))%Qc ->
  mlist2hlist E n p s [MRoot deg rad] = Ok (out, x) ->
  exists u v w sign b h d,
    formula_box E (low_style s) rad u /\ formula_box E SS deg v /\
    radical_sign E s (clearance E s) sign u b /\ under_radical sign u b /\
    greatest [m_height (b_metrics sign) - b_shift sign; m_height (b_metrics b)]%Qc h /\
    greatest [m_depth (b_metrics sign) + b_shift sign; m_depth (b_metrics b)]%Qc d /\
    shifted v (- (Q2Qc (6 # 10) * (h - d)))%Qc w /\
    out = [hnode (hbox [w; kern (- m_width (b_metrics sign))%Qc; vnode sign; vnode b])].
Proof. exact root_alone. Qed.
Example C88_case :
  match list_of (run T [MRoot [at_ 0 51] [at_ 0 97]]) with
  | [NList Horizontal _ _ _ _ [d; NKern k; NList Vertical _ _ _ _ [_]; NList Vertical _ _ _ _ [NKern _; NRule _; NKern _; x]]] =>
      letters d = [51]%Z /\ letters x = [97]%Z /\ nltb k (f 0) = true
  | _ => False
  end.
Proof. shape. Qed.

(** C71: without scripts, limits and math glue, the list left by the first run gives the
    same list of boxes again *)
Theorem C71_scriptless_partial : forall (N : Num) (E : engine N) n p s l out l', Forall scriptless l ->
  mlist2hlist E n p s l = Ok (out, l') -> Forall scriptless l' /\ mlist2hlist E n p s l' = Ok (out, l').
Proof. exact @typeset_again. Qed.
(* a+=\frac{b}{c}: the + has become ordinary for good *)
Example C71_case :
  let l := [at_ 0 97; at_ 2 43; at_ 3 61; MFrac [at_ 0 98] [at_ 0 99]] in
  Forall scriptless l /\ flat_map letters (list_of (run T l)) = [97; 43; 61; 98; 99]%Z /\
  flat_map letters (list_of (again (run T l))) = [97; 43; 61; 98; 99]%Z.
Proof.
  split; [|split; same].
  assert (A : forall t c, scriptless (at_ t c)) by (intros t c; constructor; reflexivity).
  repeat first [apply A | constructor].
Qed.

(** C72: kerns, rules and penalties are kept *)
Theorem C72_others_partial : forall (N : Num) (E : engine N) n p s l out l' x, mlist2hlist E n p s l = Ok (out, l') ->
  forallb no_nonscript l = true -> lasting x = true -> In (MNode x) l -> In x out.
Proof. exact @others_kept. Qed.
Example C72_case :
  match list_of (run T [at_ 0 97; MNode (NKern (f 3)); MNode (NPenalty 7); at_ 0 98]) with
  | [_; NKern _; NPenalty z; _] => z = 7%Z
  | _ => False
  end.
Proof. shape. Qed.

(** C89: math glue is converted, in the list that is left *)
Theorem C89_mu : forall (N : Num) (E : engine N) n p s l out l', mlist2hlist E n p s l = Ok (out, l') ->
  map glue_at l' = converted E s l.
Proof. exact @returned_glue. Qed.
(* once more each time *)
Definition first_space (r : result (list (node F32) * list (mnode F32))) : F32 :=
  match r with Ok (_, MGlue _ g :: _) => g_space g | _ => f 0 end.
Theorem C89_again_refuted :
  first_space (run T [MGlue OrMskip (glue_space (f 18))]) = f 180 /\
  first_space (again (run T [MGlue OrMskip (glue_space (f 18))])) = f 1800.
Proof. split; same. Qed.
Example C89_case : converted ex_engine T [MGlue OrMskip (mkGlue (f 18) (f 9) (f 1) Normal Fil); MNode (NGlue (glue_space (f 5)))] =
  [Some (mkGlue (f 180) (f 90) (f 1) Normal Fil); Some (glue_space (f 5))].
Proof. same. Qed.

(** C68: both delimiters stand on the axis of the style at the end of the formula between
    them. After a style change that is not the axis of the formula itself. *)
Theorem C68_delimiters : forall (E : engine QcNum) n p s y r out l',
  mlist2hlist E n p s (MBoundary y :: r) = Ok (out, l') -> expected s r <> [] ->
  exists b mid c, out = b :: mid ++ [c] /\
    (exists m sh ra o l, b = NList Horizontal m sh ra o l /\ on_axis (f_axis (symbols E (end_style s r))) m sh) /\
    (exists m sh ra o l, c = NList Horizontal m sh ra o l /\ on_axis (f_axis (symbols E (end_style s r))) m sh).
Proof. exact delimiters_stand. Qed.
Theorem C68_style_refuted : forall (E : engine QcNum) n p s s' y r out l',
  mlist2hlist E n p s (MBoundary y :: r) = Ok (out, l') -> expected s r <> [] ->
  end_style s r = s' -> f_axis (symbols E s') <> f_axis (symbols E s) ->
  forall b rest, out = b :: rest ->
  ~ exists m sh ra o l, b = NList Horizontal m sh ra o l /\ on_axis (f_axis (symbols E s)) m sh.
Proof. exact delimiters_off. Qed.
(* the same delimiters, with and without \scriptstyle before the last one: 10 and 7 times 0.25 *)
Definition first_shift (r : result (list (node F32) * list (mnode F32))) : F32 :=
  match r with Ok (NList _ _ sh _ _ _ :: _, _) => sh | _ => f 0 end.
Example C68_style_case :
  let fixed := mkEngine ex_params ex_metrics (fun _ _ _ => f 0) (e_typeset ex_engine)
    (fun _ _ => NBox (mkMetrics (f 6) (f 0) (f 3))) (e_radical ex_engine) (e_largeop ex_engine) in
  let go l := mlist2hlist fixed 20 default_penalties T (MBoundary None :: at_ 0 97 :: l ++ [MBoundary (Some (symb 5 41))]) in
  end_style T [at_ 0 97; MStyle S; MBoundary None] = S /\ succeeds (go [MStyle S]) = true /\
  neqb (first_shift (go [])) (nopp (nmul (f 10) (nlit (25 # 100)))) = true /\
  neqb (first_shift (go [MStyle S])) (nopp (nmul (f 7) (nlit (25 # 100)))) = true.
Proof. repeat split; same. Qed.

(** C73: the delimiters are large enough for each part, if no height or depth is negative;
    around one part they have the right size *)
Theorem C73_enough_partial : forall (axis : Qc) (ms : list (metrics QcNum)) m,
  (forall m, In m ms -> (0 <= m_height m /\ 0 <= m_depth m)%Qc) -> In m ms ->
  (fence (N := QcNum) axis (m_height m) (m_depth m) <= fence_around (N := QcNum) axis ms)%Qc.
Proof. exact fence_enough. Qed.
Theorem C73_one_partial : forall (axis : Qc) (m : metrics QcNum),
  fence_around (N := QcNum) axis [m] = fence (N := QcNum) axis (m_height m) (m_depth m).
Proof. exact fence_one. Qed.
Example C73_case : nltb (fence (f 3) (f 8) (f 2)) (fence_around (f 3) [mkMetrics (f 8) (f 2) (f 1); mkMetrics (f 1) (f 9) (f 1)]) = true.
Proof. same. Qed.

(** C74: the cells are set to the largest width of their column, with a quad before
    those after the first column *)
Theorem C74_cells : forall (E : engine QcNum) n p s cells cols out x, mlist2hlist E n p s [MMatrix cells cols] = Ok (out, x) ->
  exists us b, Forall2 (formula_box E s) cells us /\ out = [vnode b] /\ cols <> O /\
    on_axis (f_axis (symbols E s)) (b_metrics b) 0%Qc /\ matrix_rows E cols us (rows_of (b_list b)) /\
    ((Q2Qc (inject_Z (-10000)) < dep (strut E))%Qc -> matrix_lines E (map (fun r => hnode (hbox r)) (rows_of (b_list b))) (b_list b)).
Proof. exact matrix_alone. Qed.
Theorem C74_first_column_partial : forall (E : engine QcNum) cols us rows i i' row row' c c', cols <> O -> Forall no_fil us ->
  matrix_rows E cols us rows -> nth_error rows i = Some row -> nth_error rows i' = Some row' ->
  nth_error row 0 = Some c -> nth_error row' 0 = Some c' -> wid c = wid c'.
Proof. exact first_column. Qed.
Theorem C74_later_columns : forall quad w j u c, set_cell quad w j u c ->
  (no_fil u -> (match j with O => 0 | _ => quad end + wid u <= w)%Qc -> wid c = w) /\
  (no_shrink u -> (w <= match j with O => 0 | _ => quad end + wid u)%Qc -> wid c = (match j with O => 0 | _ => quad end + wid u)%Qc).
Proof. intros quad w j u c H. split; intros H1 H2; [exact (cell_fits quad w j u c H H1 H2)|exact (cell_overfull quad w j u c H H1 H2)]. Qed.
Definition first_cell (n : node F32) : list F32 :=
  match n with
  | NList Vertical _ _ _ _ l =>
      flat_map (fun r => match r with NList Horizontal _ _ _ _ (NList Horizontal m _ _ _ c :: _) => [m_width m] | _ => [] end) l
  | _ => []
  end.
Example C74_case :
  flat_map first_cell (list_of (run T [MMatrix [[at_ 0 97; at_ 0 97]; [at_ 0 98; at_ 0 98]; [at_ 0 97]; [at_ 0 98]] 2])) =
    [f 16; f 16].
Proof. same. Qed.

Print Assumptions C54_both.
Print Assumptions C54_low.
Print Assumptions C69_clearance.
Print Assumptions C86_gap_partial.
Print Assumptions C86_refuted.
Print Assumptions C87_accent.
Print Assumptions C87_symbol.
Print Assumptions C87_refuted.
Print Assumptions C88_root.
Print Assumptions C71_scriptless_partial.
Print Assumptions C72_others_partial.
Print Assumptions C89_mu.
Print Assumptions C89_again_refuted.
Print Assumptions C73_enough_partial.
Print Assumptions C73_one_partial.
Print Assumptions C74_cells.
Print Assumptions C74_first_column_partial.
Print Assumptions C74_later_columns.
Print Assumptions C68_delimiters.
Print Assumptions C68_style_refuted.
