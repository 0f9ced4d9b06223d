(** Dimension, kern, glue, parshape and option texts, units: C09 - C14. *)
From Coq Require Import List Ascii String QArith Qcanon ZArith Bool Lia SpecFloat.
From Verif.Base Require Import Result Num.
From Verif.Model Require Import Token Glue Dimen DimenParser.
From Verif.Spec Require Import DimenSpec.
From Verif.Proofs Require Import DimenProofs ParserProofs ShapeProofs UnitProofs GlueOnly ShapeOnly.
Import ListNotations.
Local Open Scope char_scope.

(** [in_range] is the set of factors that [std::stof] accepts. *)
Definition all_in_range (_ : Q) : bool := true.
Definition us1 : unitsystem QcNum := mkUS (N := QcNum) (Q2Qc 1) (Q2Qc 10) (Q2Qc 4).

(** C09: signs, factor and unit are read with their values; nothing after the
    end of the unit changes the result. *)
Theorem C09_dimension :
  forall in_range d w q u v,
    dim_text d q u v -> ends w ->
    exists p, dp_writes dp_init (d ++ w) = Ok p /\ dp_hasResult p = true
      /\ dp_isFinished p = match w with [] => false | _ => true end
      /\ dp_finish (N := QcNum) in_range p
         = if in_range (Qred v) then Ok (mkDimen (N := QcNum) (Q2Qc q) u) else Throw.
Proof. exact dim_complete. Qed.

(** C09: a text with a result is a dimension text, read with its value. *)
Theorem C09_only_dimensions :
  forall in_range t p,
    dp_writes dp_init t = Ok p -> dp_hasResult p = true ->
    exists d w q u v, t = d ++ w /\ dim_text d q u v /\ ends w
      /\ dp_isFinished p = match w with [] => false | _ => true end
      /\ dp_finish (N := QcNum) in_range p
         = if in_range (Qred v) then Ok (mkDimen (N := QcNum) (Q2Qc q) u) else Throw.
Proof. exact dim_sound. Qed.

(** C09: [finish] before the text is complete never gives a finite unit. *)
Theorem C09_incomplete :
  forall in_range t p,
    dp_writes dp_init t = Ok p -> dp_hasResult p = false ->
    forall d, dp_finish (N := QcNum) in_range p = Ok d -> d_unit d = UFilll.
Proof. exact finish_unfinished. Qed.

(** C09, any arithmetic (so also binary32): the factor is the literal, times
    the sign, times the factor of the unit. *)
Theorem C09_any_arithmetic :
  forall (N : Num) in_range s f kw w,
    Forall sign s -> factor_ok f -> (exists u k, keyword kw u k) -> ends w ->
    in_range (Qred (factor_value f)) = true ->
    exists p, dp_writes dp_init ((s ++ factor_text f ++ kw) ++ w) = Ok p
      /\ forall value, value = nmul (nlit (Qred (factor_value f))) (nz (if negative s then -1 else 1)) ->
         (forall pu, In (kw, pu) physical_units ->
            dp_finish (N := N) in_range p = Ok (dimen_phy value pu))
         /\ (forall u, In (kw, u) other_units -> u <> UPt ->
            dp_finish (N := N) in_range p = Ok (mkDimen value u)).
Proof. exact @finish_any. Qed.

(** Texts without skipped characters are dimension texts. *)
Theorem C09_strict_texts :
  forall f, factor_strict f -> factor_ok f.
Proof. exact strict_ok. Qed.

Example C09_case :
  exists v, dim_text (str "--+-12,50cm") (-1 * v * (7227 # 254))%Q UPt v /\ (v == 25 # 2)%Q.
Proof.
  eexists. split.
  - exact (dim_text_intro (str "--+-") (mkFactor (str "12") (Some (",", str "50"))) (str "cm") UPt (7227 # 254)
      ltac:(repeat constructor; (left; reflexivity) || (right; reflexivity))
      (strict_ok (mkFactor (str "12") (Some (",", str "50"))) (conj (digits_b (str "12") eq_refl) (conj (or_intror eq_refl) (digits_b (str "50") eq_refl))))
      kw_cm).
  - reflexivity.
Qed.
(* what is skipped: "1-2 pt" is read as 12 points *)
Example C09_skipped :
  exists p, dp_writes dp_init (str "1-2 pt") = Ok p
    /\ rmap (fun d : dimen QcNum => (this (d_value d), d_unit d)) (dp_finish (N := QcNum) all_in_range p) = Ok ((12 # 1)%Q, UPt).
Proof. eexists. split; [reflexivity|]. vm_compute. reflexivity. Qed.

(** C10: exactly the texts of a finite dimension give a kern, of that width. *)
Theorem C10_kern :
  forall in_range us t w,
    (exists p, kp_writes kp_init t = Ok p /\ kp_finish (N := QcNum) in_range us p = Ok w)
    <-> exists d e q u v, t = d ++ e /\ dim_text d q u v /\ tail_ok e /\ finite u
          /\ in_range (Qred v) = true /\ w = length_in us u q.
Proof. exact kern_iff. Qed.

(** C10: everything else is an exception. *)
Theorem C10_outcomes :
  forall in_range us t,
    (exists p, kp_writes kp_init t = Ok p
       /\ ((exists w, kp_finish (N := QcNum) in_range us p = Ok w) \/ kp_finish (N := QcNum) in_range us p = Throw))
    \/ kp_writes kp_init t = Throw.
Proof. exact kern_outcome. Qed.

Theorem C10_infinite_refused :
  forall in_range us d e q u v p,
    dim_text d q u v -> ~ finite u -> kp_writes kp_init (d ++ e) = Ok p ->
    tail_ok e -> kp_finish (N := QcNum) in_range us p = Throw.
Proof. exact kern_infinite. Qed.

Example C10_case :
  bind (kp_writes kp_init (str "-2.5em  ")) (fun p => rmap (fun x : QcNum => this x) (kp_finish (N := QcNum) all_in_range us1 p)) = Ok (-25 # 1)%Q
  /\ bind (kp_writes kp_init (str "1fil")) (fun p => rmap (fun x : QcNum => this x) (kp_finish (N := QcNum) all_in_range us1 p)) = Throw.
Proof. split; vm_compute; reflexivity. Qed.

(** C11: 'D' and 'D plus E minus F'. *)
Theorem C11_space :
  forall in_range us d w q u v,
    dim_text d q u v -> finite u -> in_range (Qred v) = true -> tail_ok w ->
    exists p, gp_writes (N := QcNum) in_range us gp_init (d ++ w) = Ok p
      /\ gp_finish in_range us p = Ok (mkGlue (N := QcNum) (length_in us u q) n0 n0 Normal Normal).
Proof. exact glue_plain. Qed.

Theorem C11_plus_minus_partial :
  forall in_range us d c b1 b2 e x b3 b4 f w q u v q2 u2 v2 q3 u3 v3,
    dim_text d q u v -> finite u -> dim_text e q2 u2 v2 -> dim_text f q3 u3 v3 ->
    ~ lower c -> ~ lower x -> ends w -> blanks b1 -> blanks b2 -> blanks b3 -> blanks b4 ->
    in_range (Qred v) = true -> in_range (Qred v2) = true -> in_range (Qred v3) = true ->
    exists p, gp_writes (N := QcNum) in_range us gp_init
        ((d ++ [c] ++ b1 ++ str "plus" ++ b2 ++ e ++ [x]) ++ b3 ++ str "minus" ++ b4 ++ f ++ w) = Ok p
      /\ gp_finish in_range us p
         = Ok (mkGlue (N := QcNum) (length_in us u q) (length_in us u3 q3) (length_in us u2 q2)
                      (order_of u3) (order_of u2)).
Proof. exact glue_full. Qed.

Example C11_case :
  bind (gp_writes (N := QcNum) all_in_range us1 gp_init (str "2em plus 1.5fill minus 3pt"))
    (fun p => rmap (fun g : glue QcNum => (this (g_space g), (this (g_stretch g), g_stretchOrder g), (this (g_shrink g), g_shrinkOrder g)))
                   (gp_finish all_in_range us1 p))
  = Ok ((20 # 1)%Q, ((3 # 2)%Q, Fill), ((3 # 1)%Q, Normal)).
Proof. vm_compute. reflexivity. Qed.

(** C11: no other text is a glue. When [finish] comes before the unit of the
    shrink is complete, the shrink becomes infinite. *)
Theorem C11_only :
  forall in_range us t p g,
    gp_writes (N := QcNum) in_range us gp_init t = Ok p -> gp_finish in_range us p = Ok g ->
    (exists d w s, t = d ++ w /\ length_text in_range us d s /\ tail_ok w /\
       g = mkGlue (N := QcNum) s n0 n0 Normal Normal)
    \/ (exists d c b1 b2 e x b3 b4 f w s a oa,
          t = (d ++ [c] ++ b1 ++ str "plus" ++ b2 ++ e ++ [x]) ++ b3 ++ str "minus" ++ b4 ++ f ++ w /\
          length_text in_range us d s /\ comp_text in_range us e a oa /\ ~ lower c /\ ~ lower x /\
          blanks b1 /\ blanks b2 /\ blanks b3 /\ blanks b4 /\ ends w /\
          g_space g = s /\ g_stretch g = a /\ g_stretchOrder g = oa /\
          (comp_text in_range us f (g_shrink g) (g_shrinkOrder g)
           \/ w = [] /\ (~ exists q u v, dim_text f q u v) /\ g_shrinkOrder g = Filll)).
Proof. exact glue_only. Qed.

(** C11: everything else is an exception. *)
Theorem C11_outcomes :
  forall in_range us t,
    (exists p, gp_writes (N := QcNum) in_range us gp_init t = Ok p /\
       ((exists g, gp_finish in_range us p = Ok g) \/ gp_finish in_range us p = Throw))
    \/ gp_writes (N := QcNum) in_range us gp_init t = Throw.
Proof. exact glue_outcomes. Qed.

(** C11 is false for 'D plus E': every such text is refused at the end. *)
Theorem C11_plus_refuted :
  forall in_range us d c b1 b2 e q u v q2 u2 v2 w,
    dim_text d q u v -> ~ lower c -> finite u -> in_range (Qred v) = true -> blanks b1 -> blanks b2 ->
    dim_text e q2 u2 v2 -> in_range (Qred v2) = true -> tail_ok w ->
    exists p, gp_writes (N := QcNum) in_range us gp_init ((d ++ [c] ++ b1 ++ str "plus" ++ b2 ++ e) ++ w) = Ok p
              /\ gp_finish in_range us p = Throw.
Proof. exact glue_plus_only. Qed.

(** C11 is false for 'D minus F': every such text is refused at the 'm'. *)
Theorem C11_minus_refuted :
  forall in_range us d c b1 q u v w,
    dim_text d q u v -> ~ lower c -> finite u -> in_range (Qred v) = true -> blanks b1 ->
    gp_writes (N := QcNum) in_range us gp_init (d ++ [c] ++ b1 ++ str "minus" ++ w) = Throw.
Proof. exact glue_minus_only. Qed.

(** An infinite natural space is refused. *)
Theorem C11_infinite_space :
  forall in_range us d c q u v,
    dim_text d q u v -> ~ lower c -> ~ finite u ->
    gp_writes (N := QcNum) in_range us gp_init (d ++ [c]) = Throw.
Proof. exact glue_infinite_space. Qed.

Example C11_refuted_cases :
  bind (gp_writes (N := QcNum) all_in_range us1 gp_init (str "2pt plus 1fil"))
       (fun p => rmap (fun _ => tt) (gp_finish all_in_range us1 p)) = Throw
  /\ rmap (fun _ => tt) (gp_writes (N := QcNum) all_in_range us1 gp_init (str "2pt minus 1pt")) = Throw
  (* the shrink lacks a unit: it becomes infinite *)
  /\ bind (gp_writes (N := QcNum) all_in_range us1 gp_init (str "2pt plus 1fil minus 3"))
       (fun p => rmap (fun g : glue QcNum => g_shrinkOrder g) (gp_finish all_in_range us1 p)) = Ok Filll.
Proof. repeat split; vm_compute; reflexivity. Qed.

(** C12: n lines give n pairs. *)
Theorem C12_parshape :
  forall in_range us (eq : bool) ds ps t b,
    Forall digit ds -> ds <> [] -> (whole (digits_in ds) <= 2147483647)%Z ->
    whole (digits_in ds) = Z.of_nat (List.length ps) -> shape_text in_range us ps t -> blanks b ->
    exists p, pp_writes (N := QcNum) in_range us pp_init
                (((if eq then ["="] else []) ++ ds ++ [" "]) ++ t ++ b) = Ok p
              /\ pp_st p = PFinished /\ pp_finish in_range us p = Ok ps.
Proof. exact parshape_complete. Qed.

(** C12: the last length may be ended by [finish]. *)
Theorem C12_parshape_end :
  forall in_range us (eq : bool) ds ps t i c q u v l q2 u2 v2,
    Forall digit ds -> (whole (digits_in ds) <= 2147483647)%Z ->
    whole (digits_in ds) = Z.of_nat (S (List.length ps)) -> shape_text in_range us ps t ->
    dim_text i q u v -> finite u -> in_range (Qred v) = true -> ~ lower c ->
    dim_text l q2 u2 v2 -> finite u2 -> in_range (Qred v2) = true ->
    exists p, pp_writes (N := QcNum) in_range us pp_init
                (((if eq then ["="] else []) ++ ds ++ [" "]) ++ t ++ (i ++ [c]) ++ l) = Ok p
              /\ pp_finish in_range us p = Ok (ps ++ [(length_in us u q, length_in us u2 q2)]).
Proof. exact parshape_last. Qed.

(** C12: no other text is a parshape. *)
Theorem C12_only :
  forall in_range us t p ps,
    pp_writes (N := QcNum) in_range us pp_init t = Ok p -> pp_finish in_range us p = Ok ps ->
    exists h n, count_text h n /\ (n <= 2147483647)%Z /\ n = Z.of_nat (List.length ps) /\
      ((exists t' b, t = h ++ [" "] ++ t' ++ b /\ shape_text in_range us ps t' /\ blanks b)
       \/ (exists ps0 t' i c l s z, t = h ++ [" "] ++ t' ++ (i ++ [c]) ++ l /\ shape_text in_range us ps0 t' /\
             length_text in_range us i s /\ ~ lower c /\ length_text in_range us l z /\ ps = ps0 ++ [(s, z)])
       \/ (ps = [] /\ t = h)).
Proof. exact parshape_only. Qed.

(** C12: behaviour is undefined exactly when the number of lines overflows. *)
Theorem C12_overflow :
  forall in_range us t, pp_writes (N := QcNum) in_range us pp_init t = UB <->
    exists h rest n, t = h ++ rest /\ count_text h n /\ (2147483647 < n)%Z.
Proof. exact parshape_overflow. Qed.
Theorem C12_finish_defined :
  forall in_range us t p, pp_writes (N := QcNum) in_range us pp_init t = Ok p ->
    pp_finish in_range us p <> UB /\ pp_finish in_range us p <> Fuel.
Proof. exact parshape_finish_defined. Qed.

(** An infinite unit in a parshape fails the assert of [Dimen::operator()]
    (without asserts the value is FLT_MAX). *)
Theorem C12_infinite_aborts :
  forall in_range us i c q u v n sp,
    dim_text i q u v -> ~ finite u -> in_range (Qred v) = true -> ~ lower c ->
    pp_writes (N := QcNum) in_range us (mkPP PIndent n sp None dp_init) (i ++ [c]) = Abort.
Proof. exact parshape_infinite. Qed.

Example C12_only_case :
  (exists p, pp_writes (N := QcNum) all_in_range us1 pp_init (str "2 0pt 10pc 1em 1in") = Ok p)
  /\ rmap (fun _ => tt) (pp_writes (N := QcNum) all_in_range us1 pp_init (str "=0 x")) = Throw
  /\ bind (pp_writes (N := QcNum) all_in_range us1 pp_init (str "=")) (fun p => rmap (fun _ => tt) (pp_finish all_in_range us1 p)) = Ok tt
  /\ count_text (str "=12") 12.
Proof.
  split; [eexists; vm_compute; reflexivity|]. split; [vm_compute; reflexivity|]. split; [vm_compute; reflexivity|].
  exists true, (str "12"). repeat split; [apply (digits_b (str "12") eq_refl)|right; reflexivity].
Qed.
Example C12_case :
  bind (pp_writes (N := QcNum) all_in_range us1 pp_init (str "=2 0pt 10pc 1em 1in"))
    (fun p => rmap (map (fun x : QcNum * QcNum => (this (fst x), this (snd x)))) (pp_finish all_in_range us1 p))
  = Ok [(0 # 1, 120 # 1)%Q; (10 # 1, 7227 # 100)%Q]
  /\ rmap (fun _ => tt) (pp_writes (N := QcNum) all_in_range us1 pp_init (str "=1 1fil ")) = Abort
  (* a space after '=' ends the specification *)
  /\ rmap (fun p : pparser QcNum => pp_st p) (pp_writes (N := QcNum) all_in_range us1 pp_init (str "= ")) = Ok PFinished
  /\ rmap (fun _ => tt) (pp_writes (N := QcNum) all_in_range us1 pp_init (str "=99999999999")) = UB.
Proof. repeat split; vm_compute; reflexivity. Qed.

(** C13: [moved] is what [std::move] leaves in a string; an empty string stays
    empty in every implementation known. *)
Theorem C13_roundtrip :
  forall moved, moved [] = [] ->
  forall bl l rest, blanks bl -> Forall opt_ok l -> last l ([], Some []) <> ([], None) ->
    exists q, op_writes moved op_init (bl ++ "[" :: opts_text l ++ "]" :: rest) = Ok q
              /\ op_finish q = Ok (map opt_value l).
Proof. exact options_roundtrip. Qed.

(** C13: every text between the brackets. *)
Theorem C13_every_text :
  forall moved, moved [] = [] ->
  forall bl body rest, blanks bl -> ~ In "]" body ->
    exists q, op_writes moved op_init (bl ++ "[" :: body ++ "]" :: rest) = Ok q
              /\ op_finish q = Ok (options_of body).
Proof. exact options_parse. Qed.

(** C13: and every other text throws; there is no third outcome. *)
Theorem C13_rejects : forall moved t,
  (exists bl body rest, blanks bl /\ ~ In "]" body /\ t = bl ++ "[" :: body ++ "]" :: rest) \/
  bind (op_writes moved op_init t) op_finish = Throw.
Proof. exact options_reject. Qed.
Example C13_rejects_case :
  bind (op_writes (fun _ => []) op_init (str " x[a]")) op_finish = Throw /\
  bind (op_writes (fun _ => []) op_init (str "[a,b=c")) op_finish = Throw.
Proof. repeat split; vm_compute; reflexivity. Qed.

Example C13_case :
  bind (op_writes (fun _ => []) op_init (str " [a=1, b, c=x=y]zz,")) op_finish
  = Ok [(str "a", str "1"); (str "b", []); (str "c", str "x=y")]
  /\ options_of (str ",") = [([], [])] /\ options_of [] = [].
Proof. repeat split; vm_compute; reflexivity. Qed.
(* without the assumption on moved-from strings a later key inherits text *)
Example C13_moved :
  bind (op_writes (fun _ => str "?") op_init (str "[a,b]")) op_finish
  = Ok [(str "a", []); (str "b", str "?")].
Proof. vm_compute. reflexivity. Qed.

(** C14: the keywords, and no other text (C strings contain no NUL). *)
Theorem C14_keywords :
  forall s, Forall (fun c => c <> NUL) s ->
    (forall u, str2phyunit s = Some u <-> In (s, u) physical_units)
    /\ (forall u, str2unit s = Some u <-> In (s, u) other_units).
Proof. exact (fun s H => conj (fun u => phy_recognised s u H) (fun u => unit_recognised s u H)). Qed.

Theorem C14_factors :
  forall (v : Qc) u, dimen_phy (N := QcNum) v u = mkDimen (N := QcNum) (v * Q2Qc (points u))%Qc UPt.
Proof. exact phy_exact. Qed.

Theorem C14_standard :
  (points Inch == 7227 # 100 /\ 72 * points BigPoint == points Inch
   /\ (254 # 100) * points Centimeter == points Inch /\ 10 * points Millimeter == points Centimeter
   /\ 1157 * points DidotPoint == 1238 /\ points Cicero == 12 * points DidotPoint
   /\ points Pica == 12 /\ points Point == 1)%Q.
Proof. repeat split. Qed.

Theorem C14_linear :
  forall (a : Qc) (d : dimen QcNum) (us : unitsystem QcNum) (x : Qc),
    d_eval d us = Ok x ->
    d_eval (d_mul_l (N := QcNum) a d) us = Ok (a * x)%Qc /\ d_eval (d_mul_r (N := QcNum) d a) us = Ok (a * x)%Qc.
Proof. exact eval_linear. Qed.

(** C14, binary32: each factor is within one unit in the last place. *)
Theorem C14_binary32 :
  forall u, match phy_factor (N := F32) u with None => u = Point | Some f => close f (points u) = true end.
Proof. exact factors_close. Qed.

Example C14_case :
  str2phyunit (str "mm") = Some Millimeter /\ str2unit (str "fill") = Some UFill
  /\ str2phyunit (str "mmm") = None /\ str2unit (str "fi") = None
  /\ this (d_value (dimen_phy (N := QcNum) (Q2Qc (254 # 100)) Centimeter)) = (7227 # 100)%Q.
Proof. repeat split; vm_compute; reflexivity. Qed.

Print Assumptions C09_dimension.
Print Assumptions C09_only_dimensions.
Print Assumptions C09_incomplete.
Print Assumptions C09_any_arithmetic.
Print Assumptions C09_strict_texts.
Print Assumptions C10_kern.
Print Assumptions C10_outcomes.
Print Assumptions C10_infinite_refused.
Print Assumptions C11_space.
Print Assumptions C11_plus_minus_partial.
Print Assumptions C11_plus_refuted.
Print Assumptions C11_minus_refuted.
Print Assumptions C11_infinite_space.
Print Assumptions C12_parshape.
Print Assumptions C12_parshape_end.
Print Assumptions C12_infinite_aborts.
Print Assumptions C13_roundtrip.
Print Assumptions C13_every_text.
Print Assumptions C13_rejects.
Print Assumptions C14_keywords.
Print Assumptions C14_factors.
Print Assumptions C14_standard.
Print Assumptions C14_linear.
Print Assumptions C14_binary32.
Print Assumptions C11_only.
Print Assumptions C11_outcomes.
Print Assumptions C12_only.
Print Assumptions C12_overflow.
Print Assumptions C12_finish_defined.
